(** Lemmas about the nonlinear optimiser in exact arithmetic. *)
From Coq Require Import ZArith Reals List Bool Lia Lra Arith Sorted.
From Coquelicot Require Import Coquelicot.
From Verif Require Import Num RSum SpecPoly ModelPolynomial ModelSegment ModelVertex ModelTrajectory ModelLinear
  SpecSegment SpecVertex SpecLinear ProofPolynomial ProofPolynomial2 ProofSegment ProofSegment2 ProofVertex ProofTrajectory3
  ProofRoots ProofMatrix ProofHermite ProofReorder ProofLinear ProofLinear2 ProofLinear3 ProofLinear4 ProofLinear5 ProofLinear6 ProofLinear7
  ModelNonlinear SpecNonlinear ProofNonlinear ProofNonlinear2 ProofNonlinear3 ProofNonlinear4 ProofNonlinear5.
Import ListNotations.
Open Scope R_scope.

Section Values.
  Context (h : nat) (inv : mat R -> mat R).
  Implicit Types (o : opt R) (vs : list (vertex R)).

  Lemma free_node vs o d j v k : prepared h inv vs o -> (d < o_dim o)%nat ->
    nth_error (unconstrained h vs) j = Some (v, k) ->
    node h vs o d v k = nth j (nth d (o_free o) []) 0.
  Proof.
    intros P Hd Hj. assert (Hn := pr_nseg _ _ _ _ P).
    assert (Hin := nth_error_In _ _ Hj). apply unconstrained_In in Hin. destruct Hin as (Hv & Hk & _).
    destruct (con_position h inv vs o v k P Hv Hk) as (j' & Hj' & Ej & En). rewrite En.
    assert (Hjl : (j < o_nfree o)%nat).
    { rewrite (prepared_nfree h inv vs o P). apply nth_error_Some. congruence. }
    assert (Ef := free_keys h (o_dim o) vs (o_nseg o) Hn).
    assert (j' = (o_nfixed o + j)%nat).
    { apply (cols_inj h (o_dim o) vs (o_nseg o) Hn j' (o_nfixed o + j) (mkCon 0 0 [])).
      - rewrite (cols_len h inv vs o P). exact Hj'.
      - rewrite (cols_len h inv vs o P). lia.
      - rewrite Ej, con_at_key. unfold cols. rewrite (pr_nfixed _ _ _ _ P).
        rewrite app_nth2 by lia. rewrite Nat.add_comm, Nat.add_sub.
        rewrite <- (map_nth key). rewrite Ef. symmetry. apply nth_error_nth. exact Hj. }
    subst j'. unfold vget.
    assert (Lf : length (nth d (o_fixed o) []) = o_nfixed o).
    { rewrite (pr_fixed _ _ _ _ P), nth_map_seq by exact Hd. rewrite map_length. symmetry. apply (pr_nfixed _ _ _ _ P). }
    rewrite app_nth2 by lia. rewrite Lf. replace (o_nfixed o + j - o_nfixed o)%nat with j by lia. reflexivity.
  Qed.

  Lemma synced_free_value vs o d j v k : inverse_ok h inv -> prepared h inv vs o -> synced h o -> times_ok o ->
    (d < o_dim o)%nat -> nth_error (unconstrained h vs) j = Some (v, k) ->
    vertex_value (o_segments o) v k d (nth j (nth d (o_free o) []) 0).
  Proof.
    intros Hinv P Hs Ht Hd Hj. assert (Hn := pr_nseg _ _ _ _ P).
    assert (Hin := nth_error_In _ _ Hj). apply unconstrained_In in Hin. destruct Hin as (Hv & Hk & _).
    unfold vertex_value. rewrite (synced_chain h inv vs o P Hs) by lia. rewrite (proj2 (chain_of_shape h o)).
    rewrite <- (free_node vs o d j v k P Hd Hj). split; intros Hr.
    - apply (chain_derivs h inv vs o v d k Hinv P Ht Hr Hd Hk).
    - assert (Hi' : (v - 1 < o_nseg o)%nat) by lia.
      assert (Es : seg_time (nth (v - 1) (chain_of h o) no_seg) = nth (v - 1) (o_times o) 0).
      { unfold chain_of. rewrite nth_map_seq by exact Hi'. reflexivity. }
      rewrite Es, (proj2 (chain_derivs h inv vs o (v - 1) d k Hinv P Ht Hi' Hd Hk)).
      replace (S (v - 1)) with v by lia. reflexivity.
  Qed.
End Values.

Lemma widened_R (x lo up : R) : lo <= up -> widened x (lo, up) = (Rmin lo x, Rmax up x).
Proof.
  intros H. unfold widened. cbn [fst snd nltb R_ops].
  destruct (Rltb_spec x lo).
  - rewrite Rmin_right, Rmax_left by lra. reflexivity.
  - destruct (Rltb_spec up x).
    + rewrite Rmin_left, Rmax_right by lra. reflexivity.
    + rewrite Rmin_left, Rmax_left by lra. reflexivity.
Qed.

Lemma dbl_max_pos : 0 < @dbl_max R R_ops.
Proof. unfold dbl_max. rnum. apply IZR_lt. reflexivity. Qed.
Lemma dbl_lowest_opp : @dbl_lowest R R_ops = - dbl_max.
Proof. reflexivity. Qed.
Lemma kTimeLowerBound_R : @kTimeLowerBound R R_ops = 1 / 10.
Proof. unfold kTimeLowerBound, nlit. rnum. reflexivity. Qed.

(** ** Perturbed times *)
Lemma perturbed_sum (times : list R) (n : nat) : (2 <= length times)%nat -> (n < length times)%nat ->
  lsum (perturbed_times times (length times) n) = lsum times.
Proof.
  intros Hl Hn. rewrite !lsum_nth. unfold perturbed_times. rewrite map_length, seq_length.
  set (m := length times) in *.
  set (c := 1 / 10 / (INR m - 1)).
  rewrite (rsum_ext m _ (fun i => nth i times 0 + (delta n i * (1 / 10 + c) - c))).
  - rewrite rsum_plus. rewrite <- (Rplus_0_r (rsum m (fun i => nth i times 0))) at 2. f_equal.
    rewrite (rsum_ext m _ (fun i => delta n i * (1 / 10 + c) + (- c))) by (intros; ring).
    rewrite rsum_plus, rsum_delta_l by exact Hn. rewrite rsum_const. unfold c.
    assert (2 <= INR m) by (change 2 with (INR 2); apply le_INR; exact Hl). field. lra.
  - intros i Hi. rewrite nth_map_seq by exact Hi. cbn [Nat.add]. unfold delta. rnum.
    unfold nlit. rnum. rewrite <- INR_IZR_INZ. fold c. rewrite Nat.eqb_sym. destruct (Nat.eqb n i).
    + lra.
    + unfold c. lra.
Qed.

(** ** Soft constraints *)
Lemma fold_left_sum {A} (f : A -> R) : forall l acc, fold_left (fun a x => a + f x) l acc = acc + lsum (map f l).
Proof.
  induction l as [|a l IH]; intros acc; cbn [fold_left map lsum]; [lra|]. rewrite IH. lra.
Qed.

(** Success of the steps on positive times. *)
Section Success.
  Context (h : nat) (inv : mat R -> mat R) (solve : mat R -> list R -> list R).
  Context (Hsol : forall A b, length (solve A b) = length b).

  Lemma update_times_ok vs o x : prepared h inv vs o -> (0 < o_nseg o)%nat ->
    length x = o_nseg o -> List.Forall (fun t => 0 < t) x -> exists o', opt_updateSegmentTimes h inv o x = Ok o'.
  Proof.
    intros P Hn Hl Ht. assert (Hh := prepared_h h inv vs o 0 P Hn). assert (Hr := pr_deriv _ _ _ _ P).
    unfold opt_updateSegmentTimes. rewrite Hl, Nat.eqb_refl. cbn [negb].
    assert (Em : exists ms, omap (mats_of h inv (o_deriv o)) x = Ok ms).
    { apply omap_total. intros t Hin. rewrite List.Forall_forall in Ht. specialize (Ht t Hin). unfold mats_of.
      destruct (nltb n0 t) eqn:E; [|rnum; apply Rltb_false in E; lra]. cbn [negb].
      unfold cost_matrix, opt_N. destruct (Z.leb_spec (Z.of_nat (2 * h)) (o_deriv o)); [lia|].
      destruct (Z.ltb_spec (o_deriv o) 0); [lia|]. destruct (Nat.ltb_spec kMaxConvolutionSize (2 * h)) as [L|_]; [rewrite kTable in L; lia|].
      cbn [orb obind]. destruct (mapping_matrix_ok h t Hh) as (A & -> & _). cbn [obind]. eauto. }
    destruct Em as (ms & Em). change (omap (mats_of h inv (o_deriv o)) x) with
      (omap (fun t => if negb (nltb n0 t) then Abort else Q <-- cost_matrix h (o_deriv o) t ;; A <-- mapping_matrix h t ;; Ok (Q, invert_mapping h inv A)) x) in Em.
    rewrite Em. cbn [obind]. eauto.
  Qed.
  Lemma step_time_ok vs o x : prepared h inv vs o -> free_sized o -> (0 < o_nseg o)%nat ->
    length x = o_nseg o -> List.Forall (fun t => 0 < t) x -> exists o', step_time h inv solve o x o'.
  Proof.
    intros P Hf Hn Hl Ht. destruct (update_times_ok vs o x P Hn Hl Ht) as (o1 & E1).
    destruct (times_prepared h inv vs o x o1 P E1) as (P1 & _ & D1 & F1 & _).
    destruct (times_same h inv o x o1 E1) as (Sm & _). destruct (same_fields _ _ Sm) as (_ & _ & _ & _ & _ & _ & Y7 & _ & _ & Y10).
    destruct (solve_ok h inv solve vs o1 Hsol P1 ltac:(lia)) as (o2 & E2).
    { right. intros d Hd. rewrite F1, Y10. apply Hf. lia. }
    exists o2, o1. auto.
  Qed.
  Lemma step_all_ok vs o x : prepared h inv vs o -> (0 < o_nseg o)%nat ->
    length x = (o_nseg o + o_nfree o * o_dim o)%nat -> List.Forall (fun t => 0 < t) (times_of (o_nseg o) x) -> exists o', step_all h inv o x o'.
  Proof.
    intros P Hn Hl Ht. destruct (update_times_ok vs o (unpack_times (o_nseg o) x) P Hn) as (o1 & E1).
    { unfold unpack_times. rewrite map_length, seq_length. reflexivity. }
    { rewrite unpack_times_spec by lia. exact Ht. }
    destruct (times_prepared h inv vs o _ o1 P E1) as (P1 & _ & D1 & F1 & _).
    destruct (times_same h inv o _ o1 E1) as (Sm & _). destruct (same_fields _ _ Sm) as (_ & _ & _ & _ & _ & _ & Y7 & _ & _ & Y10).
    set (free := unpack_free (o_nseg o) (o_nfree o) (o_dim o) x).
    assert (Lf : length free = o_dim o1) by (unfold free, unpack_free; rewrite map_length, seq_length; congruence).
    assert (Hff : forall f, In f free -> length f = o_nfree o1).
    { intros f Hi. unfold free, unpack_free in Hi. apply in_map_iff in Hi as (d & <- & _). rewrite map_length, seq_length. congruence. }
    assert (E : exists o', opt_setFreeConstraints h o1 free = Ok o').
    { unfold opt_setFreeConstraints. rewrite Lf, Nat.eqb_refl. cbn [negb]. replace (forallb _ free) with true.
      2:{ symmetry. apply forallb_forall. intros f Hi. apply Nat.eqb_eq. exact (Hff f Hi). }
      cbn [negb]. assert (P' : prepared h inv vs (with_free o1 free)) by (apply with_free_prepared; assumption).
      fold (with_free o1 free). rewrite updateSegments_ok; [eauto|exact (prepared_shaped h inv vs _ P')|exact (prepared_sized h inv vs _ P')|].
      intros d Hd'. cbn [with_free o_free o_nfree o_dim] in *. apply Hff. apply nth_In. lia. }
    destruct E as (o' & E). exists o'. split; [exact Hl|]. exists o1. auto.
  Qed.
  (** The cost of an object with computed segments. *)
  Lemma synced_cost vs o : (0 < o_dim o)%nat -> prepared h inv vs o -> synced h o ->
    opt_computeCost h o = Ok (integral_cost (Z.to_nat (o_deriv o)) (o_dim o) (o_segments o)).
  Proof.
    intros Hd P S. apply (compute_cost_integral h inv vs); [exact P|].
    assert (CS := chain_of_shape_R h inv vs o P). rewrite <- (synced_chain h inv vs o P S) in CS by lia.
    destruct CS as (_ & Hsh). intros i Hi. apply Hsh. rewrite (pr_times _ _ _ _ P). exact Hi.
  Qed.
  Lemma clamped_ok times nseg i : List.Forall (fun t => 0 < t) (clamped_times times nseg i) /\ length (clamped_times times nseg i) = length times.
  Proof.
    unfold clamped_times. split.
    - apply List.Forall_forall. intros x Hx. apply in_map_iff in Hx as (y & <- & _). unfold nmax. rewrite kTimeLowerBound_R. rnum.
      destruct (Rltb_spec (1 / 10) y); lra.
    - unfold perturbed_times. rewrite !map_length, seq_length. reflexivity.
  Qed.
  Lemma mellinger_loop_ok vs times nseg J : (0 < nseg)%nat -> length times = nseg -> forall idx a,
    (0 < o_dim (fst a))%nat -> prepared h inv vs (fst a) -> free_sized (fst a) -> o_nseg (fst a) = nseg ->
    exists r, ofold (mellinger_step h inv solve times nseg J) idx a = Ok r /\ prepared h inv vs (fst r) /\ free_sized (fst r) /\
      o_nseg (fst r) = nseg.
  Proof.
    intros Hn Hl. induction idx as [|i idx IH]; intros a Hd P Hf En; cbn [ofold]; [eauto|].
    destruct (clamped_ok times nseg i) as (Hpos & Lc).
    destruct (step_time_ok vs (fst a) (clamped_times times nseg i) P Hf ltac:(lia) ltac:(lia) Hpos) as (o2 & o1 & E1 & E2).
    destruct (times_prepared h inv vs _ _ o1 P E1) as (P1 & _). destruct (solve_prepared h inv solve vs o1 o2 P1 E2) as (P2 & S2 & _).
    assert (Sm : step_time h inv solve (fst a) (clamped_times times nseg i) o2) by (exists o1; auto).
    destruct (step_time_same h inv solve _ _ _ Sm) as (Sm' & _). destruct (same_fields _ _ Sm') as (X & _).
    assert (Hn2 : o_nseg o2 = nseg) by (assert (Q := pr_nseg _ _ _ _ P2); assert (Q' := pr_nseg _ _ _ _ P); lia).
    unfold mellinger_step at 1. rewrite E1. cbn [obind]. rewrite E2. cbn [obind].
    rewrite (synced_cost vs o2 ltac:(lia) P2 S2). cbn [obind]. apply IH; cbn [fst]; [lia|exact P2|exact (proj1 S2)|exact Hn2].
  Qed.
  Lemma mellinger_ok vs o : prepared h inv vs o -> synced h o -> (0 < o_nseg o)%nat -> (0 < o_dim o)%nat ->
    List.Forall (fun t => 0 < t) (o_times o) -> exists o' J g, mellinger_gradient h inv solve o = Ok (o', J, g).
  Proof.
    intros P S Hn Hd Ht. unfold mellinger_gradient. rewrite (synced_cost vs o Hd P S). cbn [obind].
    destruct (Nat.eqb_spec (o_nseg o) 1) as [E1|E1]; [eauto|].
    assert (Lt := pr_times _ _ _ _ P).
    destruct (mellinger_loop_ok vs (o_times o) (o_nseg o) (integral_cost (Z.to_nat (o_deriv o)) (o_dim o) (o_segments o)) Hn Lt
       (seq 0 (o_nseg o)) (o, []) Hd P (proj1 S) eq_refl) as (r & -> & Pr & Fr & Er). cbn [obind].
    destruct (step_time_ok vs (fst r) (o_times o) Pr Fr ltac:(lia) ltac:(lia) Ht) as (o2 & o1 & F1 & F2).
    rewrite F1. cbn [obind]. rewrite F2. cbn [obind]. eauto.
  Qed.
End Success.
