(** Success of setup and solve, the maximum of a magnitude, and oracles that meet
    their specifications (real instance). *)
From Coq Require Import ZArith Reals List Bool Lia Lra Arith Sorted.
From Coquelicot Require Import Coquelicot.
From Verif Require Import Num RSum SpecPoly ModelPolynomial ModelSegment ModelVertex ModelTrajectory ModelLinear
  SpecSegment SpecVertex SpecLinear ProofPolynomial ProofPolynomial2 ProofExtrema ExtremaMath ProofSegment ProofSegment2 ProofVertex ProofTrajectory3
  ProofRoots ProofMatrix ProofHermite ProofReorder ProofLinear ProofLinear2 ProofLinear3 ProofLinear4 ProofLinear5.
Import ListNotations.
Open Scope R_scope.

Lemma omap_total {A B} (f : A -> outcome B) l : (forall x, In x l -> exists y, f x = Ok y) -> exists r, omap f l = Ok r.
Proof.
  induction l as [|x l IH]; intros H; cbn [omap]; [eauto|].
  destruct (H x) as (y & ->); [left; reflexivity|]. cbn [obind].
  destruct IH as (r & ->); [intros z Hz; apply H; right; exact Hz|]. cbn [obind]. eauto.
Qed.

(** ** Oracles *)
Lemma inverse_unique n D E F i j : is_inverse n D E -> is_inverse n D F -> (i < n)%nat -> (j < n)%nat ->
  mget E i j = mget F i j.
Proof.
  intros HE HF Hi Hj.
  rewrite <- (inverse_cancel n F D (fun k => mget E k j) i).
  2:{ intros a b Ha Hb. destruct (HF a b Ha Hb). split; assumption. }
  2:{ exact Hi. }
  rewrite (rsum_ext n _ (fun k => mget F i k * (if Nat.eqb k j then 1 else 0))).
  - rewrite (rsum_ext n _ (fun k => if Nat.eqb k j then mget F i k else 0)).
    + apply (rsum_delta n j (fun k => mget F i k)). exact Hj.
    + intros k _. destruct (Nat.eqb k j); ring.
  - intros k Hk. f_equal. exact (proj1 (HE k j Hk Hj)).
Qed.

Definition inv_entry (n : nat) (D : mat R) (i j : nat) (x : R) : Prop :=
  exists E, is_inverse n D E /\ mget E i j = x.
Definition perfect_inv (n : nat) (D : mat R) : mat R :=
  mk_mat n n (fun i j =>
    match excluded_middle_dec ((exists x, inv_entry n D i j x) /\ forall x y, inv_entry n D i j x -> inv_entry n D i j y -> x = y) with
    | left H => proj1_sig (unique_real _ (proj1 H) (proj2 H))
    | right _ => 0
    end).
Lemma perfect_inv_ok n : inverse_ok n (perfect_inv n).
Proof.
  intros D _ (E & HE).
  assert (G : forall i j, (i < n)%nat -> (j < n)%nat -> mget (perfect_inv n D) i j = mget E i j).
  { intros i j Hi Hj. unfold perfect_inv. rewrite mget_mk by assumption.
    destruct (excluded_middle_dec _) as [H|H].
    - destruct (unique_real _ _ _) as (x & F & HF & <-). cbn [proj1_sig]. apply (inverse_unique n D); assumption.
    - exfalso. apply H. split; [exists (mget E i j), E; auto|].
      intros x y (F & HF & <-) (F' & HF' & <-). apply (inverse_unique n D); assumption. }
  intros i j Hi Hj. destruct (HE i j Hi Hj) as (H1 & H2). rewrite <- H1 at 1. rewrite <- H2 at 1.
  rewrite !prod_entry_mget. split; apply rsum_ext; intros k Hk; rewrite G by assumption; reflexivity.
Qed.

Section Solver.
  Context (n : nat) (A : mat R) (b : list R).
  Definition solves (x : nat -> R) : Prop :=
    forall i, (i < n)%nat -> rsum n (fun k => nth k (nth i A []) 0 * x k) = nth i b 0.
  Definition pick (P : R -> Prop) : R :=
    match excluded_middle_dec (P 0) with
    | left _ => 0
    | right _ =>
        match excluded_middle_dec ((exists x, P x) /\ forall x y, P x -> P y -> x = y) with
        | left H => proj1_sig (unique_real _ (proj1 H) (proj2 H))
        | right _ => 0
        end
    end.
  Fixpoint sol_prefix (k : nat) : list R :=
    match k with
    | O => []
    | S k' => let pre := sol_prefix k' in
        pre ++ [pick (fun x => exists y, solves y /\ (forall j, (j < k')%nat -> y j = nth j pre 0) /\ y k' = x)]
    end.
  Lemma sol_prefix_length k : length (sol_prefix k) = k.
  Proof. induction k as [|k IH]; cbn [sol_prefix]; [reflexivity|]. rewrite app_length, IH. cbn. lia. Qed.
  Lemma solves_affine x y t : solves x -> solves y -> solves (fun k => x k + t * (y k - x k)).
  Proof.
    intros Hx Hy i Hi. specialize (Hx i Hi). specialize (Hy i Hi).
    rewrite (rsum_ext n _ (fun k => nth k (nth i A []) 0 * x k + t * (nth k (nth i A []) 0 * y k - nth k (nth i A []) 0 * x k)))
      by (intros; ring).
    rewrite rsum_plus, rsum_scal, rsum_minus, Hx, Hy. ring.
  Qed.
  Lemma sol_prefix_ok : (exists x, solves x) -> forall k, exists y, solves y /\ forall j, (j < k)%nat -> y j = nth j (sol_prefix k) 0.
  Proof.
    intros He. induction k as [|k (y & Hy & Hp)]; [destruct He as (x & Hx); exists x; split; [exact Hx|intros; lia]|].
    cbn [sol_prefix]. cbv zeta. set (P := fun x => exists y, solves y /\ (forall j, (j < k)%nat -> y j = nth j (sol_prefix k) 0) /\ y k = x).
    assert (HP : P (pick P)).
    { unfold pick. destruct (excluded_middle_dec (P 0)) as [|H0]; [assumption|].
      destruct (excluded_middle_dec _) as [H|H].
      - destruct (unique_real _ _ _) as (x & Hx). exact Hx.
      - exfalso. apply H. split; [exists (y k), y; auto|].
        intros u v (y1 & S1 & P1 & <-) (y2 & S2 & P2 & <-).
        destruct (Req_dec (y1 k) (y2 k)) as [E|E]; [exact E|exfalso]. apply H0.
        exists (fun j => y1 j + (- y1 k / (y2 k - y1 k)) * (y2 j - y1 j)). split; [apply solves_affine; assumption|]. split.
        + intros j Hj. rewrite (P2 j Hj), (P1 j Hj). ring.
        + field. lra. }
    destruct HP as (z & Sz & Pz & Ez). exists z. split; [exact Sz|]. intros j Hj.
    destruct (Nat.eq_dec j k) as [->|Hne].
    - rewrite app_nth2 by (rewrite sol_prefix_length; lia). rewrite sol_prefix_length, Nat.sub_diag. exact Ez.
    - rewrite app_nth1 by (rewrite sol_prefix_length; lia). apply Pz. lia.
  Qed.
End Solver.
Definition perfect_solve (A : mat R) (b : list R) : list R := sol_prefix (length b) A b (length b).
Lemma perfect_solve_ok : solver_ok perfect_solve.
Proof.
  intros n A b _ <-. unfold perfect_solve. split; [apply sol_prefix_length|].
  intros He i Hi. destruct (sol_prefix_ok (length b) A b He (length b)) as (y & Hy & Hp).
  rewrite <- (Hy i Hi). apply rsum_ext. intros k Hk. rewrite Hp by exact Hk. reflexivity.
Qed.
Lemma perfect_solve_length A b : length (perfect_solve A b) = length b.
Proof. apply sol_prefix_length. Qed.

(** ** Success *)
Section Success.
  Context (h : nat) (inv : mat R -> mat R).
  Notation N := (2 * h)%nat.

  Lemma setup_ok o vs times r : shaped h o -> (0 < h <= 11)%nat -> (0 <= r <= Z.of_nat h - 1)%Z ->
    length vs = (length times + 1)%nat -> List.Forall (fun t => 0 < t) times ->
    List.Forall (fun v => vertex_wf v /\ v_D v = o_dim o) vs ->
    exists o1, opt_setupFromVertices h inv o vs times r = Ok o1.
  Proof.
    intros Sh Hh Hr Hl Ht Hv. unfold opt_setupFromVertices, kHighestDerivative.
    destruct (Z.ltb_spec r 0); [lia|]. destruct (Z.ltb_spec (Z.of_nat h - 1) r); [lia|]. cbn [orb].
    destruct vs as [|v0 rest] eqn:Evs; [cbn in Hl; lia|]. rewrite <- Evs in *.
    rewrite Hl, Nat.eqb_refl. cbn [negb].
    assert (Ew : exists ws, omap (filter_vertex h (o_dim o)) vs = Ok ws).
    { apply omap_total. intros v Hin. rewrite Forall_forall in Hv. destruct (Hv v Hin) as ((_ & Hf) & HD).
      apply filter_vertex_ok. eapply List.Forall_impl; [|exact Hf]. cbn. intros c Hc _. congruence. }
    destruct Ew as (ws & Ew). rewrite Ew. cbn [obind].
    assert (Hlr : length rest = length times) by (rewrite Evs in Hl; cbn in Hl; lia).
    unfold opt_updateSegmentTimes. cbn [o_nseg o_deriv]. rewrite Hlr, Nat.eqb_refl. cbn [negb].
    assert (Em : exists ms, omap (mats_of h inv r) times = Ok ms).
    { apply omap_total. intros t Hin. rewrite Forall_forall in Ht. specialize (Ht t Hin). unfold mats_of.
      destruct (nltb n0 t) eqn:E; [|rnum; apply Rltb_false in E; lra]. cbn [negb].
      unfold cost_matrix, opt_N. destruct (Z.leb_spec (Z.of_nat (2 * h)) r); [lia|].
      destruct (Z.ltb_spec r 0); [lia|]. destruct (Nat.ltb_spec kMaxConvolutionSize (2 * h)) as [L|_]; [rewrite kTable in L; lia|].
      cbn [orb obind]. destruct (mapping_matrix_ok h t Hh) as (A & -> & _). cbn [obind]. eauto. }
    destruct Em as (ms & Em). change (omap (mats_of h inv r) times) with
      (omap (fun t => if negb (nltb n0 t) then Abort else Q <-- cost_matrix h r t ;; A <-- mapping_matrix h t ;; Ok (Q, invert_mapping h inv A)) times) in Em.
    rewrite Em. cbn [obind]. unfold opt_setupReordering. cbn [o_dim o_nseg o_vertices].
    assert (Lw := omap_length _ _ _ Ew).
    assert (Hw : forall i, (i < length vs)%nat ->
       (forall k, (k < h)%nat -> vertex_get (nth i ws dvert) (Z.of_nat k) = vertex_get (nth i vs dvert) (Z.of_nat k)) /\
       (forall k x, (k < h)%nat -> vertex_get (nth i vs dvert) (Z.of_nat k) = Some x -> length x = o_dim o)).
    { intros i Hi. destruct (Forall2_nth_both _ _ _ dvert dvert (omap_Forall2 _ _ _ Ew)) as (_ & Hf).
      apply filter_vertex_spec; [|apply Hf; exact Hi]. rewrite Forall_forall in Hv. apply Hv. apply nth_In. exact Hi. }
    assert (Hn : (length times + 1 = length ws)%nat) by lia.
    fold (fixed_set h (o_dim o) ws (length times)).
    rewrite (omap_ok _ (fun d => map (fun c => nth d (con_value c) n0) (fixed_set h (o_dim o) ws (length times)))).
    2:{ intros d Hd. apply in_seq in Hd. apply omap_ok. intros c Hc.
        apply (proj2 (fixed_set_spec h (o_dim o) ws (length times) Hn)) in Hc.
        destruct Hc as (i & k & x & Hi & Hk & Hx & ->). cbn [con_value]. apply oget_nth.
        destruct (Hw i ltac:(lia)) as (W1 & W2). rewrite W1 in Hx by exact Hk. rewrite (W2 k x Hk Hx). lia. }
    cbn [obind]. eexists. reflexivity.
  Qed.

  Lemma solve_ok solve vs o : (forall A b, length (solve A b) = length b) -> prepared h inv vs o -> (0 < o_nseg o)%nat ->
    ((0 < o_nfree o)%nat \/ free_sized o) -> exists o', opt_solveLinear h solve o = Ok o'.
  Proof.
    intros Hsol P Hn Hc. assert (Hd := pr_deriv _ _ _ _ P). unfold opt_solveLinear, kHighestDerivative.
    destruct (Z.ltb_spec (o_deriv o) 0); [lia|]. destruct (Z.ltb_spec (Z.of_nat h - 1) (o_deriv o)); [lia|]. cbn [orb].
    assert (Hs := prepared_sized h inv vs o P). assert (Sh := prepared_shaped h inv vs o P).
    destruct (Nat.eqb_spec (o_nfree o) 0) as [Ez|Ez].
    - rewrite updateSegments_ok; [eauto|exact Sh|exact Hs|]. destruct Hc as [Hc|Hc]; [lia|exact Hc].
    - destruct (constructR_form h inv vs o P Hn) as (Rm & -> & _). cbn [obind].
      destruct Hs as (L1 & L2 & L3 & L4 & L5).
      rewrite (omap_ok _ (fun d => solve (mk_mat (o_nfree o) (o_nfree o) (fun i j => mget Rm (o_nfixed o + i) (o_nfixed o + j)))
         (mk_vec (o_nfree o) (fun i => nsum (o_nfixed o) (fun k => nmul (nopp (mget (mk_mat (o_nfree o) (o_nfixed o) (fun i j => mget Rm (o_nfixed o + i) j)) i k))
            (vget (nth d (o_fixed o) []) k)))))).
      2:{ intros d Hd'. apply in_seq in Hd'. rewrite (oget_nth _ _ ([] : list R)) by lia. reflexivity. }
      cbn [obind]. destruct Sh as (S1 & S2 & S3).
      rewrite updateSegments_ok; [eauto| | |].
      + split; [exact S1|]. split; [exact S2|]. cbn [o_free o_dim]. rewrite map_length, seq_length. reflexivity.
      + split; [exact L1|]. split; [exact L2|]. split; [exact L3|]. split; [exact L4|exact L5].
      + intros d Hd'. cbn [o_free o_nfree o_dim] in *. rewrite nth_map_seq by exact Hd'. rewrite Hsol. apply mk_vec_length.
  Qed.
End Success.

(** ** Maximum of the magnitude *)
Definition all_dims_of (s : segment R) : list Z := map Z.of_nat (seq 0 (seg_D s)).
Lemma all_dims_of_ok s : dims_ok s (all_dims_of s).
Proof.
  unfold dims_ok, all_dims_of. apply List.Forall_forall. intros k Hk. apply in_map_iff in Hk. destruct Hk as (j & <- & Hj).
  apply in_seq in Hj. lia.
Qed.

Lemma candidate_times_max rf s d : perfect_root_finder rf -> seg_wf s -> (0 < seg_D s)%nat ->
  (d < seg_N s <= 22)%nat -> (d < 21)%nat -> 0 <= seg_time s ->
  exists ts, seg_candidateTimes rf s (Z.of_nat d) 0 (seg_time s) (all_dims_of s) = Ok (Some ts) /\
    In 0 ts /\ In (seg_time s) ts /\
    (forall t, In t ts -> 0 <= t <= seg_time s) /\
    exists x, In x ts /\ forall t, 0 <= t <= seg_time s -> seg_norm s (all_dims_of s) d t <= seg_norm s (all_dims_of s) d x.
Proof.
  intros Hrf Hw HD HN Hd21 HT. set (b := seg_time s) in *.
  destruct (Nat.eq_dec (seg_D s) 1) as [E1|E1].
  - assert (Ea : all_dims_of s = [0%Z]) by (unfold all_dims_of; rewrite E1; reflexivity). rewrite Ea.
    set (p := nth 0 (seg_polys s) []).
    assert (Hp : length p = seg_N s) by (apply (seg_wf_nth s); [exact Hw|lia]).
    destruct (computeMinMaxCandidates_cases rf p 0 b d) as [_ Hc]; [lia|].
    destruct Hc as (cs & Pcs & Lcs & E); [lia|].
    assert (Hcov := Hrf cs 0 b).
    replace (poly_fun cs) with (dpoly p (S d)) in Hcov
      by (apply FunctionalExtensionality.functional_extensionality; intros t; symmetry; apply Pcs).
    destruct (selectMinMaxCandidatesFromRoots 0 b (snd (rf cs))) as [ts|] eqn:Es.
    2:{ rewrite (proj2 (selectCandidates_spec 0 b _) HT) in Es. discriminate. }
    destruct (selectCandidates_good _ _ _ _ _ Hcov Es) as (_ & Hg & Hin).
    exists ts. split.
    { unfold seg_candidateTimes. cbn [Z.ltb Z.compare]. change (Z.to_nat 0) with 0%nat.
      rewrite (oget_nth _ _ []) by (unfold seg_D in *; lia). cbn [obind]. exact E. }
    split; [apply Hg|]. split; [apply Hg|]. split; [exact Hin|].
    destruct (candidates_max (dpoly p d) (dpoly p (S d)) 0 b ts (is_derive_dpoly p d) HT Hg) as (x1 & I1 & _ & M1).
    destruct (candidates_min (dpoly p d) (dpoly p (S d)) 0 b ts (is_derive_dpoly p d) HT Hg) as (x2 & I2 & _ & M2).
    assert (Hn : forall t, seg_norm s [0%Z] d t = Rabs (dpoly p d t)).
    { intros t. rewrite seg_norm_single, seg_fun_dpoly. reflexivity. }
    destruct (Rle_lt_dec (Rabs (dpoly p d x1)) (Rabs (dpoly p d x2))) as [L|L];
      [exists x2|exists x1]; (split; [assumption|]); intros t Ht; rewrite !Hn; specialize (M1 t Ht); specialize (M2 t Ht);
      apply Rabs_le; assert (B1 := Rle_abs (dpoly p d x1)); assert (B2 := Rle_abs (- dpoly p d x2)); rewrite Rabs_Ropp in B2; lra.
  - assert (Hl : (2 <= length (all_dims_of s))%nat) by (unfold all_dims_of; rewrite map_length, seq_length; lia).
    destruct (seg_candidateTimes_multi rf s d (all_dims_of s) 0 b Hw (all_dims_of_ok s) Hl) as (cs & Pcs & Lcs & E); [lia|lia|lia|].
    assert (Hcov := Hrf cs 0 b).
    replace (poly_fun cs) with (half_norm2' s (all_dims_of s) d) in Hcov
      by (apply FunctionalExtensionality.functional_extensionality; intros t; symmetry; apply Pcs).
    destruct (selectMinMaxCandidatesFromRoots 0 b (snd (rf cs))) as [ts|] eqn:Es.
    2:{ rewrite (proj2 (selectCandidates_spec 0 b _) HT) in Es. discriminate. }
    destruct (selectCandidates_good _ _ _ _ _ Hcov Es) as (_ & Hg & Hin).
    exists ts. split; [exact E|]. split; [apply Hg|]. split; [apply Hg|]. split; [exact Hin|].
    destruct (norm_multi_candidates s (all_dims_of s) d 0 b ts HT Hg) as ((x & I & _ & M) & _). exists x. split; assumption.
Qed.

Lemma vec_norm_norm s t d : seg_wf s -> (seg_N s <= 22)%nat ->
  exists v, seg_evaluate s t (Z.of_nat d) = Ok v /\ vec_norm v = seg_norm s (all_dims_of s) d t.
Proof.
  intros Hw HN. rewrite seg_evaluate_eq.
  2:{ eapply List.Forall_impl; [|exact Hw]. cbn. intros p Hp. left. lia. }
  eexists. split; [reflexivity|]. unfold vec_norm, seg_norm. rnum. f_equal.
  rewrite nsum_rsum, lsum_nth. unfold all_dims_of. rewrite !map_length, seq_length. unfold seg_D.
  apply rsum_ext. intros i Hi. unfold vget. rewrite (nth_map_lt _ _ _ []) by exact Hi.
  rewrite map_map, nth_map_seq by exact Hi. cbn [Nat.add]. rewrite Nat2Z.id, seg_fun_dpoly. rnum. ring.
Qed.

Lemma ext_max_fold es : forall e, let m := fold_left ext_max es e in
  (m = e \/ In m es) /\ ext_value e <= ext_value m /\ forall x, In x es -> ext_value x <= ext_value m.
Proof.
  induction es as [|x es IH]; intros e; cbn zeta; cbn [fold_left].
  - split; [auto|]. split; [lra|intros x []].
  - destruct (IH (ext_max e x)) as (I1 & I2 & I3). cbn zeta in *.
    generalize dependent (fold_left ext_max es (ext_max e x)). intros m I1 I2 I3.
    assert (E : (ext_max e x = x /\ ext_value e < ext_value x) \/ (ext_max e x = e /\ ext_value x <= ext_value e)).
    { unfold ext_max. rnum. destruct (Rltb_spec (ext_value e) (ext_value x)); [left|right]; split; auto; lra. }
    split; [|split].
    + destruct I1 as [I1|I1]; [|cbn; auto]. destruct E as [(E & _)|(E & _)]; rewrite I1, E; cbn; auto.
    + destruct E as [(E & L)|(E & L)]; rewrite E in I2; lra.
    + intros y [<-|Hy]; [|auto]. destruct E as [(E & L)|(E & L)]; rewrite E in I2; lra.
Qed.

(** A candidate of a list of segments numbered from idx. *)
Definition is_candidate (segs : list (segment R)) (d idx : nat) (e : extremum R) : Prop :=
  exists j, ext_segment e = Z.of_nat (idx + j) /\ (j < length segs)%nat /\
    0 <= ext_time e <= seg_time (nth j segs no_seg) /\
    ext_value e = seg_norm (nth j segs no_seg) (all_dims_of (nth j segs no_seg)) d (ext_time e).

Lemma max_loop rf h d : perfect_root_finder rf -> (d < 2 * h - 1)%nat -> (2 * h <= 22)%nat ->
  forall segs idx e0 acc, List.Forall (fun s => seg_N s = (2 * h)%nat /\ seg_wf s /\ (0 < seg_D s)%nat /\ 0 <= seg_time s) segs ->
  exists es, ofold (fun (st : nat * (extremum R * list (extremum R))) s =>
            c <-- opt_maxCandidates h rf (Z.of_nat d) s n0 (seg_time s) ;;
            es <-- omap (fun t => v <-- seg_evaluate s t (Z.of_nat d) ;;
                                  Ok (mkExtremum t (vec_norm v) (Z.of_nat (fst st)))) (snd c) ;;
            Ok (S (fst st), (fold_left ext_max es (fst (snd st)), snd (snd st) ++ es)))
          segs (idx, (e0, acc)) = Ok ((idx + length segs)%nat, (fold_left ext_max es e0, acc ++ es)) /\
    List.Forall (is_candidate segs d idx) es /\
    (forall j t, (j < length segs)%nat -> 0 <= t <= seg_time (nth j segs no_seg) ->
       exists e, In e es /\ ext_segment e = Z.of_nat (idx + j) /\
         seg_norm (nth j segs no_seg) (all_dims_of (nth j segs no_seg)) d t <= ext_value e) /\
    (forall j, (j < length segs)%nat -> exists e, In e es /\ ext_segment e = Z.of_nat (idx + j) /\ ext_time e = 0).
Proof.
  intros Hrf Hd HN. induction segs as [|s segs IH]; intros idx e0 acc Hs.
  - exists []. cbn [ofold length]. rewrite Nat.add_0_r, app_nil_r. split; [reflexivity|]. split; [constructor|].
    split; intros; lia.
  - inversion Hs as [|? ? (EN & Hw & HD & HT) Hs']; subst. cbn [ofold].
    destruct (candidate_times_max rf s d Hrf Hw HD ltac:(lia) ltac:(lia) HT) as (ts & Et & I0 & _ & Hin & x & Ix & Hx).
    unfold opt_maxCandidates at 1. unfold opt_N. destruct (Z.leb_spec (Z.of_nat (2 * h) - Z.of_nat d - 1) 0); [lia|].
    fold (all_dims_of s). change (@n0 R R_ops) with 0. rewrite Et. cbn [obind snd fst].
    rewrite (omap_ok _ (fun t => mkExtremum t (seg_norm s (all_dims_of s) d t) (Z.of_nat idx))).
    2:{ intros t _. destruct (vec_norm_norm s t d Hw ltac:(lia)) as (v & -> & Ev). cbn [obind]. rewrite Ev. reflexivity. }
    cbn [obind]. set (es1 := map _ ts).
    destruct (IH (S idx) (fold_left ext_max es1 e0) (acc ++ es1) Hs') as (es & E & HC & HM & H0).
    exists (es1 ++ es). split; [|split; [|split]].
    + etransitivity; [exact E|]. rewrite fold_left_app, app_assoc. cbn [length].
      replace (S idx + length segs)%nat with (idx + S (length segs))%nat by lia. reflexivity.
    + apply List.Forall_app. split.
      * apply List.Forall_forall. intros e He. apply in_map_iff in He. destruct He as (t & <- & Ht).
        exists 0%nat. cbn [ext_segment ext_time ext_value nth length]. rewrite Nat.add_0_r. split; [reflexivity|].
        split; [lia|]. split; [apply Hin; exact Ht|reflexivity].
      * eapply List.Forall_impl; [|exact HC]. intros e (j & J1 & J2 & J3 & J4). exists (S j). cbn [nth length].
        split; [rewrite J1; f_equal; lia|]. split; [lia|]. split; assumption.
    + intros [|j] t Hj Ht; cbn [nth length] in *.
      * exists (mkExtremum x (seg_norm s (all_dims_of s) d x) (Z.of_nat idx)). split.
        { apply in_app_iff. left. apply in_map_iff. exists x. auto. }
        split; [cbn [ext_segment]; f_equal; lia|]. cbn [ext_value]. apply Hx. exact Ht.
      * destruct (HM j t ltac:(lia) Ht) as (e & E1 & E2 & E3). exists e. split; [apply in_app_iff; auto|].
        split; [rewrite E2; f_equal; lia|exact E3].
    + intros [|j] Hj; cbn [length] in *.
      * exists (mkExtremum 0 (seg_norm s (all_dims_of s) d 0) (Z.of_nat idx)). split.
        { apply in_app_iff. left. apply in_map_iff. exists 0. auto. }
        split; [cbn [ext_segment]; f_equal; lia|reflexivity].
      * destruct (H0 j ltac:(lia)) as (e & E1 & E2 & E3). exists e. split; [apply in_app_iff; auto|].
        split; [rewrite E2; f_equal; lia|exact E3].
Qed.

Lemma maximum_magnitude rf h (o : opt R) d : perfect_root_finder rf -> (d < 2 * h - 1)%nat -> (2 * h <= 22)%nat ->
  List.Forall (fun s => seg_N s = (2 * h)%nat /\ seg_wf s /\ (0 < seg_D s)%nat /\ 0 <= seg_time s) (o_segments o) ->
  (0 < o_nseg o)%nat -> length (o_segments o) = o_nseg o ->
  exists e es, opt_maximumOfMagnitude h rf o (Z.of_nat d) = Ok (e, es) /\
    is_candidate (o_segments o) d 0 e /\
    (forall j t, (j < o_nseg o)%nat -> 0 <= t <= seg_time (nth j (o_segments o) no_seg) ->
       seg_norm (nth j (o_segments o) no_seg) (all_dims_of (nth j (o_segments o) no_seg)) d t <= ext_value e) /\
    List.Forall (is_candidate (o_segments o) d 0) es /\
    (forall j t, (j < o_nseg o)%nat -> 0 <= t <= seg_time (nth j (o_segments o) no_seg) ->
       exists c, In c es /\ ext_segment c = Z.of_nat j /\
         seg_norm (nth j (o_segments o) no_seg) (all_dims_of (nth j (o_segments o) no_seg)) d t <= ext_value c).
Proof.
  intros Hrf Hd HN Hs Hn Hl. unfold opt_maximumOfMagnitude.
  destruct (max_loop rf h d Hrf Hd HN (o_segments o) 0 extremum_zero [] Hs) as (es & E & HC & HM & H0).
  rewrite E. cbn [obind fst snd].
  destruct (rev (o_segments o)) as [|s rs] eqn:Er.
  { apply (f_equal (@length _)) in Er. rewrite rev_length in Er. cbn in Er. lia. }
  assert (Eo : o_segments o = rev rs ++ [s]).
  { rewrite <- (rev_involutive (o_segments o)), Er. reflexivity. }
  assert (Ls : s = nth (o_nseg o - 1) (o_segments o) no_seg).
  { rewrite <- Hl, Eo, app_length. cbn [length]. rewrite app_nth2 by lia.
    replace (length (rev rs) + 1 - 1 - length (rev rs))%nat with 0%nat by lia. reflexivity. }
  assert (Hs' := Hs). rewrite Eo, List.Forall_app in Hs'. destruct Hs' as (_ & Hs'). inversion Hs' as [|? ? (EN & Hw & HD & HT) _]; subst x l.
  destruct (vec_norm_norm s (seg_time s) d Hw ltac:(lia)) as (v & -> & Ev). cbn [obind]. rewrite Ev.
  set (el := mkExtremum (seg_time s) _ _).
  assert (Cl : is_candidate (o_segments o) d 0 el).
  { exists (o_nseg o - 1)%nat. rewrite <- Ls. unfold el. cbn [ext_segment ext_time ext_value].
    split; [lia|]. split; [lia|]. split; [lra|reflexivity]. }
  exists (ext_max (fold_left ext_max es extremum_zero) el), ([] ++ es ++ [el]). cbn [app].
  split; [reflexivity|].
  assert (Ef : ext_max (fold_left ext_max es extremum_zero) el = fold_left ext_max (es ++ [el]) extremum_zero).
  { rewrite fold_left_app. reflexivity. }
  rewrite Ef. destruct (ext_max_fold (es ++ [el]) extremum_zero) as (I1 & I2 & I3). cbn zeta in *.
  set (m := fold_left ext_max (es ++ [el]) extremum_zero) in *.
  assert (HCl : List.Forall (is_candidate (o_segments o) d 0) (es ++ [el])).
  { apply List.Forall_app. split; [exact HC|]. constructor; [exact Cl|constructor]. }
  assert (HMl : forall j t, (j < o_nseg o)%nat -> 0 <= t <= seg_time (nth j (o_segments o) no_seg) ->
       exists c, In c (es ++ [el]) /\ ext_segment c = Z.of_nat j /\
         seg_norm (nth j (o_segments o) no_seg) (all_dims_of (nth j (o_segments o) no_seg)) d t <= ext_value c).
  { intros j t Hj Ht. destruct (HM j t ltac:(lia) Ht) as (c & C1 & C2 & C3). exists c. split; [apply in_app_iff; auto|]. auto. }
  assert (HMm : forall j t, (j < o_nseg o)%nat -> 0 <= t <= seg_time (nth j (o_segments o) no_seg) ->
     seg_norm (nth j (o_segments o) no_seg) (all_dims_of (nth j (o_segments o) no_seg)) d t <= ext_value m).
  { intros j t Hj Ht. destruct (HMl j t Hj Ht) as (c & C1 & _ & C3). specialize (I3 c C1). lra. }
  split; [|split; [exact HMm|split; [exact HCl|exact HMl]]].
  destruct I1 as [I1|I1].
  - (* everything is zero: the default extremum is the start of the first segment *)
    assert (T0 : 0 <= seg_time (nth 0 (o_segments o) no_seg)).
    { rewrite List.Forall_forall in Hs. apply (Hs (nth 0 (o_segments o) no_seg)). apply nth_In. lia. }
    rewrite I1. exists 0%nat. unfold extremum_zero. cbn [ext_segment ext_time ext_value].
    split; [reflexivity|]. split; [lia|]. change (@n0 R R_ops) with 0. split; [lra|].
    specialize (HMm 0%nat 0 Hn ltac:(lra)). rewrite I1 in HMm. unfold extremum_zero in HMm. cbn [ext_value] in HMm.
    change (@n0 R R_ops) with 0 in HMm. assert (P := seg_norm_nonneg (nth 0 (o_segments o) no_seg) (all_dims_of (nth 0 (o_segments o) no_seg)) d 0). lra.
  - rewrite List.Forall_forall in HCl. apply HCl. exact I1.
Qed.
