(** Packing, widened bounds, gradient entries (every number type). *)
From Coq Require Import ZArith List Bool Lia Arith Sorted.
From Verif Require Import Num RSum ModelPolynomial ModelSegment ModelVertex SpecVertex ModelTrajectory
  ModelLinear SpecLinear ProofPolynomial ProofTrajectory3 ProofSegment2 ProofMatrix ProofHermite ProofReorder ProofLinear ProofLinear5
  ModelNonlinear SpecNonlinear ProofNonlinear ProofNonlinear2 ProofNonlinear3 ProofNonlinear4.
Import ListNotations.

Section Pack.
  Context {T : Type} {ops : NumOps T}.

  Lemma map_nth_seq (x : list T) : forall s m, s + m <= length x ->
    map (fun i => nth (s + i) x n0) (seq 0 m) = firstn m (skipn s x).
  Proof.
    intros s m H. apply nth_ext with n0 n0.
    - rewrite map_length, seq_length, firstn_length, skipn_length. lia.
    - intros i Hi. rewrite map_length, seq_length in Hi. rewrite nth_map_seq by exact Hi. cbn [Nat.add].
      rewrite <- (firstn_skipn s x) at 1. rewrite app_nth2; rewrite firstn_length_le by lia; [|lia].
      replace (s + i - s) with i by lia.
      rewrite <- (firstn_skipn m (skipn s x)) at 1. rewrite app_nth1; [reflexivity|].
      rewrite firstn_length, skipn_length. lia.
  Qed.

  Lemma unpack_times_spec nseg (x : list T) : nseg <= length x -> unpack_times nseg x = times_of nseg x.
  Proof. intros H. exact (map_nth_seq x 0 nseg H). Qed.
  Lemma unpack_free_spec nseg nfree dim (x : list T) : nseg + nfree * dim <= length x ->
    unpack_free nseg nfree dim x = map (fun d => free_of nseg nfree d x) (seq 0 dim).
  Proof.
    intros H. unfold unpack_free. apply map_ext_in. intros d Hd. apply in_seq in Hd. apply map_nth_seq. nia.
  Qed.

  Lemma concat_length m (ll : list (list T)) : (forall l, In l ll -> length l = m) -> length (concat ll) = length ll * m.
  Proof.
    induction ll as [|l ll IH]; intros H; cbn [concat length]; [reflexivity|].
    rewrite app_length, (H l) by (left; reflexivity). rewrite IH; [lia|]. intros y Hy. apply H. right. exact Hy.
  Qed.
  Lemma concat_block m : forall (ll : list (list T)) d, (forall l, In l ll -> length l = m) -> d < length ll ->
    firstn m (skipn (d * m) (concat ll)) = nth d ll [].
  Proof.
    induction ll as [|l ll IH]; intros d H Hd; cbn [length] in Hd; [lia|]. cbn [concat].
    assert (El := H l (or_introl eq_refl)).
    destruct d as [|d].
    - cbn [Nat.mul skipn nth]. rewrite <- El, firstn_app, Nat.sub_diag, firstn_all. cbn [firstn]. apply app_nil_r.
    - rewrite skipn_app. rewrite skipn_all2 by lia. replace (S d * m - length l) with (d * m) by lia. cbn [app nth].
      apply IH; [|lia]. intros y Hy. apply H. right. exact Hy.
  Qed.

  Lemma pack_length nfree (times : list T) free : (forall l, In l free -> length l = nfree) ->
    length (pack times free) = length times + nfree * length free.
  Proof. intros H. unfold pack. rewrite app_length, (concat_length nfree) by exact H. lia. Qed.
  Lemma pack_times (times : list T) free : times_of (length times) (pack times free) = times.
  Proof. unfold times_of, pack. rewrite firstn_app, Nat.sub_diag, firstn_all. cbn [firstn]. apply app_nil_r. Qed.
  Lemma pack_free nfree (times : list T) free d : (forall l, In l free -> length l = nfree) -> d < length free ->
    free_of (length times) nfree d (pack times free) = nth d free [].
  Proof.
    intros H Hd. unfold free_of, pack. rewrite skipn_app, skipn_all2 by lia. cbn [app].
    replace (length times + d * nfree - length times) with (d * nfree) by lia. apply concat_block; assumption.
  Qed.
  Lemma map_nth_seq_id {A} (l : list A) d : map (fun i => nth i l d) (seq 0 (length l)) = l.
  Proof.
    apply nth_ext with d d; [rewrite map_length, seq_length; reflexivity|].
    intros i Hi. rewrite map_length, seq_length in Hi. rewrite nth_map_seq by exact Hi. reflexivity.
  Qed.

  (** Widening. *)
  Definition widened (x : T) (b : T * T) : T * T :=
    if nltb x (fst b) then (x, snd b) else if nltb (snd b) x then (fst b, x) else b.
  Lemma widen_ok (x : list T) : forall m b, b_len b (length x) -> m <= length x ->
    exists w, ofold (fun b i =>
             if Nat.ltb i (length (fst b)) && Nat.ltb i (length (snd b)) then
               let xi := nth i x n0 in
               if nltb xi (nth i (fst b) n0) then Ok (list_set (fst b) i xi, snd b)
               else if nltb (nth i (snd b) n0) xi then Ok (fst b, list_set (snd b) i xi)
               else Ok b
             else UB) (seq 0 m) b = Ok w /\ b_len w (length x) /\
      forall i, i < length x -> pair_at w i = if i <? m then widened (nth i x n0) (pair_at b i) else pair_at b i.
  Proof.
    induction m as [|m IH]; intros b L Hm.
    - exists b. split; [reflexivity|]. split; [exact L|]. reflexivity.
    - destruct (IH b L ltac:(lia)) as (w & E & (L1 & L2) & H). rewrite seq_S, ofold_app, E. cbn [obind ofold Nat.add].
      rewrite L1, L2. destruct (Nat.ltb_spec m (length x)); [|lia]. cbn [andb]. cbv zeta.
      assert (Hm' := H m ltac:(lia)). rewrite Nat.ltb_irrefl in Hm'. unfold pair_at in Hm'.
      injection Hm' as Ha Hb. rewrite Ha, Hb. fold (pair_at b m).
      assert (Q : forall i, i <> m -> (i <? S m) = (i <? m)).
      { intros i Hi. destruct (Nat.ltb_spec i (S m)), (Nat.ltb_spec i m); try reflexivity; lia. }
      assert (Q' : m <? S m = true) by (apply Nat.ltb_lt; lia).
      destruct (nltb (nth m x n0) (nth m (fst b) n0)) eqn:E1; [|destruct (nltb (nth m (snd b) n0) (nth m x n0)) eqn:E2];
        cbn [obind]; (eexists; split; [reflexivity|]; split; [split; cbn [fst snd]; rewrite ?list_set_length; assumption|]);
        intros i Hi; (destruct (Nat.eq_dec i m) as [->|Hne];
          [rewrite Q'; unfold widened, pair_at; cbn [fst snd]; rewrite E1, ?E2, ?list_set_nth, ?Nat.eqb_refl by lia; congruence
          |rewrite Q by exact Hne; rewrite <- H by exact Hi; unfold pair_at; cbn [fst snd];
           rewrite ?list_set_nth by lia; apply Nat.eqb_neq in Hne; rewrite ?Hne; reflexivity]).
  Qed.
  Lemma widen_bounds_ok (x : list T) b : b_len b (length x) ->
    exists w, widen_bounds x b = Ok w /\ b_len w (length x) /\
      forall i, i < length x -> pair_at w i = widened (nth i x n0) (pair_at b i).
  Proof.
    intros L. destruct (widen_ok x (length x) b L ltac:(lia)) as (w & E & Lw & H). exists w. split; [exact E|].
    split; [exact Lw|]. intros i Hi. rewrite H by exact Hi. apply Nat.ltb_lt in Hi. rewrite Hi. reflexivity.
  Qed.
End Pack.

Section Problem.
  Context {T : Type} {ops : NumOps T} (h : nat) (inv : mat T -> mat T) (solve : mat T -> list T -> list T).
  Context (rf : root_oracle (T := T)) (fexp : T -> T).
  Implicit Types (o : opt T) (n : nlo T) (vs : list (vertex T)).

  Lemma synced_free vs o : prepared h inv vs o -> synced h o -> forall l, In l (o_free o) -> length l = o_nfree o.
  Proof.
    intros P (F & _) l Hl. destruct (In_nth _ _ [] Hl) as (d & Hd & <-). apply F. rewrite <- (pr_freelen _ _ _ _ P). exact Hd.
  Qed.

  (** The segments are those the current values give. *)
  Lemma update_synced vs o : (0 < o_dim o) -> prepared h inv vs o -> synced h o -> opt_updateSegments h o = Ok o.
  Proof.
    intros Hd P (F & S). rewrite (updateSegments_ok h o (prepared_shaped h inv vs o P) (prepared_sized h inv vs o P) F).
    f_equal. destruct (Nat.eqb_spec (o_dim o) 0); [lia|]. unfold with_segments. rewrite <- S by lia. destruct o; reflexivity.
  Qed.
  Lemma setFree_self vs o : (0 < o_dim o) -> prepared h inv vs o -> synced h o ->
    opt_setFreeConstraints h o (o_free o) = Ok o.
  Proof.
    intros Hd P S. unfold opt_setFreeConstraints. rewrite (pr_freelen _ _ _ _ P), Nat.eqb_refl. cbn [negb].
    replace (forallb _ (o_free o)) with true.
    2:{ symmetry. apply forallb_forall. intros l Hl. apply Nat.eqb_eq. apply (synced_free vs o P S l Hl). }
    cbn [negb]. transitivity (opt_updateSegments h o); [destruct o; reflexivity|]. apply (update_synced vs); assumption.
  Qed.

  (** nl_problem succeeds after a successful solve. *)
  Lemma problem_ok vs n o : (0 < o_dim (nl_opt n)) -> (2 <= length vs) -> prepared h inv vs (nl_opt n) ->
    opt_solveLinear h solve (nl_opt n) = Ok o ->
    exists b w, nl_problem h solve n =
        Ok (o, map (initial_step (np_step (nl_par n))) (pack (o_times (nl_opt n)) (o_free o)), w, pack (o_times (nl_opt n)) (o_free o)) /\
      endpoint_bounds o (nl_con n) (o_vertices o) = Ok b /\ b_len b (o_dim o * o_nfree o) /\
      (forall k j, k < o_dim o -> j < o_nfree o -> pair_at b (k * o_nfree o + j) =
        bound_pair match nth_error (unconstrained (Z.to_nat (o_deriv o + 1)) vs) j with
                   | Some (_, d) => last_limit (nl_con n) (Z.of_nat d) | None => None end) /\
      b_len w (o_nseg o + o_nfree o * o_dim o) /\
      (forall i, i < o_nseg o + o_nfree o * o_dim o ->
        pair_at w i = widened (nth i (pack (o_times (nl_opt n)) (o_free o)) n0)
          (pair_at (repeat kTimeLowerBound (o_nseg o) ++ fst b, repeat dbl_max (o_nseg o) ++ snd b) i)) /\
      prepared h inv vs o /\ synced h o /\ o_times o = o_times (nl_opt n) /\ o_dim o = o_dim (nl_opt n) /\
      length (pack (o_times (nl_opt n)) (o_free o)) = o_nseg o + o_nfree o * o_dim o.
  Proof.
    intros Hd Hv P E. destruct (solve_prepared h inv solve vs _ _ P E) as (P' & S' & Et).
    destruct (solve_same_problem h solve _ _ E) as (Sp & _). destruct (same_fields _ _ Sp) as (Ed & _).
    assert (Hns : length (o_times (nl_opt n)) = o_nseg o) by (rewrite <- Et; apply (pr_times _ _ _ _ P')).
    assert (Hfl := synced_free vs o P' S'). assert (Hdl := pr_freelen _ _ _ _ P').
    assert (Hr := pr_deriv _ _ _ _ P'). assert (Hn := pr_nseg _ _ _ _ P').
    assert (Eu : unconstrained (Z.to_nat (o_deriv o + 1)) (o_vertices o) = unconstrained (Z.to_nat (o_deriv o + 1)) vs).
    { apply (unconstrained_ext h); [lia|apply (pr_verts _ _ _ _ P')|apply (pr_get _ _ _ _ P')]. }
    destruct (endpoint_bounds_ok o (nl_con n) (o_vertices o)) as (b & Eb & Lb & Hb).
    { rewrite Eu, (prepared_nfree h inv vs o P'). apply unconstrained_le. lia. }
    rewrite Eu in Hb. destruct Lb as (Lb1 & Lb2).
    assert (Lp := pack_length (o_nfree o) (o_times (nl_opt n)) (o_free o) Hfl). rewrite Hdl, Hns in Lp.
    destruct (widen_bounds_ok (pack (o_times (nl_opt n)) (o_free o))
      (repeat kTimeLowerBound (o_nseg o) ++ fst b, repeat dbl_max (o_nseg o) ++ snd b)) as (w & Ew & Lw & Hw).
    { split; cbn [fst snd]; rewrite app_length, repeat_length, Lp; lia. }
    rewrite Lp in *.
    exists b, w. split.
    { unfold nl_problem. rewrite E. cbn [obind]. destruct (o_free o) as [|f0 fs] eqn:Ef; [cbn in Hdl; lia|].
      rewrite <- Ef in *. assert (Lf0 : length f0 = o_nfree o) by (apply Hfl; rewrite Ef; left; reflexivity).
      rewrite Hns, Hdl, Lf0. destruct (Nat.eqb_spec (o_nseg o + o_dim o * o_nfree o) 0); [lia|].
      rewrite Eb. cbn [obind]. rewrite Ew. cbn [obind]. destruct Lw as (Lw1 & Lw2). rewrite Lw1, Lw2, Lp, !Nat.eqb_refl. cbn [negb].
      replace (o_nseg o + o_nfree o * o_dim o =? o_nseg o + o_dim o * o_nfree o) with true by (symmetry; apply Nat.eqb_eq; lia).
      reflexivity. }
    split; [exact Eb|]. split; [split; assumption|]. split; [exact Hb|]. split; [exact Lw|]. split; [exact Hw|].
    split; [exact P'|]. split; [exact S'|]. split; [exact Et|]. split; [exact Ed|]. reflexivity.
  Qed.

  (** C39: the objective at the initial solution. *)
  Lemma objective_at_initial vs n o : (0 < o_dim (nl_opt n)) -> (2 <= length vs) -> prepared h inv vs (nl_opt n) ->
    opt_solveLinear h solve (nl_opt n) = Ok o ->
    nl_objectiveAll h inv rf fexp (set_opt n o) false (pack (o_times (nl_opt n)) (o_free o)) =
    (cost <-- opt_computeCost h o ;;
     nl_finishObjective h rf fexp (set_opt n o) cost (time_cost n (total_time (o_times o)))).
  Proof.
    intros Hd Hv P E. destruct (problem_ok vs n o Hd Hv P E) as (b & w & _ & _ & _ & _ & _ & _ & P' & S' & Et & Ed & Lp).
    unfold nl_objectiveAll. cbn [set_opt nl_opt]. rewrite Lp, Nat.eqb_refl. cbn [negb].
    assert (Hfl := synced_free vs o P' S').
    assert (U1 : unpack_times (o_nseg o) (pack (o_times (nl_opt n)) (o_free o)) = o_times o).
    { rewrite unpack_times_spec by lia. rewrite <- (pr_times _ _ _ _ P'), Et. apply pack_times. }
    assert (U2 : unpack_free (o_nseg o) (o_nfree o) (o_dim o) (pack (o_times (nl_opt n)) (o_free o)) = o_free o).
    { rewrite unpack_free_spec by lia. transitivity (map (fun i => nth i (o_free o) []) (seq 0 (length (o_free o)))); [|apply map_nth_seq_id].
      rewrite (pr_freelen _ _ _ _ P'). apply map_ext_in. intros d Hdd. apply in_seq in Hdd. rewrite <- (pr_times _ _ _ _ P'), Et.
      apply pack_free; [exact Hfl|]. rewrite (pr_freelen _ _ _ _ P'). lia. }
    rewrite U1, U2, (update_self h inv vs o P'). cbn [obind].
    rewrite (setFree_self vs o ltac:(lia) P' S'). cbn [obind]. reflexivity.
  Qed.

  (** C44: each gradient entry. *)
  Lemma mellinger_entries vs o times nseg J : (forall A v, length (solve A v) = length v) -> 0 < o_dim o ->
    prepared h inv vs o -> forall m s a r, prepared h inv vs (fst a) -> same_problem o (fst a) ->
    ofold (mellinger_step h inv solve times nseg J) (seq s m) a = Ok r ->
    exists g, snd r = snd a ++ g /\ length g = m /\
      forall i, i < m -> exists oi Ji, step_time h inv solve o (clamped_times times nseg (s + i)) oi /\
        opt_computeCost h oi = Ok Ji /\ nth i g n0 = ndiv (nsub Ji J) (nlit 1 10).
  Proof.
    intros Hsol Hd P. induction m as [|m IH]; intros s a r Pa Sa H; cbn [seq ofold] in H.
    - apply Ok_inj in H. subst r. exists []. rewrite app_nil_r. split; [reflexivity|]. split; [reflexivity|]. intros i Hi. lia.
    - unfold mellinger_step at 1 in H.
      destruct (opt_updateSegmentTimes h inv (fst a) _) as [o1| | |] eqn:E1; cbn [obind] in H; try discriminate.
      destruct (opt_solveLinear h solve o1) as [o2| | |] eqn:E2; cbn [obind] in H; try discriminate.
      destruct (opt_computeCost h o2) as [c| | |] eqn:E3; cbn [obind] in H; try discriminate.
      assert (St : step_time h inv solve (fst a) (clamped_times times nseg s) o2) by (exists o1; split; assumption).
      destruct (step_time_prepared h inv solve vs _ _ _ Pa St) as (P2 & _).
      destruct (step_time_same h inv solve _ _ _ St) as (S2 & _).
      destruct (IH (S s) (o2, snd a ++ [ndiv (nsub c J) (nlit 1 10)]) r P2 (same_trans _ _ _ Sa S2) H) as (g & Eg & Lg & Hg). cbn [fst snd] in *.
      exists (ndiv (nsub c J) (nlit 1 10) :: g). split; [rewrite Eg, <- app_assoc; reflexivity|]. split; [cbn; lia|].
      intros [|i] Hi.
      + exists o2, c. rewrite Nat.add_0_r. split; [|split; [exact E3|reflexivity]].
        apply (step_time_again h inv solve Hsol vs o (fst a)); assumption.
      + destruct (Hg i ltac:(lia)) as (oi & Ji & A & B & C). exists oi, Ji. replace (s + S i) with (S s + i) by lia.
        split; [exact A|]. split; [exact B|exact C].
  Qed.
End Problem.
