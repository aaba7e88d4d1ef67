(** evaluateRange. *)
From Coq Require Import ZArith Reals List Bool Lia Lra.
From Coquelicot Require Import Coquelicot.
From Verif Require Import Num RSum SpecPoly ModelPolynomial ModelSegment SpecSegment ModelVertex
  ModelTrajectory SpecTrajectory ProofPolynomial ProofSegment ProofSegment2 ProofTrajectory.
Import ListNotations.
Open Scope R_scope.

(** What the sampling loop returns.  [acc] is the label of the first sample,
    [tau] the time at which it is taken. *)
Definition range_result (tr : trajectory R) (d : nat) (acc tau t_end dt : R)
           (vs : list (list R)) (ts : list R) : Prop :=
  length vs = length ts /\
  (forall k, (k < length vs)%nat ->
     nth k ts 0 = acc + INR k * dt /\
     acc + INR k * dt < t_end /\ tau + INR k * dt <= duration tr /\
     exists i, (i < tr_K tr)%nat /\
       start_time tr i <= tau + INR k * dt <= start_time tr (S i) /\
       nth k vs [] = seg_value (seg_at tr i) (tau + INR k * dt - start_time tr i) d) /\
  (t_end <= acc + INR (length vs) * dt \/ duration tr < tau + INR (length vs) * dt).

Lemma range_loop_spec tr d t_end dt : traj_wf tr -> times_nonneg tr -> 0 < dt ->
  forall fuel i acc tau m, (i < tr_K tr)%nat -> start_time tr i <= tau ->
    t_end <= acc + INR m * dt -> (m + (tr_K tr - i) < fuel)%nat ->
    exists vs ts,
      range_loop fuel (tr_segments tr) t_end dt (Z.of_nat d) i acc (tau - start_time tr i) = Ok (Some (vs, ts)) /\
      range_result tr d acc tau t_end dt vs ts.
Proof.
  intros Hw Hn Hdt. induction fuel as [|fuel IH]; intros i acc tau m Hi Hlo Hm Hf; [lia|].
  cbn [range_loop]. rnum.
  destruct (Rltb_spec acc t_end) as [Hlt|Hge].
  2:{ exists [], []. split; auto. split; auto. split; [simpl; lia|]. left. simpl. lra. }
  rewrite (oget_nth _ _ no_segment) by auto. cbn [obind]. fold (seg_at tr i).
  destruct (Rltb_spec (seg_time (seg_at tr i)) (tau - start_time tr i)) as [Hgt|Hle].
  - fold (tr_K tr). destruct (Nat.leb_spec (tr_K tr) (S i)).
    + exists [], []. split; auto. split; auto. split; [simpl; lia|]. right. simpl.
      rewrite <- start_time_K. replace (tr_K tr) with (S i) by lia. rewrite start_time_S by auto. lra.
    + destruct (IH (S i) acc tau m) as (vs & ts & E & R); auto; try lia.
      { rewrite start_time_S by auto. lra. }
      exists vs, ts. split; auto.
      rewrite <- E. f_equal. rewrite start_time_S by auto. lra.
  - destruct (traj_wf_seg tr i Hw Hi) as (_ & _ & Hsw & HN).
    rewrite seg_evaluate_value by auto. cbn [obind].
    destruct m as [|m]; [simpl in Hm; lra|]. rewrite S_INR in Hm.
    destruct (IH i (acc + dt) (tau + dt) m) as (vs & ts & E & RL & RV & RE); auto; try lia; try lra.
    replace (tau - start_time tr i + dt) with (tau + dt - start_time tr i) by ring.
    rewrite E. cbn [obind].
    eexists _, _. split; [reflexivity|]. split; [simpl; congruence|]. split.
    + intros [|k] Hk.
      * simpl INR. rewrite Rmult_0_l, !Rplus_0_r. cbn [nth].
        assert (Hb : tau <= start_time tr (S i)) by (rewrite start_time_S by auto; lra).
        split; auto. split; auto. split.
        { apply Rle_trans with (1 := Hb). rewrite <- start_time_K.
          apply (tsum_mono (tr_segments tr)); auto. }
        exists i. auto.
      * simpl in Hk. destruct (RV k ltac:(lia)) as (H1 & H2 & H3 & j & H4 & H5 & H6).
        rewrite S_INR. cbn [nth].
        replace (acc + (INR k + 1) * dt) with (acc + dt + INR k * dt) by ring.
        replace (tau + (INR k + 1) * dt) with (tau + dt + INR k * dt) by ring.
        split; auto. split; auto. split; auto. exists j. auto.
    + cbn [length]. rewrite S_INR.
      replace (acc + (INR (length vs) + 1) * dt) with (acc + dt + INR (length vs) * dt) by ring.
      replace (tau + (INR (length vs) + 1) * dt) with (tau + dt + INR (length vs) * dt) by ring.
      auto.
Qed.

Lemma Rtrunc_bounds x : 0 <= x -> (0 <= Rtrunc x)%Z /\ IZR (Rtrunc x) <= x.
Proof.
  intro H. unfold Rtrunc. destruct (Rlt_dec x 0); [lra|].
  destruct (base_Int_part x) as [H1 H2]. split; auto.
  assert (-1 < Int_part x)%Z; [|lia]. apply lt_IZR. lra.
Qed.

Lemma reserve_ok x : 0 <= x -> x < IZR (2 ^ 59) -> reserve_samples x = Ok tt.
Proof.
  intros H0 H1. unfold reserve_samples. rnum. destruct (Rtrunc_bounds x H0) as [Ha Hb].
  assert (Rtrunc x < 2 ^ 59)%Z by (apply lt_IZR; lra).
  destruct (Z.ltb_spec (Rtrunc x) 0); [lia|].
  destruct (Z.leb_spec (2 ^ 64) (Rtrunc x)); [lia|].
  destruct (Z.leb_spec (2 ^ 59) (Rtrunc x)); [lia|]. reflexivity.
Qed.

Lemma reserve_throw x : IZR (2 ^ 59) <= x -> x < IZR (2 ^ 64) -> reserve_samples x = Throw.
Proof.
  intros H0 H1. unfold reserve_samples. rnum.
  assert (Hx : 0 <= x) by (apply Rle_trans with (2 := H0); apply IZR_le; lia).
  destruct (Rtrunc_bounds x Hx) as [Ha Hb].
  assert (2 ^ 59 <= Rtrunc x)%Z.
  { unfold Rtrunc. destruct (Rlt_dec x 0); [lra|]. destruct (base_Int_part x) as [H2 H3].
    assert (2 ^ 59 - 1 < Int_part x)%Z; [|lia]. apply lt_IZR. rewrite minus_IZR. lra. }
  assert (Rtrunc x < 2 ^ 64)%Z by (apply lt_IZR; lra).
  destruct (Z.ltb_spec (Rtrunc x) 0); [lia|].
  destruct (Z.leb_spec (2 ^ 64) (Rtrunc x)); [lia|].
  destruct (Z.leb_spec (2 ^ 59) (Rtrunc x)); [|lia]. reflexivity.
Qed.

(** The start segment: the unique j with T_j <= t_start < T_(j+1). *)
Lemma evaluateRange_spec tr d t_start t_end dt j m fuel :
  traj_wf tr -> times_nonneg tr -> 0 < dt ->
  (j < tr_K tr)%nat -> start_time tr j <= t_start < start_time tr (S j) ->
  t_start <= t_end -> (t_end - t_start) / dt + 1 < IZR (2 ^ 59) ->
  t_end <= start_time tr j + INR m * dt -> (m + tr_K tr < fuel)%nat ->
  exists vs ts,
    traj_evaluateRange fuel tr t_start t_end dt (Z.of_nat d) = Ok (Some (vs, ts)) /\
    range_result tr d (start_time tr j) t_start t_end dt vs ts.
Proof.
  intros Hw Hn Hdt Hj Hb Hse Hsz Hm Hf. unfold traj_evaluateRange.
  assert (Hq : 0 <= (t_end - t_start) / dt).
  { apply Rmult_le_pos; [lra|]. left. now apply Rinv_0_lt_compat. }
  rewrite reserve_ok; [|rnum; lra|rnum; lra]. cbn [obind].
  rewrite (find_segment_hit _ _ j); auto.
  2:{ right. rnum. unfold start_time in Hb. unfold tsum. lra. }
  2:{ rnum. unfold start_time in Hb. unfold tsum. lra. }
  rnum. destruct (Rltb_spec (0 + tsum (tr_segments tr) (S j)) t_start).
  { unfold start_time in Hb. unfold tsum in *. lra. }
  cbn [Nat.add]. rewrite (oget_nth _ _ no_segment) by auto. cbn [obind]. fold (seg_at tr j).
  destruct (range_loop_spec tr d t_end dt Hw Hn Hdt fuel j (start_time tr j) t_start m)
    as (vs & ts & E & R); auto; try lia; try lra.
  exists vs, ts. split; auto. rewrite <- E.
  assert (Ea : 0 + tsum (tr_segments tr) (S j) - seg_time (seg_at tr j) = start_time tr j).
  { rewrite (tsum_S _ _ no_segment) by auto. unfold seg_at, start_time, tsum. ring. }
  now rewrite Ea.
Qed.

(** An upper bound on the number of steps always exists. *)
Lemma steps_exist dt x : 0 < dt -> exists m, x <= INR m * dt.
Proof.
  intro H. destruct (Rle_lt_dec x 0).
  - exists 0%nat. simpl. lra.
  - exists (Z.to_nat (up (x / dt))). destruct (archimed (x / dt)) as [Hu _].
    assert (0 < x / dt) by (apply Rdiv_lt_0_compat; auto).
    assert (0 < up (x / dt))%Z by (apply lt_IZR; lra).
    rewrite INR_IZR_INZ, Z2Nat.id by lia.
    apply Rmult_lt_compat_r with (r := dt) in Hu; auto.
    replace (x / dt * dt) with x in Hu by (field; lra). lra.
Qed.

(** Start time at the very end (or on an empty trajectory): out of range access. *)
Lemma evaluateRange_end tr d t_end dt fuel : times_nonneg tr ->
  0 < dt -> duration tr <= t_end -> (t_end - duration tr) / dt + 1 < IZR (2 ^ 59) ->
  traj_evaluateRange fuel tr (duration tr) t_end dt d = UB.
Proof.
  intros Hn Hdt Hle Hsz. unfold traj_evaluateRange.
  assert (Hq : 0 <= (t_end - duration tr) / dt).
  { apply Rmult_le_pos; [lra|]. left. now apply Rinv_0_lt_compat. }
  rewrite reserve_ok by (rnum; lra). cbn [obind].
  unfold duration in *. rewrite find_segment_miss by (auto; rnum; lra).
  rnum. destruct (Rltb_spec (0 + lsum (map seg_time (tr_segments tr))) (lsum (map seg_time (tr_segments tr)))); [lra|].
  cbn [Nat.add]. rewrite oget_UB by lia. reflexivity.
Qed.

Lemma range_result_window tr d t_start t_end dt vs ts : 0 < dt -> t_end <= duration tr ->
  range_result tr d t_start t_start t_end dt vs ts -> window_samples tr d t_start t_end dt vs ts.
Proof.
  intros Hdt Hend (Hl & Hk & Hs). exists (length ts). split; [|split].
  - intro k. split; intro H.
    + destruct (Hk k) as (_ & H1 & _); [lia|]. exact H1.
    + destruct (le_lt_dec (length ts) k) as [G|G]; auto. exfalso.
      assert (INR (length vs) <= INR k) by (apply le_INR; lia).
      assert (INR (length vs) * dt <= INR k * dt) by (apply Rmult_le_compat_r; lra).
      destruct Hs; lra.
  - apply nth_ext with (d := 0) (d' := (fun k => t_start + INR k * dt) 0%nat);
      [now rewrite map_length, seq_length|].
    intros k H. rewrite (map_nth (fun k => t_start + INR k * dt)), seq_nth by auto.
    destruct (Hk k) as (-> & _); [lia|]. reflexivity.
  - assert (Hg : forall k, (k < length ts)%nat -> value_at tr d (nth k ts 0) (nth k vs [])).
    { intros k H. destruct (Hk k) as (-> & _ & _ & i & Hi & Hb & Hv); [lia|].
      exists i. auto. }
    clear Hk Hs. revert vs Hl Hg. induction ts as [|t ts IH]; intros [|v vs] Hl Hg; try discriminate.
    + constructor.
    + constructor; [apply (Hg 0%nat); simpl; lia|]. apply IH; [simpl in Hl; lia|].
      intros k H. apply (Hg (S k)). simpl. lia.
Qed.
