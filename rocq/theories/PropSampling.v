(** C51: sampled states; C68: the table of sampled states. *)
From Coq Require Import ZArith Reals List Bool Lia Lra String.
From Coquelicot Require Import Coquelicot.
From Verif Require Import Num RSum SpecPoly ModelPolynomial ModelSegment SpecSegment ModelVertex
  ModelTrajectory SpecTrajectory ProofSegment ProofTrajectory ProofTrajectory2 PropTrajectory ModelIO ModelSampling.
Import ListNotations.
Notation length := List.length.
Open Scope R_scope.

(** A state that holds the values f 0 ... f 4 of an object with D dimensions:
    the derivatives in x, y, z, and the attitude by the functions of mav_msgs
    (unchanged when there is none); label as whole nanoseconds. *)
Definition holds (mav : mav_functions R) (D : nat) (f : nat -> list R) (label : R) (old st : point R) : Prop :=
  pt_position st = firstn 3 (f 0%nat) /\ pt_velocity st = firstn 3 (f 1%nat) /\ pt_acceleration st = firstn 3 (f 2%nat) /\
  pt_jerk st = firstn 3 (f 3%nat) /\ pt_snap st = firstn 3 (f 4%nat) /\
  IZR (pt_time_ns st) <= 10 ^ 9 * label < IZR (pt_time_ns st) + 1 /\
  (D = 4%nat -> pt_dof st = DOF4 /\ pt_orientation st = mav_yaw mav (nth 3 (f 0%nat) 0) /\
     pt_angular_velocity st = mav_yaw_rate mav (nth 3 (f 1%nat) 0) /\ pt_angular_acceleration st = mav_yaw_acc mav (nth 3 (f 2%nat) 0)) /\
  (D = 6%nat -> pt_dof st = DOF6 /\ pt_orientation st = mav_rotation mav (skipn 3 (f 0%nat)) /\
     pt_angular_velocity st = mav_omega mav (skipn 3 (f 0%nat)) (skipn 3 (f 1%nat)) /\
     pt_angular_acceleration st = mav_omega_dot mav (skipn 3 (f 0%nat)) (skipn 3 (f 1%nat)) (skipn 3 (f 2%nat))) /\
  (D <> 4%nat -> D <> 6%nat -> pt_dof st = DOF4 /\ pt_orientation st = pt_orientation old /\
     pt_angular_velocity st = pt_angular_velocity old /\ pt_angular_acceleration st = pt_angular_acceleration old).

Lemma to_int64_R x : 0 <= x -> x < IZR (2 ^ 63) -> exists z, to_int64 x = Ok z /\ IZR z <= x < IZR z + 1.
Proof.
  intros H0 H1. unfold to_int64. cbn [ntoZ R_ops]. unfold Rtrunc. destruct (Rlt_dec x 0); [lra|].
  destruct (base_Int_part x) as (I1 & I2). set (z := Int_part x) in *.
  assert (Hz0 : (0 <= z)%Z). { apply Znot_gt_le. intros Hg. assert (Q : (z <= -1)%Z) by lia. apply IZR_le in Q. lra. }
  assert (Hz1 : (z < 2 ^ 63)%Z) by (apply lt_IZR; lra).
  exists z. rewrite (proj2 (Z.leb_le _ _)), (proj2 (Z.ltb_lt _ _) Hz1) by lia. split; [reflexivity|]. lra.
Qed.
Lemma head3 (v : list R) : (3 <= length v)%nat -> vec_head v 3 = Ok (firstn 3 v).
Proof. intros H. unfold vec_head. destruct (Z.ltb_spec 3 0); [lia|]. destruct (Z.ltb_spec (Z.of_nat (length v)) 3); [lia|]. reflexivity. Qed.
Lemma oget_in {A} (l : list A) i d : (i < length l)%nat -> oget l i = Ok (nth i l d).
Proof. intros H. unfold oget. rewrite (nth_error_nth' l d H). reflexivity. Qed.

Lemma fill_ok mav D f label old : (3 <= D)%nat -> (forall d, (d < 5)%nat -> length (f d) = D) -> 0 <= label -> 10 ^ 9 * label < IZR (2 ^ 63) ->
  exists st, fill_state mav D (f 0%nat) (f 1%nat) (f 2%nat) (f 3%nat) (f 4%nat) label old = Ok st /\ holds mav D f label old st.
Proof.
  intros HD HL L0 L1. unfold fill_state. rewrite !head3 by (rewrite HL by lia; exact HD). cbn [obind].
  destruct (to_int64_R (10 ^ 9 * label)) as (z & E & B); [assert (0 < 10 ^ 9) by (apply pow_lt; lra); apply Rmult_le_pos; lra|exact L1|].
  cbn [nmul nofZ R_ops]. replace (label * IZR (10 ^ 9)) with (10 ^ 9 * label) by (change (10 ^ 9)%Z with 1000000000%Z; ring). rewrite E. cbn [obind].
  destruct (Nat.eqb_spec D 4) as [->|H4].
  - rewrite !(oget_in _ 3 0) by (rewrite HL; lia). cbn [obind]. eexists. split; [reflexivity|].
    unfold holds. cbn [pt_position pt_velocity pt_acceleration pt_jerk pt_snap pt_time_ns pt_dof pt_orientation pt_angular_velocity pt_angular_acceleration].
    do 5 (split; [reflexivity|]). split; [exact B|]. split; [auto|]. split; [discriminate|]. intros; congruence.
  - destruct (Nat.eqb_spec D 6) as [->|H6].
    + assert (Q : forall d, (d < 5)%nat -> vec_tail3 (f d) = Ok (skipn 3 (f d))) by (intros d Hd; unfold vec_tail3; rewrite HL by lia; reflexivity).
      rewrite !Q by lia. cbn [obind]. eexists. split; [reflexivity|].
      unfold holds. cbn [pt_position pt_velocity pt_acceleration pt_jerk pt_snap pt_time_ns pt_dof pt_orientation pt_angular_velocity pt_angular_acceleration].
      do 5 (split; [reflexivity|]). split; [exact B|]. split; [discriminate|]. split; [auto|]. intros; congruence.
    + eexists. split; [reflexivity|].
      unfold holds. cbn [pt_position pt_velocity pt_acceleration pt_jerk pt_snap pt_time_ns pt_dof pt_orientation pt_angular_velocity pt_angular_acceleration].
      do 5 (split; [reflexivity|]). split; [exact B|]. split; [congruence|]. split; [congruence|]. auto.
Qed.

(** The piece that is active at t and the values of all derivatives there. *)
Lemma evaluate_active tr t : traj_wf tr -> times_nonneg tr -> (0 < tr_K tr)%nat -> 0 <= t <= duration tr ->
  exists i, (i < tr_K tr)%nat /\ start_time tr i <= t <= start_time tr (S i) /\
    forall d : nat, traj_evaluate tr t (Z.of_nat d) = Ok (seg_value (seg_at tr i) (t - start_time tr i) d).
Proof.
  intros Hw Hn HK Ht. destruct (Rle_lt_or_eq_dec t (duration tr) (proj2 Ht)) as [Hl|He].
  - destruct (find_index tr t HK (conj (proj1 Ht) Hl)) as (i & Hi & Hb). exists i. split; [exact Hi|]. split; [lra|]. intros d.
    rewrite (evaluate_in tr i t _ Hn Hi); [|right|]; try apply Hb. destruct (traj_wf_seg tr i Hw Hi) as (_ & E & W & W2). apply seg_evaluate_value; assumption.
  - exists (tr_K tr - 1)%nat. assert (Hi : (tr_K tr - 1 < tr_K tr)%nat) by lia. split; [exact Hi|].
    assert (ES : start_time tr (S (tr_K tr - 1)) = duration tr) by (replace (S (tr_K tr - 1)) with (tr_K tr) by lia; apply start_time_K).
    assert (E1 := start_time_S tr _ Hi). assert (T0 : 0 <= seg_time (seg_at tr (tr_K tr - 1))).
    { apply (nonneg_nth (tr_segments tr)); [exact Hn|exact Hi]. }
    split; [lra|]. intros d. destruct (C14_evaluate_elsewhere tr t d Hw Hn) as (Q & _). rewrite (Q He HK). f_equal. f_equal. lra.
Qed.
Lemma seg_value_length s t d : length (seg_value s t d) = seg_D s.
Proof. unfold seg_value. rewrite map_length, seq_length. reflexivity. Qed.

(** ** C51: one time.  The state is written from one segment that is active at
    that time. *)
Theorem C51_at_time (mav : mav_functions R) (tr : trajectory R) (t : R) (old : point R) :
  traj_wf tr -> times_nonneg tr -> traj_consistent tr -> (0 < tr_K tr)%nat -> 10 ^ 9 * duration tr < IZR (2 ^ 63) ->
  (0 <= t <= tr_max_time tr /\ (3 <= tr_D tr)%nat ->
   exists i st, (i < tr_K tr)%nat /\ start_time tr i <= t <= start_time tr (S i) /\
     sampleTrajectoryAtTime mav tr t old = Ok (true, st) /\
     holds mav (tr_D tr) (seg_value (seg_at tr i) (t - start_time tr i)) t old st) /\
  (~ (0 <= t <= tr_max_time tr /\ (3 <= tr_D tr)%nat) -> sampleTrajectoryAtTime mav tr t old = Ok (false, old)).
Proof.
  intros Hw Hn (_ & Hc) HK Hs.
  assert (Em : tr_max_time tr = duration tr). { rewrite Hc. unfold n0. rnum. rewrite fold_left_lsum. unfold duration. lra. }
  rewrite Em. unfold sampleTrajectoryAtTime. rewrite Em. unfold n0. rnum. split.
  - intros (Ht & HD). rewrite (proj2 (Rltb_false t 0)), (proj2 (Rltb_false _ t)) by lra. cbn [orb].
    destruct (Nat.ltb_spec (tr_D tr) 3); [lia|].
    destruct (evaluate_active tr t Hw Hn HK Ht) as (i & Hi & Hb & E). destruct (traj_wf_seg tr i Hw Hi) as (ED & _).
    assert (L9 : 10 ^ 9 * t < IZR (2 ^ 63)). { apply Rle_lt_trans with (10 ^ 9 * duration tr); [apply Rmult_le_compat_l; [apply pow_le; lra|lra]|exact Hs]. }
    destruct (fill_ok mav (tr_D tr) (seg_value (seg_at tr i) (t - start_time tr i)) t old HD) as (st & F & H1); [intros; rewrite seg_value_length; exact ED|lra|exact L9|].
    exists i, st. split; [exact Hi|]. split; [exact Hb|]. split; [|exact H1]. unfold sampleFlatState. destruct (Nat.ltb_spec (tr_D tr) 3); [lia|].
    change 0%Z with (Z.of_nat 0). change 1%Z with (Z.of_nat 1). change 2%Z with (Z.of_nat 2). change 3%Z with (Z.of_nat 3). change 4%Z with (Z.of_nat 4).
    rewrite !E. cbn [obind]. rewrite F. reflexivity.
  - intros Hx. destruct (Rltb_spec t 0) as [|H0]; [reflexivity|]. destruct (Rltb_spec (duration tr) t) as [|H1]; [reflexivity|]. cbn [orb].
    destruct (Nat.ltb_spec (tr_D tr) 3) as [|H2]; [reflexivity|]. exfalso. apply Hx. split; [lra|lia].
Qed.
Print Assumptions C51_at_time.

(** The same for a single segment; there is no condition on its consistency
    beyond the sizes. *)
Theorem C51_segment (mav : mav_functions R) (s : segment R) (t : R) (old : point R) :
  seg_wf s -> (seg_N s <= 22)%nat -> 10 ^ 9 * seg_time s < IZR (2 ^ 63) ->
  (0 <= t <= seg_time s /\ (3 <= seg_D s)%nat ->
   exists st, sampleSegmentAtTime mav s t old = Ok (true, st) /\ holds mav (seg_D s) (seg_value s t) t old st) /\
  (~ (0 <= t <= seg_time s /\ (3 <= seg_D s)%nat) -> sampleSegmentAtTime mav s t old = Ok (false, old)).
Proof.
  intros Hw HN Hs. unfold sampleSegmentAtTime. unfold n0. rnum. split.
  - intros (Ht & HD). rewrite (proj2 (Rltb_false t 0)), (proj2 (Rltb_false _ t)) by lra. cbn [orb].
    assert (L9 : 10 ^ 9 * t < IZR (2 ^ 63)). { apply Rle_lt_trans with (10 ^ 9 * seg_time s); [apply Rmult_le_compat_l; [apply pow_le; lra|lra]|exact Hs]. }
    destruct (fill_ok mav (seg_D s) (seg_value s t) t old HD) as (st & F & H1); [intros; apply seg_value_length|lra|exact L9|].
    exists st. split; [|exact H1]. unfold sampleFlatState. destruct (Nat.ltb_spec (seg_D s) 3); [lia|].
    change 0%Z with (Z.of_nat 0). change 1%Z with (Z.of_nat 1). change 2%Z with (Z.of_nat 2). change 3%Z with (Z.of_nat 3). change 4%Z with (Z.of_nat 4).
    rewrite !seg_evaluate_value by assumption. cbn [obind]. rewrite F. reflexivity.
  - intros Hx. destruct (Rltb_spec t 0) as [|H0]; [reflexivity|]. destruct (Rltb_spec (seg_time s) t) as [|H1]; [reflexivity|]. cbn [orb].
    unfold sampleFlatState. destruct (Nat.ltb_spec (seg_D s) 3) as [|H2]; [reflexivity|]. exfalso. apply Hx. split; [lra|lia].
Qed.
Print Assumptions C51_segment.

(** A larger bound on the iterations changes nothing. *)
Lemma range_loop_mono {T} {ops : NumOps T} segs t_end dt d : forall fuel fuel' i acc tis r, (fuel <= fuel')%nat ->
  range_loop fuel segs t_end dt d i acc tis = Ok (Some r) -> range_loop fuel' segs t_end dt d i acc tis = Ok (Some r).
Proof.
  induction fuel as [|k IH]; intros fuel' i acc tis r Hf H; [discriminate|]. destruct fuel' as [|k']; [lia|]. cbn [range_loop] in *.
  destruct (nltb acc t_end); [|exact H]. destruct (oget segs i) as [s| | |]; cbn [obind] in *; try discriminate.
  destruct (nltb (seg_time s) tis).
  - destruct (Nat.leb _ _); [exact H|]. apply IH; [lia|exact H].
  - destruct (seg_evaluate s tis d) as [v| | |]; cbn [obind] in *; try discriminate.
    destruct (range_loop k segs t_end dt d i (nadd acc dt) (nadd tis dt)) as [[r'|]| | |] eqn:E; cbn [obind] in H; try discriminate.
    rewrite (IH k' i _ _ r' ltac:(lia) E). exact H.
Qed.
Lemma evaluateRange_mono {T} {ops : NumOps T} tr a b dt d fuel fuel' r : (fuel <= fuel')%nat ->
  traj_evaluateRange fuel tr a b dt d = Ok (Some r) -> traj_evaluateRange fuel' tr a b dt d = Ok (Some r).
Proof.
  intros Hf. unfold traj_evaluateRange. destruct (reserve_samples _) as [u| | |]; cbn [obind]; try discriminate.
  destruct (find_segment _ _ _ _) as (i & acc). destruct (nltb acc a); [auto|]. destruct (oget _ i) as [s| | |]; cbn [obind]; try discriminate.
  apply range_loop_mono, Hf.
Qed.
Lemma in_range_mono {T} {ops : NumOps T} mav fuel fuel' tr a b dt (old : list (point T)) r :
  sampleTrajectoryInRange mav fuel tr a b dt old = Ok (Some r) -> (fuel <= fuel')%nat ->
  sampleTrajectoryInRange mav fuel' tr a b dt old = Ok (Some r).
Proof.
  intros H Hf. unfold sampleTrajectoryInRange in *. destruct (_ || _); [exact H|]. destruct (Nat.ltb _ _); [exact H|].
  destruct (traj_evaluateRange fuel tr a b dt 0) as [[(v0 & t0)|]| | |] eqn:E0; cbn [obind] in H; try discriminate.
  2:{ repeat (match type of H with context [obind ?e _] => destruct e; cbn [obind] in H; try discriminate end). }
  destruct (traj_evaluateRange fuel tr a b dt 1) as [[(v1 & t1)|]| | |] eqn:E1; cbn [obind] in H; try discriminate.
  2:{ repeat (match type of H with context [obind ?e _] => destruct e; cbn [obind] in H; try discriminate end). }
  destruct (traj_evaluateRange fuel tr a b dt 2) as [[(v2 & t2)|]| | |] eqn:E2; cbn [obind] in H; try discriminate.
  2:{ repeat (match type of H with context [obind ?e _] => destruct e; cbn [obind] in H; try discriminate end). }
  destruct (traj_evaluateRange fuel tr a b dt 3) as [[(v3 & t3)|]| | |] eqn:E3; cbn [obind] in H; try discriminate.
  2:{ repeat (match type of H with context [obind ?e _] => destruct e; cbn [obind] in H; try discriminate end). }
  destruct (traj_evaluateRange fuel tr a b dt 4) as [[(v4 & t4)|]| | |] eqn:E4; cbn [obind] in H; try discriminate.
  rewrite (evaluateRange_mono _ _ _ _ _ _ _ _ Hf E0), (evaluateRange_mono _ _ _ _ _ _ _ _ Hf E1), (evaluateRange_mono _ _ _ _ _ _ _ _ Hf E2),
    (evaluateRange_mono _ _ _ _ _ _ _ _ Hf E3), (evaluateRange_mono _ _ _ _ _ _ _ _ Hf E4). exact H.
Qed.

(** ** Ranges *)
Lemma range_length tr d1 d2 acc tau t_end dt vs1 ts1 vs2 ts2 :
  range_result tr d1 acc tau t_end dt vs1 ts1 -> range_result tr d2 acc tau t_end dt vs2 ts2 -> length vs1 = length vs2.
Proof.
  intros (_ & A1 & B1) (_ & A2 & B2). destruct (lt_eq_lt_dec (length vs1) (length vs2)) as [[H|H]|H]; [exfalso|exact H|exfalso].
  - destruct (A2 _ H) as (_ & P & Q & _). lra.
  - destruct (A1 _ H) as (_ & P & Q & _). lra.
Qed.

Lemma in_range_ok mav tr lo hi dt j m fuel old :
  traj_wf tr -> times_nonneg tr -> traj_consistent tr -> (3 <= tr_D tr)%nat -> 10 ^ 9 * duration tr < IZR (2 ^ 63) ->
  0 < dt -> 0 <= lo <= hi -> hi <= duration tr -> (hi - lo) / dt + 1 < IZR (2 ^ 59) ->
  (j < tr_K tr)%nat -> start_time tr j <= lo < start_time tr (S j) -> hi <= start_time tr j + INR m * dt -> (m + tr_K tr < fuel)%nat ->
  exists sts, sampleTrajectoryInRange mav fuel tr lo hi dt old = Ok (Some (true, sts)) /\
    (forall k, (k < length sts)%nat <-> start_time tr j + INR k * dt < hi /\ lo + INR k * dt <= duration tr) /\
    forall k, (k < length sts)%nat -> exists f, (forall d, (d < 5)%nat -> value_at tr d (lo + INR k * dt) (f d)) /\
      holds mav (tr_D tr) f (lo + INR k * dt) (nth k old point_new) (nth k sts point_new).
Proof.
  intros Hw Hn (_ & Hc) HD Hs Hdt Hlo Hhi Hq Hj Hb Hm Hf.
  assert (Em : tr_max_time tr = duration tr). { rewrite Hc. unfold n0. rnum. rewrite fold_left_lsum. unfold duration. lra. }
  unfold sampleTrajectoryInRange. rewrite Em. unfold n0. rnum. rewrite (proj2 (Rltb_false lo 0)), (proj2 (Rltb_false _ hi)) by lra. cbn [orb].
  destruct (Nat.ltb_spec (tr_D tr) 3); [lia|].
  assert (G : forall d : nat, exists vs ts, traj_evaluateRange fuel tr lo hi dt (Z.of_nat d) = Ok (Some (vs, ts)) /\ range_result tr d (start_time tr j) lo hi dt vs ts).
  { intros d. apply (evaluateRange_spec tr d lo hi dt j m fuel); try assumption. lra. }
  destruct (G 0%nat) as (v0 & t0 & E0 & R0). destruct (G 1%nat) as (v1 & t1 & E1 & R1). destruct (G 2%nat) as (v2 & t2 & E2 & R2).
  destruct (G 3%nat) as (v3 & t3 & E3 & R3). destruct (G 4%nat) as (v4 & t4 & E4 & R4).
  cbn [Z.of_nat Pos.of_succ_nat Pos.succ] in E0, E1, E2, E3, E4. rewrite E0, E1, E2, E3, E4. cbn [obind].
  assert (L1 := range_length _ _ _ _ _ _ _ _ _ _ _ R0 R1). assert (L2 := range_length _ _ _ _ _ _ _ _ _ _ _ R0 R2).
  assert (L3 := range_length _ _ _ _ _ _ _ _ _ _ _ R0 R3). assert (L4 := range_length _ _ _ _ _ _ _ _ _ _ _ R0 R4).
  set (F := fun k d => nth k (nth d [v0; v1; v2; v3; v4] []) []).
  assert (V : forall k, (k < length v0)%nat -> lo + INR k * dt <= duration tr /\ forall d, (d < 5)%nat -> value_at tr d (lo + INR k * dt) (F k d)).
  { intros k Hk. split; [apply (proj1 (proj2 R0) k Hk)|]. intros d Hd. unfold F, value_at.
    destruct d as [|[|[|[|[|]]]]]; cbn [nth]; [| | | | |lia].
    - destruct (proj1 (proj2 R0) k Hk) as (_ & _ & _ & i & Hi & B & E). exists i. auto.
    - destruct (proj1 (proj2 R1) k ltac:(lia)) as (_ & _ & _ & i & Hi & B & E). exists i. auto.
    - destruct (proj1 (proj2 R2) k ltac:(lia)) as (_ & _ & _ & i & Hi & B & E). exists i. auto.
    - destruct (proj1 (proj2 R3) k ltac:(lia)) as (_ & _ & _ & i & Hi & B & E). exists i. auto.
    - destruct (proj1 (proj2 R4) k ltac:(lia)) as (_ & _ & _ & i & Hi & B & E). exists i. auto. }
  assert (St : forall k, (k < length v0)%nat -> exists st,
     fill_state mav (tr_D tr) (F k 0%nat) (F k 1%nat) (F k 2%nat) (F k 3%nat) (F k 4%nat) (lo + dt * IZR (Z.of_nat k)) (nth k old point_new) = Ok st /\
     holds mav (tr_D tr) (F k) (lo + INR k * dt) (nth k old point_new) st).
  { intros k Hk. destruct (V k Hk) as (Hd & Hv). rewrite <- INR_IZR_INZ. rewrite (Rmult_comm dt). assert (0 <= INR k * dt) by (apply Rmult_le_pos; [apply pos_INR|lra]).
    apply fill_ok; [exact HD| |lra|].
    - intros d Hd5. destruct (Hv d Hd5) as (i & Hi & _ & ->). rewrite seg_value_length. apply (traj_wf_seg tr i Hw Hi).
    - apply Rle_lt_trans with (10 ^ 9 * duration tr); [apply Rmult_le_compat_l; [apply pow_le; lra|exact Hd]|exact Hs]. }
  match goal with |- context [omap ?f (seq 0 (length v0))] => set (body := f) end.
  assert (Bd : forall k, (k < length v0)%nat -> body k = fill_state mav (tr_D tr) (F k 0%nat) (F k 1%nat) (F k 2%nat) (F k 3%nat) (F k 4%nat) (lo + dt * IZR (Z.of_nat k)) (nth k old point_new)).
  { intros k Hk. unfold body, sample_at. rewrite (oget_in v0 k []), (oget_in v1 k []), (oget_in v2 k []), (oget_in v3 k []), (oget_in v4 k []) by lia. reflexivity. }
  assert (O : exists sts, omap body (seq 0 (length v0)) = Ok sts /\ length sts = length v0 /\
     forall k, (k < length v0)%nat -> holds mav (tr_D tr) (F k) (lo + INR k * dt) (nth k old point_new) (nth k sts point_new)).
  { assert (Gn : forall n s, (s + n <= length v0)%nat -> exists sts, omap body (seq s n) = Ok sts /\ length sts = n /\
       forall k, (k < n)%nat -> holds mav (tr_D tr) (F (s + k)%nat) (lo + INR (s + k) * dt) (nth (s + k)%nat old point_new) (nth k sts point_new)).
    { induction n as [|n IH]; intros s Hsn; [exists []; split; [reflexivity|]; split; [reflexivity|]; intros; lia|].
      destruct (IH (S s) ltac:(lia)) as (sts & Eo & Lo & Ho). destruct (St s ltac:(lia)) as (st & Es & Hst). exists (st :: sts).
      cbn [seq omap]. rewrite Bd by lia. rewrite Es. cbn [obind]. rewrite Eo. split; [reflexivity|]. split; [cbn [length]; lia|].
      intros [|k] Hk; [rewrite Nat.add_0_r; exact Hst|]. replace (s + S k)%nat with (S s + k)%nat by lia. cbn [nth]. apply Ho. lia. }
    destruct (Gn (length v0) 0%nat ltac:(lia)) as (sts & A & B & C). exists sts. auto. }
  destruct O as (sts & Eo & Lo & Ho). exists sts. rewrite Eo. split; [reflexivity|]. split.
  - intros k. rewrite Lo. split.
    + intros Hk. destruct (proj1 (proj2 R0) k Hk) as (_ & A & B & _). auto.
    + intros (A & B). apply Nat.nle_gt. intros Hg. assert (Q : INR (length v0) * dt <= INR k * dt) by (apply Rmult_le_compat_r; [lra|apply le_INR, Hg]).
      destruct (proj2 (proj2 R0)); lra.
  - intros k Hk. rewrite Lo in Hk. exists (F k). split; [apply V, Hk|apply Ho, Hk].
Qed.

(** ** C51: the whole trajectory. *)
Theorem C51_whole_trajectory (mav : mav_functions R) (tr : trajectory R) (dt : R) (old : list (point R)) :
  traj_wf tr -> times_nonneg tr -> traj_consistent tr -> (3 <= tr_D tr)%nat -> 10 ^ 9 * duration tr < IZR (2 ^ 63) ->
  0 < dt -> 0 < duration tr -> duration tr / dt + 1 < IZR (2 ^ 59) ->
  exists fuel0 sts, (forall fuel, (fuel0 <= fuel)%nat -> sampleWholeTrajectory mav fuel tr dt old = Ok (Some (true, sts))) /\
    (forall k, (k < length sts)%nat <-> INR k * dt < duration tr) /\
    forall k, (k < length sts)%nat -> exists f, (forall d, (d < 5)%nat -> value_at tr d (INR k * dt) (f d)) /\
      holds mav (tr_D tr) f (INR k * dt) (nth k old point_new) (nth k sts point_new).
Proof.
  intros Hw Hn Hc HD Hs Hdt H0 Hq.
  assert (HK : (0 < tr_K tr)%nat). { unfold tr_K. destruct (tr_segments tr) eqn:E; [|cbn; lia]. unfold duration in H0. rewrite E in H0. cbn in H0. lra. }
  destruct (find_index tr 0 HK (conj (Rle_refl 0) H0)) as (j & Hj & Hb). destruct (steps_exist dt (duration tr - start_time tr j) Hdt) as (m & Hm).
  assert (S0 : start_time tr j = 0). { assert (Q := tsum_nonneg (tr_segments tr) j Hn). unfold start_time in *. unfold tsum in Q. lra. }
  assert (Em : tr_max_time tr = duration tr). { rewrite (proj2 Hc). unfold n0. rnum. rewrite fold_left_lsum. unfold duration. lra. }
  assert (W : forall fuel, (m + tr_K tr < fuel)%nat -> exists sts, sampleWholeTrajectory mav fuel tr dt old = Ok (Some (true, sts)) /\
     (forall k, (k < length sts)%nat <-> start_time tr j + INR k * dt < duration tr /\ 0 + INR k * dt <= duration tr) /\
     forall k, (k < length sts)%nat -> exists f, (forall d, (d < 5)%nat -> value_at tr d (0 + INR k * dt) (f d)) /\
      holds mav (tr_D tr) f (0 + INR k * dt) (nth k old point_new) (nth k sts point_new)).
  { intros fuel Hf. unfold sampleWholeTrajectory. rewrite Em. unfold n0 at 1. rnum.
    apply (in_range_ok mav tr 0 (duration tr) dt j m fuel old); try assumption; try lra. }
  destruct (W (S (m + tr_K tr)) ltac:(lia)) as (sts & E & N & V). exists (S (m + tr_K tr)), sts. split.
  - intros fuel Hf. destruct (W fuel ltac:(lia)) as (sts' & E' & N' & _). rewrite E'. do 3 f_equal.
    (* more iterations than needed give the same samples *)
    clear -E E' Hf. assert (Q := in_range_mono mav (S (m + tr_K tr)) fuel tr n0 (tr_max_time tr) dt old _ E Hf). unfold sampleWholeTrajectory in E'. rewrite E' in Q. congruence.
  - split.
    + intros k. rewrite N, S0. lra.
    + intros k Hk. destruct (V k Hk) as (f & A & B). rewrite !Rplus_0_l in *. exists f. split; [exact A|exact B].
Qed.
Print Assumptions C51_whole_trajectory.

(** A straight line in two pieces: x = t, y = 2 t, z = 3 on [0, 3]. *)
Definition line_tr : trajectory R :=
  mkTraj 3 2 [mkSegment 2 [[0; 1]; [0; 2]; [3; 0]] 1; mkSegment 2 [[1; 1]; [2; 2]; [3; 0]] 2] (0 + 1 + 2).
Definition no_mav : mav_functions R := mkMav R (fun y => [y]) (fun y => [y]) (fun y => [y]) (fun r => r) (fun r _ => r) (fun r _ _ => r).
Lemma line_wf : traj_wf line_tr. Proof. split; [repeat constructor|cbn; lia]. Qed.
Lemma line_nonneg : times_nonneg line_tr. Proof. repeat constructor; cbn; lra. Qed.
Lemma line_consistent : traj_consistent line_tr. Proof. split; [repeat constructor|reflexivity]. Qed.
Lemma line_duration : duration line_tr = 3. Proof. unfold duration. cbn. lra. Qed.
Lemma line_small : 10 ^ 9 * duration line_tr < IZR (2 ^ 63).
Proof. rewrite line_duration. apply Rlt_le_trans with (IZR 10000000000); [lra|apply IZR_le; discriminate]. Qed.
Lemma line_starts : start_time line_tr 0 = 0 /\ start_time line_tr 1 = 1 /\ start_time line_tr 2 = 3.
Proof. unfold start_time. cbn. lra. Qed.

Example C51_example : exists i st, (i < 2)%nat /\ sampleTrajectoryAtTime no_mav line_tr 2 point_new = Ok (true, st) /\
  holds no_mav 3 (seg_value (seg_at line_tr i) (2 - start_time line_tr i)) 2 point_new st.
Proof.
  destruct (C51_at_time no_mav line_tr 2 point_new line_wf line_nonneg line_consistent ltac:(cbn; lia) line_small) as (H & _).
  destruct H as (i & st & Hi & _ & E & Hh); [split; [cbn; lra|cbn; lia]|]. exists i, st. auto.
Qed.
Example C51_whole_example : 0 < 1 / 2 /\ 0 < duration line_tr /\ duration line_tr / (1 / 2) + 1 < IZR (2 ^ 59) /\
  exists fuel sts, sampleWholeTrajectory no_mav fuel line_tr (1 / 2) [] = Ok (Some (true, sts)) /\ length sts = 6%nat.
Proof.
  assert (H1 : 0 < duration line_tr) by (rewrite line_duration; lra).
  assert (H2 : duration line_tr / (1 / 2) + 1 < IZR (2 ^ 59)) by (rewrite line_duration; apply Rle_lt_trans with (IZR 7); [lra|apply IZR_lt; reflexivity]).
  split; [lra|]. split; [exact H1|]. split; [exact H2|].
  destruct (C51_whole_trajectory no_mav line_tr (1 / 2) [] line_wf line_nonneg line_consistent ltac:(cbn; lia) line_small ltac:(lra) H1 H2) as (f0 & sts & E & N & _).
  exists f0, sts. split; [apply E; lia|]. rewrite line_duration in N.
  assert (A : (5 < length sts)%nat) by (apply N; cbn; lra). assert (B : ~ (6 < length sts)%nat) by (rewrite N; cbn; lra). lia.
Qed.

(** A trajectory without duration, and a negative sampling interval, are
    undefined behaviour. *)
Definition point_tr : trajectory R := mkTraj 3 1 [mkSegment 1 [[1]; [2]; [3]] 0] (0 + 0).
Theorem C51_zero_duration_refuted : exists (tr : trajectory R) (dt : R), traj_wf tr /\ times_nonneg tr /\ traj_consistent tr /\ (3 <= tr_D tr)%nat /\
  (0 < tr_K tr)%nat /\ 0 < dt /\ forall mav fuel old, sampleWholeTrajectory mav fuel tr dt old = UB.
Proof.
  assert (Hn : times_nonneg point_tr) by (repeat constructor; cbn; lra).
  assert (Ed : duration point_tr = 0) by (unfold duration; cbn; lra).
  exists point_tr, 1. split; [split; [repeat constructor|cbn; lia]|]. split; [exact Hn|]. split; [split; [repeat constructor|reflexivity]|].
  split; [cbn; lia|]. split; [cbn; lia|]. split; [lra|]. intros mav fuel old.
  unfold sampleWholeTrajectory, sampleTrajectoryInRange. unfold n0. rnum. cbn [tr_max_time tr_D point_tr Nat.ltb Nat.leb].
  rewrite (proj2 (Rltb_false 0 0)), (proj2 (Rltb_false (0 + 0) (0 + 0))) by lra. cbn [orb].
  assert (Q := C17_start_at_end_out_of_bounds point_tr 0 1 fuel Hn ltac:(lra)). rewrite Ed in Q. rewrite Rplus_0_l. rewrite Q. reflexivity.
Qed.
Print Assumptions C51_zero_duration_refuted.
Theorem C51_negative_interval_refuted : exists (tr : trajectory R) (dt : R), traj_wf tr /\ times_nonneg tr /\ traj_consistent tr /\ (3 <= tr_D tr)%nat /\
  (0 < tr_K tr)%nat /\ forall mav fuel old, sampleWholeTrajectory mav fuel tr dt old = UB.
Proof.
  exists line_tr, (-1). split; [exact line_wf|]. split; [exact line_nonneg|]. split; [exact line_consistent|].
  split; [cbn; lia|]. split; [cbn; lia|]. intros mav fuel old.
  unfold sampleWholeTrajectory, sampleTrajectoryInRange. unfold n0. rnum. cbn [tr_max_time tr_D line_tr Nat.ltb Nat.leb].
  rewrite (proj2 (Rltb_false 0 0)), (proj2 (Rltb_false (0 + 1 + 2) (0 + 1 + 2))) by lra. cbn [orb].
  unfold traj_evaluateRange at 1. replace (reserve_samples _) with (@UB unit); [reflexivity|]. symmetry.
  unfold reserve_samples, n1. rnum. unfold Rtrunc. replace ((0 + 1 + 2 - 0) / -1 + 1) with (-2) by field. destruct (Rlt_dec (-2) 0); [|lra].
  replace (- -2) with (IZR 2) by lra. destruct (base_Int_part (IZR 2)) as (I1 & I2). assert (E : Int_part (IZR 2) = 2%Z); [|rewrite E; reflexivity].
  assert (Int_part (IZR 2) <= 2)%Z by (apply le_IZR, I1). assert (2 < Int_part (IZR 2) + 1)%Z; [|lia]. apply lt_IZR. rewrite plus_IZR. lra.
Qed.
Print Assumptions C51_negative_interval_refuted.

(** ** C69: ranges.  All the times min_time + k dt before max_time are sampled,
    and what is sampled is the trajectory at the label. *)
Theorem C69_range_partial (mav : mav_functions R) (tr : trajectory R) (lo hi dt : R) (old : list (point R)) :
  traj_wf tr -> times_nonneg tr -> traj_consistent tr -> (0 < tr_K tr)%nat -> (3 <= tr_D tr)%nat -> 10 ^ 9 * duration tr < IZR (2 ^ 63) ->
  0 < dt -> 0 <= lo <= hi -> hi <= duration tr -> lo < duration tr -> (hi - lo) / dt + 1 < IZR (2 ^ 59) ->
  exists fuel0 sts, (forall fuel, (fuel0 <= fuel)%nat -> sampleTrajectoryInRange mav fuel tr lo hi dt old = Ok (Some (true, sts))) /\
    (forall k, lo + INR k * dt < hi -> (k < length sts)%nat) /\
    (forall k, (k < length sts)%nat -> lo + INR k * dt <= duration tr) /\
    forall k, (k < length sts)%nat -> exists f, (forall d, (d < 5)%nat -> value_at tr d (lo + INR k * dt) (f d)) /\
      holds mav (tr_D tr) f (lo + INR k * dt) (nth k old point_new) (nth k sts point_new).
Proof.
  intros Hw Hn Hc HK HD Hs Hdt Hlo Hhi Hl Hq.
  destruct (find_index tr lo HK (conj (proj1 Hlo) Hl)) as (j & Hj & Hb). destruct (steps_exist dt (hi - start_time tr j) Hdt) as (m & Hm).
  assert (W : forall fuel, (m + tr_K tr < fuel)%nat -> exists sts, sampleTrajectoryInRange mav fuel tr lo hi dt old = Ok (Some (true, sts)) /\
     (forall k, (k < length sts)%nat <-> start_time tr j + INR k * dt < hi /\ lo + INR k * dt <= duration tr) /\
     forall k, (k < length sts)%nat -> exists f, (forall d, (d < 5)%nat -> value_at tr d (lo + INR k * dt) (f d)) /\
      holds mav (tr_D tr) f (lo + INR k * dt) (nth k old point_new) (nth k sts point_new)).
  { intros fuel Hf. apply (in_range_ok mav tr lo hi dt j m fuel old); try assumption; lra. }
  destruct (W (S (m + tr_K tr)) ltac:(lia)) as (sts & E & N & V). exists (S (m + tr_K tr)), sts. split.
  - intros fuel Hf. exact (in_range_mono mav _ fuel tr lo hi dt old _ E Hf).
  - split; [intros k Hk; apply N; lra|]. split; [intros k Hk; apply N, Hk|exact V].
Qed.
Print Assumptions C69_range_partial.
Example C69_example : 0 <= 1 / 2 <= 1 /\ 1 <= duration line_tr /\ 1 / 2 < duration line_tr /\ (1 - 1 / 2) / (1 / 4) + 1 < IZR (2 ^ 59).
Proof. rewrite line_duration. split; [lra|]. split; [lra|]. split; [lra|]. apply Rle_lt_trans with (IZR 3); [lra|apply IZR_lt; reflexivity]. Qed.

(** But the samples go on past max_time, by the offset of min_time in its segment. *)
Theorem C69_range_refuted : exists (tr : trajectory R) (lo hi dt : R) (fuel : nat) sts k,
  traj_wf tr /\ times_nonneg tr /\ traj_consistent tr /\ (3 <= tr_D tr)%nat /\ 0 <= lo <= hi /\ hi <= duration tr /\ 0 < dt /\
  sampleTrajectoryInRange no_mav fuel tr lo hi dt [] = Ok (Some (true, sts)) /\ (k < length sts)%nat /\ hi < lo + INR k * dt.
Proof.
  destruct C69_example as (A & B & C & D). destruct line_starts as (S0 & S1 & S2).
  destruct (in_range_ok no_mav line_tr (1 / 2) 1 (1 / 4) 0 4 7 [] line_wf line_nonneg line_consistent ltac:(cbn; lia) line_small ltac:(lra) A B D ltac:(cbn; lia)) as (sts & E & N & _).
  { rewrite S0, S1. lra. } { rewrite S0. cbn. lra. } { cbn. lia. }
  exists line_tr, (1 / 2), 1, (1 / 4), 7%nat, sts, 3%nat. split; [exact line_wf|]. split; [exact line_nonneg|]. split; [exact line_consistent|]. split; [cbn; lia|].
  split; [exact A|]. split; [exact B|]. split; [lra|]. split; [exact E|]. rewrite N, S0, line_duration. cbn. lra.
Qed.
Print Assumptions C69_range_refuted.

(** ** C68: the table of states. *)
Lemma column_ok (segs : list (segment R)) rows : forall j cur, (j + length segs <= rows)%nat ->
  exists col, segment_time_column segs rows j cur = Ok col /\ length col = length segs /\
    forall i, (i < length segs)%nat -> nth i col 0 = cur + tsum segs (S i).
Proof.
  induction segs as [|s segs IH]; intros j cur Hj; [exists []; split; [reflexivity|]; split; [reflexivity|]; cbn; intros; lia|].
  cbn [segment_time_column length] in *. destruct (Nat.ltb_spec j rows); [|lia]. destruct (IH (S j) (cur + seg_time s) ltac:(lia)) as (col & E & L & V).
  rnum. rewrite E. cbn [obind]. eexists. split; [reflexivity|]. split; [cbn [length]; lia|]. intros [|i] Hi; cbn [nth].
  - rewrite tsum_cons, tsum_0. lra.
  - rewrite V by lia. rewrite (tsum_cons s segs (S i)). lra.
Qed.
Lemma column_ub (segs : list (segment R)) rows : forall j cur, (rows < j + length segs)%nat -> (j <= rows)%nat -> segment_time_column segs rows j cur = UB.
Proof.
  induction segs as [|s segs IH]; intros j cur Hj Hr; cbn [length] in Hj; [lia|]. cbn [segment_time_column].
  destruct (Nat.ltb_spec j rows); [|reflexivity]. rewrite IH by lia. reflexivity.
Qed.

Definition hundredth : R := 1 / 100.
(** The hypothesis on the number of segments: the last segment has a sample of
    its index. *)
Theorem C68_table_partial (mav : mav_functions R) text (fs : files) (filename : string) (tr : trajectory R) :
  traj_wf tr -> times_nonneg tr -> traj_consistent tr -> (3 <= tr_D tr)%nat -> 10 ^ 9 * duration tr < IZR (2 ^ 63) ->
  0 < duration tr -> duration tr / hundredth + 1 < IZR (2 ^ 59) -> INR (tr_K tr - 1) * hundredth < duration tr ->
  exists fuel0 fs' rows, (forall fuel, (fuel0 <= fuel)%nat -> sampledTrajectoryStatesToFile mav text true fuel fs filename tr = Ok (Some (true, fs'))) /\
    fs' filename = Some (text rows) /\ (forall f, f <> filename -> fs' f = fs f) /\
    (forall k, (k < length rows)%nat <-> INR k * hundredth < duration tr) /\
    forall k, (k < length rows)%nat -> exists f st, (forall d, (d < 5)%nat -> value_at tr d (INR k * hundredth) (f d)) /\
      holds mav (tr_D tr) f (INR k * hundredth) point_new st /\
      nth k rows [] = [IZR (pt_time_ns st)] ++ firstn 3 (f 0%nat) ++ firstn 3 (f 1%nat) ++ firstn 3 (f 2%nat) ++ firstn 3 (f 3%nat) ++ firstn 3 (f 4%nat) ++
        pt_orientation st ++ pt_angular_velocity st ++ pt_angular_acceleration st ++ [if Nat.ltb k (tr_K tr) then start_time tr (S k) else 0].
Proof.
  intros Hw Hn Hc HD Hs H0 Hq Hk.
  destruct (C51_whole_trajectory mav tr hundredth [] Hw Hn Hc HD Hs ltac:(unfold hundredth; lra) H0 Hq) as (fuel0 & sts & E & N & V).
  assert (Kn : (tr_K tr <= length sts)%nat). { apply N in Hk. lia. }
  destruct (column_ok (tr_segments tr) (length sts) 0 0 Kn) as (col & Ec & Lc & Vc).
  exists fuel0. eexists. exists (map (fun i => state_row (nth i sts point_new) ++ [nth i col n0]) (seq 0 (length sts))).
  split; [|split; [|split; [|split]]].
  - intros fuel Hf. unfold sampledTrajectoryStatesToFile. change (@nlit R R_ops 1 100) with hundredth. rewrite (E fuel Hf). cbn [obind].
    change (@n0 R R_ops) with 0 at 1. rewrite Ec. cbn [obind]. reflexivity.
  - cbv beta. rewrite String.eqb_refl. reflexivity.
  - intros f Hf. cbv beta. rewrite (proj2 (String.eqb_neq f filename) Hf). reflexivity.
  - intros k. rewrite map_length, seq_length. apply N.
  - intros k Hl. rewrite map_length, seq_length in Hl. destruct (V k Hl) as (f & A & B). exists f, (nth k sts point_new).
    assert (En : nth k (@nil (point R)) point_new = point_new) by (destruct k; reflexivity). rewrite En in B.
    split; [exact A|]. split; [exact B|].
    rewrite (nth_indep _ [] (state_row (nth (length sts) sts point_new) ++ [nth (length sts) col n0])) by (rewrite map_length, seq_length; exact Hl).
    rewrite (map_nth (fun i => state_row (nth i sts point_new) ++ [nth i col n0]) (seq 0 (length sts)) (length sts) k), seq_nth, Nat.add_0_l by exact Hl.
    assert (Row : state_row (nth k sts point_new) = [IZR (pt_time_ns (nth k sts point_new))] ++ firstn 3 (f 0%nat) ++ firstn 3 (f 1%nat) ++ firstn 3 (f 2%nat) ++ firstn 3 (f 3%nat) ++ firstn 3 (f 4%nat) ++
        pt_orientation (nth k sts point_new) ++ pt_angular_velocity (nth k sts point_new) ++ pt_angular_acceleration (nth k sts point_new)).
    { unfold state_row. destruct B as (B0 & B1 & B2 & B3 & B4 & _). rewrite B0, B1, B2, B3, B4. reflexivity. }
    rewrite Row, !app_assoc. do 2 f_equal. destruct (Nat.ltb_spec k (tr_K tr)) as [Hk'|Hk'].
    + change (@n0 R R_ops) with 0. rewrite Vc by exact Hk'. unfold start_time, tsum. lra.
    + rewrite nth_overflow by (rewrite Lc; exact Hk'). reflexivity.
Qed.
Print Assumptions C68_table_partial.
Example C68_example : 0 < duration line_tr /\ duration line_tr / hundredth + 1 < IZR (2 ^ 59) /\ INR (tr_K line_tr - 1) * hundredth < duration line_tr.
Proof. rewrite line_duration. unfold hundredth. split; [lra|]. split; [apply Rle_lt_trans with (IZR 301); [lra|apply IZR_lt; reflexivity]|cbn; lra]. Qed.

(** With more segments than samples the last column is written outside the matrix. *)
Theorem C68_more_segments_than_samples (mav : mav_functions R) text writable (fs : files) (filename : string) (tr : trajectory R) :
  traj_wf tr -> times_nonneg tr -> traj_consistent tr -> (3 <= tr_D tr)%nat -> 10 ^ 9 * duration tr < IZR (2 ^ 63) ->
  0 < duration tr -> duration tr / hundredth + 1 < IZR (2 ^ 59) -> duration tr <= INR (tr_K tr - 1) * hundredth ->
  exists fuel0, forall fuel, (fuel0 <= fuel)%nat -> sampledTrajectoryStatesToFile mav text writable fuel fs filename tr = UB.
Proof.
  intros Hw Hn Hc HD Hs H0 Hq Hk.
  destruct (C51_whole_trajectory mav tr hundredth [] Hw Hn Hc HD Hs ltac:(unfold hundredth; lra) H0 Hq) as (fuel0 & sts & E & N & _).
  assert (Kn : (length sts < tr_K tr)%nat). { assert (K1 : ~ (tr_K tr - 1 < length sts)%nat) by (rewrite N; lra).
    assert ((0 < tr_K tr)%nat); [|lia]. unfold tr_K. destruct (tr_segments tr) eqn:Et; [|cbn; lia]. unfold duration in H0. rewrite Et in H0. cbn in H0. lra. }
  exists fuel0. intros fuel Hf. unfold sampledTrajectoryStatesToFile. change (@nlit R R_ops 1 100) with hundredth. rewrite (E fuel Hf). cbn [obind].
  rewrite column_ub by (unfold tr_K in Kn; lia). reflexivity.
Qed.
Print Assumptions C68_more_segments_than_samples.
Definition short_seg : segment R := mkSegment 1 [[1]; [2]; [3]] (1 / 1000).
Definition short_tr : trajectory R := mkTraj 3 1 [short_seg; short_seg; short_seg] (0 + 1 / 1000 + 1 / 1000 + 1 / 1000).
Theorem C68_refuted : exists tr : trajectory R, traj_wf tr /\ times_nonneg tr /\ traj_consistent tr /\ (3 <= tr_D tr)%nat /\ 0 < duration tr /\
  forall mav text fs filename, exists fuel0, forall fuel, (fuel0 <= fuel)%nat -> sampledTrajectoryStatesToFile mav text true fuel fs filename tr = UB.
Proof.
  assert (Hd : duration short_tr = 3 / 1000) by (unfold duration; cbn; lra).
  assert (Hw : traj_wf short_tr) by (split; [repeat constructor|cbn; lia]).
  assert (Hn : times_nonneg short_tr) by (repeat constructor; cbn; lra).
  assert (Hc : traj_consistent short_tr) by (split; [repeat constructor|reflexivity]).
  exists short_tr. split; [exact Hw|]. split; [exact Hn|]. split; [exact Hc|]. split; [cbn; lia|]. split; [lra|]. intros mav text fs filename.
  apply C68_more_segments_than_samples; try assumption; rewrite ?Hd; unfold hundredth; try lra; cbn; try lia; lra.
Qed.
Print Assumptions C68_refuted.
