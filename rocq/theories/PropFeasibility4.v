(** C61: the sampling input feasibility check. *)
From Coq Require Import ZArith Reals List Bool Lia Lra.
From Coquelicot Require Import Coquelicot.
From Verif Require Import Num RSum SpecPoly SpecSegment SpecFeasibility ModelPolynomial ModelSegment ModelVertex ModelTrajectory SpecTrajectory ModelInput ModelSampling ModelFeasibility
  ProofPolynomial ProofSegment ProofTrajectory PropSampling ProofFeasibility ProofFeasibility2.
Import ListNotations.
Notation length := List.length.
Open Scope R_scope.

(** What one state says about the limits: the norm of the mass-normalised
    thrust and of the velocity, the rates about the x and y axes, the rate and the
    angular acceleration about the z axis. *)
Definition state_thrust (st : mav_state R) : R := norm3 (entries (ms_acceleration_B st)).
Definition state_speed (st : mav_state R) : R := norm3 (entries (ms_velocity_W st)).
Definition state_roll_pitch (st : mav_state R) : R := sqrt (entries (ms_angular_velocity_B st) 0 ^ 2 + entries (ms_angular_velocity_B st) 1 ^ 2).
Definition state_ok (l : limits) (st : mav_state R) : Prop :=
  holds_for (l_thrust_min l) (fun m => m <= state_thrust st) /\ holds_for (l_thrust_max l) (fun m => state_thrust st <= m) /\
  holds_for (l_speed l) (fun m => state_speed st <= m) /\ holds_for (l_roll_pitch l) (fun m => state_roll_pitch st <= m) /\
  holds_for (l_yaw_rate l) (fun m => Rabs (entries (ms_angular_velocity_B st) 2) <= m) /\
  holds_for (l_yaw_acc l) (fun m => Rabs (entries (ms_angular_acceleration_B st) 2) <= m).
Definition state_breaks (l : limits) (v : feasibility) (st : mav_state R) : Prop :=
  match v with
  | kInputFeasible | kInputIndeterminable => False
  | kInputInfeasibleThrustLow => broken_for (l_thrust_min l) (fun m => state_thrust st < m)
  | kInputInfeasibleThrustHigh => broken_for (l_thrust_max l) (fun m => m < state_thrust st)
  | kInputInfeasibleVelocity => broken_for (l_speed l) (fun m => m < state_speed st)
  | kInputInfeasibleRollPitchRates => broken_for (l_roll_pitch l) (fun m => m < state_roll_pitch st)
  | kInputInfeasibleYawRates => broken_for (l_yaw_rate l) (fun m => m < Rabs (entries (ms_angular_velocity_B st) 2))
  | kInputInfeasibleYawAcc => broken_for (l_yaw_acc l) (fun m => m < Rabs (entries (ms_angular_acceleration_B st) 2))
  end.
(** The conversion to a full state returns vectors with three entries. *)
Definition three_entry_states (full_state : point R -> mav_state R) : Prop := forall pt,
  length (ms_acceleration_B (full_state pt)) = 3%nat /\ length (ms_velocity_W (full_state pt)) = 3%nat /\
  length (ms_angular_velocity_B (full_state pt)) = 3%nat /\ length (ms_angular_acceleration_B (full_state pt)) = 3%nat.
(** The state at time t: the full state of a point that holds the values of the
    segment at t. *)
Definition sampled (mav : mav_functions R) (full_state : point R -> mav_state R) (s : segment R) (t : R) (st : mav_state R) : Prop :=
  exists pt, holds mav (seg_D s) (seg_value s t) t point_new pt /\ st = full_state pt.

Lemma state_at_ok mav full s t : seg_wf s -> (seg_N s <= 22)%nat -> (3 <= seg_D s)%nat -> 0 <= t -> 10 ^ 9 * t < IZR (2 ^ 63) ->
  exists st, state_at mav full s t = Ok st /\ sampled mav full s t st.
Proof.
  intros Hw HN HD H0 Ht. destruct (fill_ok mav (seg_D s) (seg_value s t) t point_new HD) as (pt & F & H1); [intros; apply seg_value_length|exact H0|exact Ht|].
  exists (full pt). split; [|exists pt; auto]. unfold state_at.
  change 0%Z with (Z.of_nat 0). change 1%Z with (Z.of_nat 1). change 2%Z with (Z.of_nat 2). change 3%Z with (Z.of_nat 3). change 4%Z with (Z.of_nat 4).
  rewrite !seg_evaluate_value by assumption. cbn [obind]. rewrite F. reflexivity.
Qed.
Lemma state_check_spec (c : @constraints R) full pt : three_entry_states full ->
  exists r, state_check c (full pt) = Ok r /\ match r with inl v => state_breaks (limits_of c) v (full pt) | inr _ => state_ok (limits_of c) (full pt) end.
Proof.
  intros H. destruct (H pt) as (L1 & L2 & L3 & L4). generalize dependent (full pt). intros st L1 L2 L3 L4. unfold state_check, state_ok, state_breaks.
  destruct st as [a v w al]. cbn [ms_acceleration_B ms_velocity_W ms_angular_velocity_B ms_angular_acceleration_B] in *.
  assert (W2 : exists x y z, w = [x; y; z]) by (destruct w as [|x [|y [|z [|]]]]; try discriminate; eauto). destruct W2 as (x & y & z & ->).
  assert (A2 : exists x y z, al = [x; y; z]) by (destruct al as [|? [|? [|? [|]]]]; try discriminate; eauto). destruct A2 as (ax & ay & az & ->).
  change (vec_head [x; y; z] 2) with (Ok [x; y]). cbn [obind oget nth_error].
  unfold state_thrust, state_speed, state_roll_pitch. cbn [ms_acceleration_B ms_velocity_W ms_angular_velocity_B ms_angular_acceleration_B entries nth].
  rewrite (vnorm_norm3 a L1), (vnorm_norm3 v L2).
  assert (E2 : vnorm [x; y] = sqrt (x ^ 2 + y ^ 2)) by (unfold vnorm, vsqr; cbn [fold_left]; rnum; f_equal; change (@n0 R R_ops) with 0; ring). rewrite E2.
  rewrite !with_limit_spec. unfold limits_of. cbn [l_thrust_min l_thrust_max l_speed l_roll_pitch l_yaw_rate l_yaw_acc]. unfold ebind, return_if. rnum.
  change (entries [x; y; z] 0) with x. change (entries [x; y; z] 1) with y. change (entries [x; y; z] 2) with z. change (entries [ax; ay; az] 2) with az.
  assert (Step : forall (o : option R) (test : R -> bool) (P Q : R -> Prop), (forall m, (if test m then P m else Q m)) ->
    (match o with Some l => test l | None => false end = true /\ broken_for o P) \/ (match o with Some l => test l | None => false end = false /\ holds_for o Q)).
  { intros [m|] test P Q HPQ; cbn [broken_for holds_for]; [specialize (HPQ m); destruct (test m); auto|auto]. }
  destruct (Step (getConstraint c kFMin) (fun m => Rltb (norm3 (entries a)) m) (fun m => norm3 (entries a) < m) (fun m => m <= norm3 (entries a)) ltac:(intros m; cbv beta; destruct (Rltb_spec (norm3 (entries a)) m); lra)) as [(-> & B)|(-> & B1)]; cbn [obind]; [eexists; split; [reflexivity|exact B]|].
  destruct (Step (getConstraint c kFMax) (fun m => Rltb m (norm3 (entries a))) (fun m => m < norm3 (entries a)) (fun m => norm3 (entries a) <= m) ltac:(intros m; cbv beta; destruct (Rltb_spec m (norm3 (entries a))); lra)) as [(-> & B)|(-> & B2)]; cbn [obind]; [eexists; split; [reflexivity|exact B]|].
  destruct (Step (getConstraint c kVMax) (fun m => Rltb m (norm3 (entries v))) (fun m => m < norm3 (entries v)) (fun m => norm3 (entries v) <= m) ltac:(intros m; cbv beta; destruct (Rltb_spec m (norm3 (entries v))); lra)) as [(-> & B)|(-> & B3)]; cbn [obind]; [eexists; split; [reflexivity|exact B]|].
  destruct (Step (getConstraint c kOmegaXYMax) (fun m => Rltb m (sqrt (x ^ 2 + y ^ 2))) (fun m => m < sqrt (x ^ 2 + y ^ 2)) (fun m => sqrt (x ^ 2 + y ^ 2) <= m) ltac:(intros m; cbv beta; destruct (Rltb_spec m (sqrt (x ^ 2 + y ^ 2))); lra)) as [(-> & B)|(-> & B4)]; cbn [obind]; [eexists; split; [reflexivity|exact B]|].
  destruct (Step (getConstraint c kOmegaZMax) (fun m => Rltb m (Rabs z)) (fun m => m < Rabs z) (fun m => Rabs z <= m) ltac:(intros m; cbv beta; destruct (Rltb_spec m (Rabs z)); lra)) as [(-> & B)|(-> & B5)]; cbn [obind]; [eexists; split; [reflexivity|exact B]|].
  destruct (Step (getConstraint c kOmegaZDotMax) (fun m => Rltb m (Rabs az)) (fun m => m < Rabs az) (fun m => Rabs az <= m) ltac:(intros m; cbv beta; destruct (Rltb_spec m (Rabs az)); lra)) as [(-> & B)|(-> & B6)]; cbn [obind]; [eexists; split; [reflexivity|exact B]|].
  eexists. split; [reflexivity|]. exact (conj B1 (conj B2 (conj B3 (conj B4 (conj B5 B6))))).
Qed.

(** The loop from sample k on. *)
Lemma sampling_loop_spec mav full c dt (s : segment R) : seg_wf s -> (seg_N s <= 22)%nat -> (3 <= seg_D s)%nat -> 10 ^ 9 * seg_time s < IZR (2 ^ 63) -> 0 <= dt -> three_entry_states full ->
  forall fuel k, exists r, sampling_loop mav full c dt s fuel (INR k * dt) = Ok r /\
    match r with
    | None => INR (k + fuel) * dt <= seg_time s
    | Some v => (v = kInputFeasible /\ exists n, (k <= n <= k + fuel)%nat /\ seg_time s < INR n * dt /\
                   forall i, (k <= i < n)%nat -> exists st, state_at mav full s (INR i * dt) = Ok st /\ state_ok (limits_of c) st) \/
                (exists n st, (k <= n)%nat /\ INR n * dt <= seg_time s /\ state_at mav full s (INR n * dt) = Ok st /\ state_breaks (limits_of c) v st /\
                   forall i, (k <= i < n)%nat -> exists st, state_at mav full s (INR i * dt) = Ok st /\ state_ok (limits_of c) st)
    end.
Proof.
  intros Hw HN HD HT Hdt H3. induction fuel as [|fuel IH]; intros k; cbn [sampling_loop]; rnum; destruct (Rleb_spec (INR k * dt) (seg_time s)) as [L|L].
  - eexists. split; [reflexivity|]. rewrite Nat.add_0_r. exact L.
  - eexists. split; [reflexivity|]. left. split; [reflexivity|]. exists k. split; [lia|]. split; [lra|]. intros i Hi. lia.
  - assert (K0 : 0 <= INR k * dt) by (apply Rmult_le_pos; [apply pos_INR|exact Hdt]).
    destruct (state_at_ok mav full s (INR k * dt) Hw HN HD K0) as (st & E & pt & _ & Est).
    { eapply Rle_lt_trans; [|exact HT]. apply Rmult_le_compat_l; [apply pow_le; lra|exact L]. }
    rewrite E. cbn [obind]. destruct (state_check_spec c full pt H3) as (r & Er & Hr). rewrite <- Est in Er, Hr. rewrite Er. cbn [obind]. destruct r as [v|[]].
    { eexists. split; [reflexivity|]. right. exists k, st. split; [lia|]. split; [exact L|]. split; [exact E|]. split; [exact Hr|]. intros i Hi. lia. }
    assert (Ek : INR k * dt + dt = INR (S k) * dt) by (rewrite S_INR; ring). rewrite Ek. destruct (IH (S k)) as (r & Er' & Q). exists r. split; [exact Er'|].
    assert (Here : forall i, i = k -> exists st0, state_at mav full s (INR i * dt) = Ok st0 /\ state_ok (limits_of c) st0) by (intros i ->; eauto).
    destruct r as [v|].
    + destruct Q as [(-> & n & N1 & N2 & N3)|(n & st' & N1 & N2 & N3 & N4 & N5)].
      * left. split; [reflexivity|]. exists n. split; [lia|]. split; [exact N2|]. intros i Hi. destruct (Nat.eq_dec i k); [apply Here; assumption|apply N3; lia].
      * right. exists n, st'. split; [lia|]. split; [exact N2|]. split; [exact N3|]. split; [exact N4|]. intros i Hi. destruct (Nat.eq_dec i k); [apply Here; assumption|apply N5; lia].
    + replace (k + S fuel)%nat with (S k + fuel)%nat by lia. exact Q.
  - eexists. split; [reflexivity|]. left. split; [reflexivity|]. exists k. split; [lia|]. split; [lra|]. intros i Hi. lia.
Qed.

(** *** C61 *)
(** For a positive interval the check ends, whatever larger bound on the number of
    samples is used: with the verdict feasible when the states at all multiples of the
    interval in the segment keep the limits, and otherwise with the name of a limit
    that the state at the first offending multiple breaks. *)
Theorem C61_verdict mav full ck dt (s : segment R) : seg_wf s -> (seg_N s <= 22)%nat -> (seg_D s = 3 \/ seg_D s = 4)%nat -> 10 ^ 9 * seg_time s < IZR (2 ^ 63) ->
  0 < dt -> three_entry_states full ->
  exists states v bound,
    (forall t, 0 <= t <= seg_time s -> sampled mav full s t (states t)) /\
    (forall fuel, (bound <= fuel)%nat -> sampling_check mav full ck dt fuel s = Ok (Some v)) /\
    (v = kInputFeasible /\ (forall k, INR k * dt <= seg_time s -> state_ok (limits_of (ck_input ck)) (states (INR k * dt))) \/
     exists k, INR k * dt <= seg_time s /\ state_breaks (limits_of (ck_input ck)) v (states (INR k * dt)) /\
       forall i, (i < k)%nat -> state_ok (limits_of (ck_input ck)) (states (INR i * dt))).
Proof.
  intros Hw HN HD HT Hdt H3. assert (HD3 : (3 <= seg_D s)%nat) by lia.
  set (states := fun t => match state_at mav full s t with Ok st => st | _ => full point_new end).
  assert (Hn : exists n, seg_time s / dt < INR n).
  { destruct (archimed (seg_time s / dt)) as (A1 & _). exists (Z.to_nat (up (seg_time s / dt))). apply Rlt_le_trans with (1 := A1). rewrite INR_IZR_INZ. apply IZR_le. lia. }
  destruct Hn as (n & Hn).
  assert (Hn' : seg_time s < INR n * dt) by (apply (Rmult_lt_reg_r (/ dt)); [apply Rinv_0_lt_compat, Hdt|]; rewrite Rmult_assoc, Rinv_r, Rmult_1_r by lra; exact Hn).
  assert (Hk : forall k, 0 <= INR k * dt) by (intros k; apply Rmult_le_pos; [apply pos_INR|lra]).
  destruct (sampling_loop_spec mav full (ck_input ck) dt s Hw HN HD3 HT ltac:(lra) H3 n 0) as (r & E & Q). change (INR 0) with 0 in E. rewrite Rmult_0_l in E.
  destruct r as [v|]; [|cbn [Nat.add] in Q; lra]. exists states, v, n. split; [|split].
  - intros t Ht. unfold states. destruct (state_at_ok mav full s t Hw HN HD3 (proj1 Ht)) as (st & -> & Hs); [|exact Hs].
    eapply Rle_lt_trans; [|exact HT]. apply Rmult_le_compat_l; [apply pow_le; lra|apply Ht].
  - intros fuel Hf. unfold sampling_check. rewrite (proj2 (dimension_ok_iff s) HD). cbn [negb]. change (@n0 R R_ops) with 0. revert E Hf. clear. revert fuel. generalize 0. revert v.
    induction n as [|n IH]; intros v t fuel E Hf; destruct fuel as [|fuel]; cbn [sampling_loop] in *; try lia; destruct (nleb t (seg_time s)); try discriminate; try exact E.
    destruct (state_at mav full s t) as [st| | |]; cbn [obind] in *; try discriminate. destruct (state_check (ck_input ck) st) as [[|]| | |]; cbn [obind] in *; try discriminate; try exact E. apply IH; [exact E|lia].
  - assert (St : forall t st, state_at mav full s t = Ok st -> states t = st) by (intros t st Es; unfold states; rewrite Es; reflexivity).
    destruct Q as [(-> & m & M1 & M2 & M3)|(m & st & M1 & M2 & M3 & M4 & M5)].
    + left. split; [reflexivity|]. intros k Hkt. assert (k < m)%nat. { destruct (le_lt_dec m k) as [L|L]; [|exact L]. exfalso. apply le_INR in L. assert (INR m * dt <= INR k * dt) by (apply Rmult_le_compat_r; lra). lra. }
      destruct (M3 k) as (st & Es & Ho); [lia|]. rewrite (St _ _ Es). exact Ho.
    + right. exists m. split; [exact M2|]. rewrite (St _ _ M3). split; [exact M4|]. intros i Hi. destruct (M5 i) as (st' & Es & Ho); [lia|]. rewrite (St _ _ Es). exact Ho.
Qed.
Print Assumptions C61_verdict.
Theorem C61_other_dimensions {T} {ops : NumOps T} mav full ck dt fuel (s : segment T) : seg_D s <> 3%nat -> seg_D s <> 4%nat -> sampling_check mav full ck dt fuel s = Ok (Some kInputIndeterminable).
Proof.
  intros H3 H4. unfold sampling_check. destruct (dimension_ok s) eqn:E; [|reflexivity]. apply dimension_ok_iff in E. destruct E; contradiction.
Qed.
Print Assumptions C61_other_dimensions.

Lemma nth_firstn' {A} (l : list A) n k d : (k < n)%nat -> nth k (firstn n l) d = nth k l d.
Proof. revert n k. induction l as [|x l IH]; intros [|n] [|k] H; try lia; cbn [firstn nth]; try reflexivity. apply IH. lia. Qed.
(** The thrust and the speed in terms of the motion, when the full state carries the
    norm of acceleration plus gravity and the velocity of the point. *)
Definition carries_thrust_and_velocity (full_state : point R -> mav_state R) : Prop := forall pt,
  state_thrust (full_state pt) = norm3 (fun k => entries (pt_acceleration pt) k + gravity k) /\
  state_speed (full_state pt) = norm3 (entries (pt_velocity pt)).
Theorem C61_thrust_and_speed mav full (s : segment R) t st : carries_thrust_and_velocity full -> (3 <= seg_D s)%nat -> sampled mav full s t st ->
  state_thrust st = thrust s t /\ state_speed st = speed s t.
Proof.
  intros H HD (pt & Hp & ->). destruct (H pt) as (H1 & H2). destruct Hp as (_ & Pv & Pa & _). rewrite H1, H2, Pv, Pa.
  assert (G : forall d k, (k < 3)%nat -> entries (firstn 3 (seg_value s t d)) k = seg_fun s k d t).
  { intros d k Hk. unfold entries. rewrite nth_firstn' by exact Hk. unfold seg_value. rewrite nth_map_seq by lia. reflexivity. }
  unfold thrust, speed, norm3, thrust_vec. rewrite !G by lia. auto.
Qed.
Print Assumptions C61_thrust_and_speed.

(** Finding: with an interval of 0 a segment whose first state keeps the limits is
    sampled for ever. *)
Theorem C61_zero_interval_finding mav full ck (s : segment R) : seg_wf s -> (seg_N s <= 22)%nat -> (seg_D s = 3 \/ seg_D s = 4)%nat -> 10 ^ 9 * seg_time s < IZR (2 ^ 63) ->
  0 <= seg_time s -> three_entry_states full -> (forall st, sampled mav full s 0 st -> state_ok (limits_of (ck_input ck)) st) ->
  forall fuel, sampling_check mav full ck 0 fuel s = Ok None.
Proof.
  intros Hw HN HD HT H0 H3 Hok fuel. destruct (sampling_loop_spec mav full (ck_input ck) 0 s Hw HN ltac:(lia) HT ltac:(lra) H3 fuel 0) as (r & E & Q).
  unfold sampling_check. rewrite (proj2 (dimension_ok_iff s) HD). cbn [negb]. change (@n0 R R_ops) with 0. change (INR 0) with 0 in E. rewrite Rmult_0_l in E. rewrite E.
  destruct r as [v|]; [|reflexivity]. exfalso. destruct Q as [(_ & n & _ & N2 & _)|(n & st & _ & _ & N3 & N4 & _)]; [lra|].
  rewrite Rmult_0_r in N3. destruct (state_at_ok mav full s 0 Hw HN ltac:(lia) ltac:(lra)) as (st' & E' & Hs); [apply Rle_lt_trans with (10 ^ 9 * seg_time s); [apply Rmult_le_compat_l; [apply pow_le; lra|exact H0]|exact HT]|].
  rewrite E' in N3. apply Ok_inj in N3. subst st'. specialize (Hok st Hs). destruct Hok as (A1 & A2 & A3 & A4 & A5 & A6).
  destruct v; cbn [state_breaks] in N4; try exact N4;
    match goal with N : broken_for ?o _ |- _ => destruct o; cbn [broken_for holds_for] in *; [lra|exact N] end.
Qed.
Print Assumptions C61_zero_interval_finding.

(** *** Examples *)
(** A climb at 2 m/s for 1 s; a conversion that carries the data and has no rates. *)
Definition ex_climb : segment R := mkSegment 2 [[0; 0]; [0; 0]; [0; 2]] 1.
Definition plain_state (pt : point R) : mav_state R :=
  mkMavState (map (fun k => entries (pt_acceleration pt) k + gravity k) [0%nat; 1%nat; 2%nat]) (map (entries (pt_velocity pt)) [0%nat; 1%nat; 2%nat]) [0; 0; 0] [0; 0; 0].
Definition speed_ck (limit : R) : checker R := mkChecker [(kVMax, limit)] [] [0; 0; 980665 / 100000].
Lemma plain_three : three_entry_states plain_state.
Proof. intros pt. repeat split. Qed.
Lemma plain_carries : carries_thrust_and_velocity plain_state.
Proof. intros pt. split; reflexivity. Qed.
Lemma ex_climb_speed t : speed ex_climb t = 2.
Proof.
  unfold speed, norm3. rewrite !seg_fun_dpoly. unfold dpoly. cbn [ex_climb seg_polys nth length rsum]. rewrite ?bc_step, ?bc_0. cbn [Nat.sub INR pow].
  match goal with |- sqrt ?x = 2 => replace x with (2 ^ 2) by ring end. apply sqrt_pow2. lra.
Qed.
Lemma ex_climb_verdict limit : exists v bound, (forall fuel, (bound <= fuel)%nat -> sampling_check no_mav plain_state (speed_ck limit) (1 / 2) fuel ex_climb = Ok (Some v)) /\
  (v = kInputFeasible /\ 2 <= limit \/ v = kInputInfeasibleVelocity /\ limit < 2).
Proof.
  assert (H63 : 10 ^ 9 * seg_time ex_climb < IZR (2 ^ 63)).
  { change (seg_time ex_climb) with 1. rewrite Rmult_1_r. change 10 with (IZR 10). rewrite pow_IZR. apply IZR_lt. reflexivity. }
  destruct (C61_verdict no_mav plain_state (speed_ck limit) (1 / 2) ex_climb) as (states & v & b & S & F & Q); [repeat constructor|cbn; lia|left; reflexivity|exact H63|lra|exact plain_three|].
  exists v, b. split; [exact F|].
  assert (Sp : forall t, 0 <= t <= 1 -> state_speed (states t) = 2).
  { intros t Ht. rewrite (proj2 (C61_thrust_and_speed no_mav plain_state ex_climb t (states t) plain_carries ltac:(cbn; lia) (S t Ht))). apply ex_climb_speed. }
  assert (L : limits_of (ck_input (speed_ck limit)) = mkLimits None None (Some limit) None None None) by reflexivity. rewrite L in Q. destruct Q as [(-> & Q)|(k & K1 & K2 & _)].
  - left. split; [reflexivity|]. assert (Z0 : INR 0 * (1 / 2) = 0) by (change (INR 0) with 0; ring). specialize (Q 0%nat). rewrite Z0 in Q.
    destruct (Q ltac:(cbn; lra)) as (_ & _ & Q3 & _). cbn [l_speed holds_for] in Q3. rewrite Sp in Q3 by lra. exact Q3.
  - right. assert (Hk : 0 <= INR k * (1 / 2) <= 1) by (split; [apply Rmult_le_pos; [apply pos_INR|lra]|exact K1]).
    destruct v; cbn [state_breaks l_thrust_min l_thrust_max l_speed l_roll_pitch l_yaw_rate l_yaw_acc broken_for] in K2; try contradiction. rewrite (Sp _ Hk) in K2. auto.
Qed.
Example C61_example : exists bound, forall fuel, (bound <= fuel)%nat ->
  sampling_check no_mav plain_state (speed_ck 3) (setting (- (1 / 2))) fuel ex_climb = Ok (Some kInputFeasible) /\
  sampling_check no_mav plain_state (speed_ck 1) (1 / 2) fuel ex_climb = Ok (Some kInputInfeasibleVelocity).
Proof.
  destruct (ex_climb_verdict 3) as (v & b & F & [(-> & _)|(_ & L)]); [|lra]. destruct (ex_climb_verdict 1) as (v' & b' & F' & [(_ & L)|(-> & _)]); [lra|].
  exists (Nat.max b b'). intros fuel Hf. unfold setting. rnum. replace (Rabs (- (1 / 2))) with (1 / 2) by (rewrite Rabs_Ropp, Rabs_pos_eq; lra). split; [apply F|apply F']; lia.
Qed.
Example C61_zero_interval_example : (forall st, sampled no_mav plain_state ex_climb 0 st -> state_ok (limits_of (ck_input (speed_ck 3))) st) /\
  forall fuel, sampling_check no_mav plain_state (speed_ck 3) 0 fuel ex_climb = Ok None.
Proof.
  assert (H : forall st, sampled no_mav plain_state ex_climb 0 st -> state_ok (limits_of (ck_input (speed_ck 3))) st).
  { intros st Hs. destruct (C61_thrust_and_speed no_mav plain_state ex_climb 0 st plain_carries ltac:(cbn; lia) Hs) as (_ & E). rewrite ex_climb_speed in E.
    change (limits_of (ck_input (speed_ck 3))) with (mkLimits None None (Some 3) None None None). unfold state_ok. cbn [l_thrust_min l_thrust_max l_speed l_roll_pitch l_yaw_rate l_yaw_acc holds_for]. rewrite E.
    repeat split. lra. }
  split; [exact H|]. intros fuel. apply C61_zero_interval_finding; [repeat constructor|cbn; lia|left; reflexivity| |cbn; lra|exact plain_three|exact H].
  change (seg_time ex_climb) with 1. rewrite Rmult_1_r. change 10 with (IZR 10). rewrite pow_IZR. apply IZR_lt. reflexivity.
Qed.
