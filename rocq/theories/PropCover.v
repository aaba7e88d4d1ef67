(** The same guarantees for the entry points a user calls: freshly constructed
    checkers with their default settings (C57, C58, C61, C70), sampling from a start
    time for a duration (C69), the getters of the nonlinear optimiser (C33, C67), the
    checked polynomial constructor (C04) and the highest derivative of a vertex
    (C26). *)
From Coq Require Import ZArith Reals List Bool Lia Lra Arith.
From Coquelicot Require Import Coquelicot.
From Verif Require Import Num RSum SpecPoly SpecSegment SpecTrajectory SpecFeasibility SpecVertex ModelPolynomial ModelSegment ModelVertex ModelTrajectory ModelLinear
  ModelInput ModelSampling ModelFeasibility ModelNonlinear ProofPolynomial ProofSegment ProofVertex ProofTrajectory SpecLinear SpecRoots ProofRoots ProofLinear ProofLinear2 ProofLinear4 ProofLinear6 PropLinear
  SpecNonlinear ProofNonlinear6 PropNonlinear PropNonlinear3 PropSampling ProofFeasibility ProofFeasibility2 PropFeasibility2 PropFeasibility3 PropFeasibility4.
Import ListNotations.
Notation length := List.length.
Open Scope R_scope.

(** ** Feasibility checkers as constructed from limits. *)
Definition usable_limits (c : @constraints R) : Prop := forall l, getConstraint c kOmegaXYMax = Some l -> l < IZR (2 ^ 1024 - 2 ^ 971).
Lemma new_sane c : usable_limits c -> sane_checker (checker_new c).
Proof. intros H. split; [|exact H]. cbn. unfold kGravity, nlit. rnum. reflexivity. Qed.
Lemma setting_nonneg (x : R) : 0 <= setting x. Proof. unfold setting. rnum. apply Rabs_pos. Qed.
Lemma setting_pos (x : R) : x <> 0 -> 0 < setting x. Proof. unfold setting. rnum. apply Rabs_pos_lt. Qed.

(** The recursive check of a new checker, whatever minimum section time is set. *)
Theorem C57_new_checker rf c x fuel (s : segment R) : well_posed rf s -> usable_limits c ->
  recursive_check rf (checker_new c) (setting x) fuel s = Ok (Some kInputFeasible) -> forall t, 0 <= t <= seg_time s ->
  thrust_within (limits_of c) s t /\ speed_within (limits_of c) s t /\ roll_pitch_within (limits_of c) s t /\ yaw_within (limits_of c) s t.
Proof. intros A B E. exact (C57_feasible_is_sound rf (checker_new c) (setting x) fuel s A (new_sane c B) (setting_nonneg x) E). Qed.
Print Assumptions C57_new_checker.

(** With the default minimum section time it ends, after halving the segment at
    most [depth] times, with a verdict that is right. *)
Theorem C58_default_settings rf c (s : segment R) : well_posed rf s -> usable_limits c -> (4 <= seg_N s)%nat ->
  exists v depth, seg_time s < 1 / 20 * 2 ^ depth /\
    (forall fuel, (depth <= fuel)%nat -> recursive_check rf (checker_new c) default_min_section fuel s = Ok (Some v)) /\
    (v = kInputFeasible \/ v = kInputIndeterminable \/ exists t, 0 <= t <= seg_time s /\ violated (limits_of c) s v t).
Proof.
  intros A B HN. assert (D : @default_min_section R _ = 1 / 20) by (unfold default_min_section, nlit; rnum; lra). rewrite D.
  destruct (C58_terminates rf (checker_new c) (1 / 20) s A (new_sane c B) ltac:(lra)) as (r & depth & R & Hd & F).
  destruct R as [(v & ->)|(R & _)]; [|lia]. exists v, depth. split; [exact Hd|]. split; [exact F|].
  assert (J := C58_infeasible_is_justified rf (checker_new c) (1 / 20) depth s v A (new_sane c B) ltac:(lra) (F depth (le_n _))).
  destruct v; auto; right; right; apply J; discriminate.
Qed.
Print Assumptions C58_default_settings.

(** The analytic check, for any nonzero minimum section time. *)
Theorem C70_new_checker rf c x (s : segment R) : analysable rf s -> usable_limits c -> x <> 0 ->
  exists v depth, seg_time s < Rabs x * 2 ^ depth /\
    forall fuel, (depth <= fuel)%nat -> analytic_check rf (checker_new c) (setting x) fuel s = Ok (Some v).
Proof. intros A B X. exact (C70_terminates rf (checker_new c) (setting x) s A (new_sane c B) (setting_pos x X)). Qed.
Print Assumptions C70_new_checker.

(** The sampling check with its default interval looks at the states every 10 ms. *)
Theorem C61_default_settings mav full c (s : segment R) : seg_wf s -> (seg_N s <= 22)%nat -> (seg_D s = 3 \/ seg_D s = 4)%nat ->
  10 ^ 9 * seg_time s < IZR (2 ^ 63) -> three_entry_states full ->
  exists states v bound,
    (forall t, 0 <= t <= seg_time s -> sampled mav full s t (states t)) /\
    (forall fuel, (bound <= fuel)%nat -> sampling_check mav full (checker_new c) default_sampling_interval fuel s = Ok (Some v)) /\
    (v = kInputFeasible /\ (forall k, INR k / 100 <= seg_time s -> state_ok (limits_of c) (states (INR k / 100))) \/
     exists k, INR k / 100 <= seg_time s /\ state_breaks (limits_of c) v (states (INR k / 100)) /\
       forall i, (i < k)%nat -> state_ok (limits_of c) (states (INR i / 100))).
Proof.
  intros A B C D E. assert (Q : @default_sampling_interval R _ = / 100) by (unfold default_sampling_interval, nlit; rnum; lra). rewrite Q.
  exact (C61_verdict mav full (checker_new c) (/ 100) s A B C D ltac:(lra) E).
Qed.
Print Assumptions C61_default_settings.

Example new_checker_example : let c := [(kOmegaXYMax, 5)] : @constraints R in
  well_posed perfect_rf ex_turn /\ analysable perfect_rf ex_turn /\ usable_limits c /\ (4 <= seg_N ex_turn)%nat /\
  recursive_check perfect_rf (checker_new c) (setting (1 / 20)) 5 ex_turn = Ok (Some kInputFeasible).
Proof.
  intros c. destruct C57_example as (A & _ & B & C). split; [exact A|]. split; [exact ex_turn_analysable|]. split; [exact (proj2 B)|]. split; [cbn; lia|].
  assert (E : checker_new c = ex_turn_ck 5) by (unfold checker_new, ex_turn_ck, kGravity, nlit; rnum; reflexivity). rewrite E. exact C.
Qed.
Example default_sampling_example : seg_wf ex_climb /\ (seg_N ex_climb <= 22)%nat /\ (seg_D ex_climb = 3 \/ seg_D ex_climb = 4)%nat /\
  10 ^ 9 * seg_time ex_climb < IZR (2 ^ 63) /\ three_entry_states plain_state.
Proof.
  split; [repeat constructor|]. split; [cbn; lia|]. split; [left; reflexivity|]. split.
  - cbn [seg_time ex_climb]. apply Rlt_trans with (IZR (2 ^ 62)); [|apply IZR_lt; reflexivity]. replace (10 ^ 9) with (IZR (10 ^ 9)) by (cbn; lra). cbn; lra.
  - intros pt. repeat split.
Qed.

(** ** C69: sampleTrajectoryStartDuration. *)
Theorem C69_start_duration_partial (mav : mav_functions R) (tr : trajectory R) (start dur dt : R) (old : list (point R)) :
  traj_wf tr -> times_nonneg tr -> traj_consistent tr -> (0 < tr_K tr)%nat -> (3 <= tr_D tr)%nat -> 10 ^ 9 * duration tr < IZR (2 ^ 63) ->
  0 < dt -> 0 <= start -> 0 <= dur -> start + dur <= duration tr -> start < duration tr -> dur / dt + 1 < IZR (2 ^ 59) ->
  exists fuel0 sts, (forall fuel, (fuel0 <= fuel)%nat -> sampleTrajectoryStartDuration mav fuel tr start dur dt old = Ok (Some (true, sts))) /\
    (forall k, INR k * dt < dur -> (k < length sts)%nat) /\
    (forall k, (k < length sts)%nat -> start + INR k * dt <= duration tr) /\
    forall k, (k < length sts)%nat -> exists f, (forall d, (d < 5)%nat -> value_at tr d (start + INR k * dt) (f d)) /\
      holds mav (tr_D tr) f (start + INR k * dt) (nth k old point_new) (nth k sts point_new).
Proof.
  intros Hw Hn Hc HK HD Hs Hdt H0 H1 H2 H3 Hq.
  destruct (C69_range_partial mav tr start (start + dur) dt old Hw Hn Hc HK HD Hs Hdt ltac:(lra) H2 H3) as (f0 & sts & F & N & M & V).
  { replace (start + dur - start) with dur by ring. exact Hq. }
  exists f0, sts. split; [exact F|]. split; [|split; [exact M|exact V]]. intros k Hk. apply N. lra.
Qed.
Print Assumptions C69_start_duration_partial.
Example C69_start_duration_example : 0 < 1 / 4 /\ 0 <= 1 / 2 /\ 1 / 2 + 1 <= duration line_tr /\ 1 / 2 < duration line_tr /\ 1 / (1 / 4) + 1 < IZR (2 ^ 59) /\
  traj_wf line_tr /\ times_nonneg line_tr /\ traj_consistent line_tr /\ (0 < tr_K line_tr)%nat /\ (3 <= tr_D line_tr)%nat /\ 10 ^ 9 * duration line_tr < IZR (2 ^ 63).
Proof.
  rewrite line_duration. split; [lra|]. split; [lra|]. split; [lra|]. split; [lra|]. split; [apply Rle_lt_trans with (IZR 5); [lra|apply IZR_lt; reflexivity]|].
  split; [exact line_wf|]. split; [exact line_nonneg|]. split; [exact line_consistent|]. split; [cbn; lia|]. split; [cbn; lia|].
  rewrite <- line_duration. exact line_small.
Qed.

(** ** C33: the cost getters of the nonlinear optimiser report the integral, and
    getTrajectory hands out the stored segments as a well-formed trajectory. *)
Theorem C33_nonlinear_getters (h : nat) (inv : mat R -> mat R) (solve : mat R -> list R -> list R)
        (dim : nat) (vs : list (vertex R)) (r : Z) (n : nlo R) (tr : trajectory R) :
  List.Forall vertex_wf vs -> (0 < dim)%nat -> (2 <= length vs)%nat -> (2 * h <= 22)%nat ->
  computed h inv solve dim vs r (nl_opt n) ->
  let cost := integral_cost (Z.to_nat r) dim (o_segments (nl_opt n)) in
  nl_getCost h n = Ok cost /\ mellinger_cost h (nl_opt n) = Ok cost /\
  exists tr', nl_getTrajectory n tr = Ok tr' /\ tr_segments tr' = o_segments (nl_opt n) /\
    traj_wf tr' /\ traj_consistent tr' /\ tr_D tr' = dim /\ tr_K tr' = (length vs - 1)%nat /\ duration tr' = lsum (o_times (nl_opt n)).
Proof.
  intros Hwf Hd Hl HN Hc cost.
  destruct Hc as (o0 & c & Hs & Hc & Hr). destruct (computed_prepared h inv solve dim vs r o0 c _ Hwf Hs Hc Hr) as (P & S & Ed & Er).
  assert (EC : opt_computeCost h (nl_opt n) = Ok cost).
  { rewrite (synced_cost h inv vs (nl_opt n) ltac:(lia) P S), Ed, Er. reflexivity. }
  split; [exact EC|]. split; [exact EC|].
  assert (CS := chain_of_shape_R h inv vs _ P). rewrite <- (synced_chain h inv vs _ P S) in CS by lia. destruct CS as (Ls & Hsh).
  assert (Ln := pr_times _ _ _ _ P). assert (Hn := pr_nseg _ _ _ _ P).
  assert (FA : List.Forall (fun s => seg_D s = dim /\ seg_N s = (2 * h)%nat /\ seg_wf s) (o_segments (nl_opt n))).
  { apply Forall_forall. intros s Hin. destruct (In_nth _ _ no_seg Hin) as (i & Hi & <-). destruct (Hsh i ltac:(lia)) as (_ & A & B & C). rewrite Ed in B. auto. }
  unfold nl_getTrajectory, opt_getTrajectory.
  destruct (o_segments (nl_opt n)) as [|s0 segs] eqn:Es; [cbn in Ls; lia|].
  destruct (Forall_inv FA) as (D0 & N0 & W0).
  assert (F2 : List.Forall (fun s => seg_D s = seg_D s0 /\ seg_N s = seg_N s0) (s0 :: segs)).
  { eapply Forall_impl; [|exact FA]. intros s (A & B & _). rewrite D0, N0. auto. }
  cbn [traj_setSegments]. rewrite addSegments_ok by exact F2. eexists. split; [reflexivity|]. cbn [tr_segments tr_D tr_N tr_max_time app].
  split; [reflexivity|].
  split; [|split; [|split; [exact D0|split]]].
  - split; [|cbn [tr_N]; lia]. cbn [tr_segments tr_D tr_N]. rewrite D0, N0. exact FA.
  - split; [exact F2|reflexivity].
  - unfold tr_K. cbn [tr_segments]. lia.
  - unfold duration. cbn [tr_segments]. f_equal. apply nth_ext with (d := 0) (d' := 0); [rewrite map_length; exact Ls|].
    intros i Hi. rewrite map_length in Hi. rewrite (nth_indep _ 0 (seg_time no_seg)) by (rewrite map_length; exact Hi). rewrite map_nth. apply Hsh. lia.
Qed.
Print Assumptions C33_nonlinear_getters.
Example C33_nonlinear_getters_example : exists n, List.Forall vertex_wf exl_vs /\ (2 <= length exl_vs)%nat /\ (2 * 2 <= 22)%nat /\
  computed 2 (perfect_inv 2) perfect_solve 1 exl_vs 1 (nl_opt n).
Proof.
  destruct C67_example as (o & n' & v & E). cbv zeta in E. destruct E as (_ & _ & _ & _ & _ & _ & _ & E). exists n'.
  split; [exact exl_wf'|]. split; [cbn; lia|]. split; [lia|exact E].
Qed.

(** ** C04: the constructor with an explicit number of coefficients accepts exactly
    the vectors of that length, and keeps their function. *)
Theorem C04_checked_constructor {T} {ops : NumOps T} (N : Z) (c : list T) :
  (N = Z.of_nat (length c) -> poly_make N c = Ok c) /\ (N <> Z.of_nat (length c) -> poly_make N c = Abort).
Proof. unfold poly_make. destruct (Z.eqb_spec N (Z.of_nat (length c))); split; intros; try reflexivity; contradiction. Qed.
Print Assumptions C04_checked_constructor.
Example C04_checked_constructor_example : poly_make 3 [1; 2; 3] = Ok [1; 2; 3] /\ poly_make 4 [1; 2; 3] = Abort.
Proof. split; reflexivity. Qed.

(** ** C26: a start or end vertex made for polynomials of N = 2h coefficients has a
    constraint on exactly the h derivatives a segment end can meet. *)
Theorem C26_start_or_end_for_order {T} {ops : NumOps T} (h D : nat) (x : list T) : (0 < h)%nat -> length x = D ->
  exists v, vertex_makeStartOrEnd (vertex_new D) x (getHighestDerivativeFromN (2 * Z.of_nat h)) = Ok v /\
    vertex_get v 0 = Some x /\
    (forall k, (0 < k < Z.of_nat h)%Z -> vertex_get v k = Some (repeat n0 D)) /\
    forall k, ~ (0 <= k < Z.of_nat h)%Z -> vertex_get v k = None.
Proof.
  intros Hh Hx. assert (Q : getHighestDerivativeFromN (2 * Z.of_nat h) = (Z.of_nat h - 1)%Z).
  { unfold getHighestDerivativeFromN. rewrite Z.mul_comm, Z.quot_mul by lia. reflexivity. }
  rewrite Q. destruct (vertex_makeStartOrEnd_spec (vertex_new D) x (Z.of_nat h - 1) (vertex_new_wf D)) as (H & _).
  destruct (H Hx) as (v & E & _ & _ & G). exists v. split; [exact E|]. split; [|split].
  - rewrite G. destruct (Z.eq_dec 0 0); [reflexivity|lia].
  - intros k Hk. rewrite G. destruct (Z.eq_dec k 0); [lia|]. destruct (Z_le_dec 1 k); [|lia]. destruct (Z_le_dec k (Z.of_nat h - 1)); [reflexivity|lia].
  - intros k Hk. rewrite G. destruct (Z.eq_dec k 0); [lia|]. destruct (Z_le_dec 1 k); [|reflexivity]. destruct (Z_le_dec k (Z.of_nat h - 1)); [lia|reflexivity].
Qed.
Print Assumptions C26_start_or_end_for_order.
Example C26_start_or_end_for_order_example : exists v, vertex_makeStartOrEnd (vertex_new 2) [1; 2] (getHighestDerivativeFromN 4) = Ok v /\
  vertex_get v 1 = Some [0; 0] /\ vertex_get v 2 = None.
Proof.
  destruct (C26_start_or_end_for_order 2 2 [1; 2] ltac:(lia) eq_refl) as (v & E & _ & A & B). exists v. split; [exact E|]. split; [apply (A 1%Z); lia|apply (B 2%Z); lia].
Qed.
