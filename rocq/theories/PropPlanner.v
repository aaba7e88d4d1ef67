(** C66, C84, C85, C86: the example planners. *)
From Coq Require Import ZArith Reals List Bool Lia Lra Arith.
From Coquelicot Require Import Coquelicot.
From Verif Require Import Num RSum SpecPoly ModelPolynomial ModelSegment ModelVertex ModelTrajectory ModelLinear
  SpecSegment SpecVertex SpecTrajectory SpecLinear ProofPolynomial ProofSegment ProofSegment2 ProofVertex ProofVertex2
  ProofTrajectory ProofTrajectory2 ProofTrajectory3 ProofTrajectory4
  ProofRoots ProofMatrix ProofHermite ProofReorder ProofLinear ProofLinear2 ProofLinear3 ProofLinear4 ProofLinear5 ProofLinear6 ProofLinear7
  PropLinear PropLinear2
  ModelNonlinear SpecNonlinear ProofNonlinear ProofNonlinear2 ProofNonlinear3 ProofNonlinear4 ProofNonlinear5 ProofNonlinear6 ProofNonlinear7
  PropNonlinear PropNonlinear3 ModelPlanner SpecPlanner ProofPlanner ProofPlanner2.
Import ListNotations.
Open Scope R_scope.

(** ** C66: optimize() completes
    With an algorithm that respects the bounds it is given and never asks for
    gradients, a complete root finder, positive limits of orders that exist and
    positive times, the joint methods return normally; the times stay within the
    bounds. *)
Theorem C66_optimize_succeeds (h : nat) (inv : mat R -> mat R) (solve : mat R -> list R -> list R)
        (rf : list R -> bool * list (R * R)) (dim : nat) (p : nl_params R) (vs : list (vertex R)) (r : Z)
        (nlopt : nlopt_algorithm (T := R)) (n : nlo R) (o : opt R) :
  perfect_root_finder rf -> bounded_algorithm nlopt ->
  List.Forall vertex_wf vs -> (0 < dim)%nat -> (2 <= length vs)%nat ->
  nl_set_up h inv solve rf exp dim p vs r n -> opt_solveLinear h solve (nl_opt n) = Ok o ->
  np_method p = kSquaredTimeAndConstraints \/ np_method p = kRichterTimeAndConstraints ->
  List.Forall (fun c => (0 <= fst c < Z.of_nat (2 * h - 1))%Z /\ 0 < snd c) (nl_con n) ->
  List.Forall (fun t => 0 < t) (o_times (nl_opt n)) ->
  exists n' result, nl_optimize h inv solve rf exp nlopt n = Ok (n', result) /\
    forall i, (i < length vs - 1)%nat ->
      Rmin (1 / 10) (nth i (o_times (nl_opt n)) 0) <= nth i (o_times (nl_opt n')) 0 <=
      Rmax dbl_max (nth i (o_times (nl_opt n)) 0).
Proof.
  intros. destruct (optimize_total h inv solve rf dim p vs r nlopt n o) as (n' & res & E & B & _); try assumption.
  exists n', res. auto.
Qed.
Print Assumptions C66_optimize_succeeds.

(** An algorithm that evaluates the start and the midpoint of the bounds. *)
Definition midpoint (lower upper : list R) : list R := map (fun p => (fst p + snd p) / 2) (combine lower upper).
Definition bounded_nlopt : nlopt_algorithm (T := R) := fun steps lower upper x0 =>
  NlObjective false x0 (fun v _ => NlObjective false (midpoint lower upper) (fun w _ => NlReturn x0 (Rmin v w) 3)).
Lemma bounded_nlopt_ok : bounded_algorithm bounded_nlopt.
Proof.
  intros steps lower upper x0 L1 L2 Hb. unfold bounded_nlopt. constructor; [congruence|exact Hb|]. intros v g.
  assert (Lm : length (midpoint lower upper) = length lower) by (unfold midpoint; rewrite map_length, combine_length; lia).
  constructor; [exact Lm| |intros; constructor].
  rewrite Lm. intros i Hi. assert (B := Hb i ltac:(lia)). unfold midpoint.
  rewrite (nth_map_lt _ _ _ (0, 0)) by (rewrite combine_length; lia). rewrite combine_nth by lia. cbn [fst snd]. lra.
Qed.
Definition rejecting_nlopt : nlopt_algorithm (T := R) := fun _ _ _ _ => NlReject.
Lemma rejecting_nlopt_ok : bounded_algorithm rejecting_nlopt.
Proof. intros steps lower upper x0 _ _ _. constructor. Qed.
Definition joint_par : nl_params R := mkNlParams (1 / 10) 500 true 100 kSquaredTimeAndConstraints.
Example C66_optimize_succeeds_example : exists n o,
  perfect_root_finder perfect_rf /\ bounded_algorithm bounded_nlopt /\ List.Forall vertex_wf exl_vs /\ (2 <= length exl_vs)%nat /\
  nl_set_up 2 (perfect_inv 2) perfect_solve perfect_rf exp 1 joint_par exl_vs 1 n /\ opt_solveLinear 2 perfect_solve (nl_opt n) = Ok o /\
  np_method joint_par = kSquaredTimeAndConstraints /\ nl_con n = [(1%Z, 2)] /\
  List.Forall (fun c => (0 <= fst c < Z.of_nat (2 * 2 - 1))%Z /\ 0 < snd c) (nl_con n) /\
  List.Forall (fun t => 0 < t) (o_times (nl_opt n)).
Proof.
  destruct (C31_setup_and_solve_succeed 2 (perfect_inv 2) perfect_solve 1 exl_vs exl_times 1 [] (opt_new 1))
    as (o1 & H1 & T1 & H2); try reflexivity; try (cbn; lia).
  { repeat constructor; lra. }
  { exact exl_wf. }
  { apply perfect_solve_length. }
  destruct (H2 (or_introl eq_refl)) as (o2 & E2 & T2).
  set (n0' := mkNlo o1 joint_par [] (Some (nl_parameters (nl_new 1 joint_par) o1 exl_times)) [] info_new).
  set (n1' := mkNlo o1 joint_par [(1%Z, 2)] (Some (nl_parameters (nl_new 1 joint_par) o1 exl_times)) [] info_new).
  assert (A : nl_addConstraint true n0' 1 2 = Ok (true, n1')).
  { unfold nl_addConstraint. destruct (Z.ltb_spec 1 0); [lia|]. unfold n0. rnum. destruct (Rleb_spec 0 2); [|lra]. reflexivity. }
  exists n1', o2. split; [exact perfect_rf_ok|]. split; [exact bounded_nlopt_ok|]. split; [eapply List.Forall_impl; [|exact exl_wf]; intros v Hv; apply Hv|].
  split; [cbn; lia|]. split.
  { exists [], exl_times, [NConstraint true 1 2], (nl_new 1 joint_par), n0'. split; [reflexivity|].
    split; [unfold nl_setupFromVertices; cbn [nl_new nl_opt]; rewrite H1; reflexivity|]. split; [repeat constructor|].
    cbn [run_ncalls run_ncall]. rewrite A. reflexivity. }
  split; [exact E2|]. split; [reflexivity|]. split; [reflexivity|]. split; [constructor; [cbn; split; [lia|lra]|constructor]|].
  cbn [n1' nl_opt]. rewrite T1. repeat constructor; lra.
Qed.

(** ** C84: the plan joins the current state to the goal state *)
(** Whatever nlopt, the root finder and the solver do: a plan that is returned
    starts in the current state and ends in the goal state, with zero acceleration,
    jerk and snap at both ends.  The bound on the duration is that of C31. *)
Theorem C84_states_joined {A} (inv : mat R -> mat R) (solve : mat R -> list R -> list R) (rf : root_oracle (T := R)) (fexp : R -> R)
        (nlopt : nlopt_algorithm (T := R)) (p : planner R A) (gp gv : list R) (tr tr' : trajectory R) (ok : bool) :
  inverse_ok 5 inv -> plan_simple inv solve rf fexp nlopt p gp gv tr = Ok (ok, tr') -> / 2 ^ 52 <= duration tr' ->
  tr_D tr' = 3%nat /\ tr_K tr' = 1%nat /\ traj_consistent tr' /\
  state_at tr' 0 (pl_position p) (pl_velocity p) /\ state_at tr' (duration tr') gp gv.
Proof.
  intros Hinv H Hd. unfold plan_simple in H.
  destruct (plan_optimized inv solve rf fexp nlopt 3 _ _ gp gv _ _ tr) as [tr1| | |] eqn:E; cbn [obind] in H; try discriminate.
  apply Ok_inj in H. injection H as _ <-.
  destruct (plan_result inv solve rf fexp nlopt 3 _ _ _ _ _ _ _ _ Hinv ltac:(lia) E Hd) as (s & Es & ED & _ & _ & C & _ & _ & _ & _ & _ & S0 & S1).
  split; [exact ED|]. split; [unfold tr_K; rewrite Es; reflexivity|]. auto.
Qed.
Print Assumptions C84_states_joined.

(** The planner returns such a plan whenever the goal is away from the current
    position.  v / 2^53 is below 10^-15 m for the default limit of 2 m/s. *)
Theorem C84_succeeds {A} (inv : mat R -> mat R) (solve : mat R -> list R -> list R) (rf : root_oracle (T := R))
        (nlopt : nlopt_algorithm (T := R)) (p : planner R A) (gp gv : list R) (tr : trajectory R) :
  inverse_ok 5 inv -> (forall A b, length (solve A b) = length b) -> perfect_root_finder rf -> bounded_algorithm nlopt ->
  length (pl_position p) = 3%nat -> length (pl_velocity p) = 3%nat -> length gp = 3%nat -> length gv = 3%nat ->
  0 < pl_max_v p -> 0 < pl_max_a p -> pl_max_v p / 2 ^ 53 <= dist (pl_position p) gp ->
  exists tr', plan_simple inv solve rf exp nlopt p gp gv tr = Ok (true, tr') /\
    Rmin (1 / 10) (2 * dist (pl_position p) gp / pl_max_v p) <= duration tr' /\
    state_at tr' 0 (pl_position p) (pl_velocity p) /\ state_at tr' (duration tr') gp gv.
Proof.
  intros Hinv Hsol Hrf Hal L1 L2 L3 L4 Hv Ha Hdist.
  assert (H53 : 0 < / 2 ^ 53) by (apply Rinv_0_lt_compat, pow_lt; lra).
  assert (Hdp : 0 < dist (pl_position p) gp) by (eapply Rlt_le_trans; [|exact Hdist]; apply Rmult_lt_0_compat; assumption).
  assert (Hne : pl_position p <> gp) by (intros E; rewrite (dist_zero _ _ E) in Hdp; lra).
  destruct (plan_total inv solve rf nlopt 3 _ _ gp gv _ _ tr Hsol Hrf Hal ltac:(lia) L1 L2 L3 L4 Hv Ha Hne) as (tr' & E & Hlow & _).
  assert (E' : plan_simple inv solve rf exp nlopt p gp gv tr = Ok (true, tr')) by (unfold plan_simple; rewrite E; reflexivity).
  exists tr'. split; [exact E'|]. split; [exact Hlow|].
  apply (C84_states_joined inv solve rf exp nlopt p gp gv tr tr' true Hinv E').
  eapply Rle_trans; [|exact Hlow]. apply Rmin_glb.
  - apply Rle_trans with (/ 16); [|lra]. apply Rinv_le_contravar; [lra|]. replace 16 with (2 ^ 4) by lra. apply Rle_pow; [lra|lia].
  - apply Rmult_le_reg_r with (pl_max_v p); [exact Hv|].
    replace (2 * dist (pl_position p) gp / pl_max_v p * pl_max_v p) with (2 * dist (pl_position p) gp) by (field; lra).
    replace (2 ^ 53) with (2 * 2 ^ 52) in Hdist by ring. unfold Rdiv in Hdist. rewrite Rinv_mult in Hdist. lra.
Qed.
Print Assumptions C84_succeeds.

(** At 1 m above the origin, climbing with 1 m/s; goal 2 m further on, stopping. *)
Definition ex_planner : planner R unit := mkPlanner [0; 0; 1] tt [0; 0; 1] [0; 0; 0] 2 2 2 (1 / 10).
Lemma ex_far : pl_max_v ex_planner / 2 ^ 53 <= dist (pl_position ex_planner) [2; 0; 1].
Proof.
  apply Rle_trans with 2.
  - cbn [pl_max_v ex_planner]. apply Rle_trans with (2 / 1); [|lra]. apply Rmult_le_compat_l; [lra|].
    apply Rinv_le_contravar; [lra|]. apply pow_R1_Rle. lra.
  - unfold dist. cbn [combine fold_right pl_position ex_planner fst snd]. rewrite <- (sqrt_square 2) at 1 by lra. apply sqrt_le_1_alt. lra.
Qed.
Example C84_succeeds_example :
  inverse_ok 5 (perfect_inv 5) /\ (forall A b, length (perfect_solve A b) = length b) /\ perfect_root_finder perfect_rf /\
  bounded_algorithm bounded_nlopt /\ length (pl_position ex_planner) = 3%nat /\ length (pl_velocity ex_planner) = 3%nat /\
  0 < pl_max_v ex_planner /\ 0 < pl_max_a ex_planner /\ pl_max_v ex_planner / 2 ^ 53 <= dist (pl_position ex_planner) [2; 0; 1].
Proof.
  split; [apply perfect_inv_ok|]. split; [exact perfect_solve_length|]. split; [exact perfect_rf_ok|]. split; [exact bounded_nlopt_ok|].
  split; [reflexivity|]. split; [reflexivity|]. split; [cbn; lra|]. split; [cbn; lra|]. exact ex_far.
Qed.
Example C84_states_joined_example : exists tr', inverse_ok 5 (perfect_inv 5) /\
  plan_simple (perfect_inv 5) perfect_solve perfect_rf exp bounded_nlopt ex_planner [2; 0; 1] [0; 0; 0] traj_new = Ok (true, tr') /\
  / 2 ^ 52 <= duration tr'.
Proof.
  destruct C84_succeeds_example as (H1 & H2 & H3 & H4 & H5 & H6 & H7 & H8 & H9).
  destruct (C84_succeeds (perfect_inv 5) perfect_solve perfect_rf bounded_nlopt ex_planner [2; 0; 1] [0; 0; 0] traj_new
    H1 H2 H3 H4 H5 H6 eq_refl eq_refl H7 H8 H9) as (tr' & E & Hl & _).
  exists tr'. split; [exact H1|]. split; [exact E|]. eapply Rle_trans; [|exact Hl]. apply Rmin_glb.
  - apply Rle_trans with (/ 16); [|lra]. apply Rinv_le_contravar; [lra|]. replace 16 with (2 ^ 4) by lra. apply Rle_pow; [lra|lia].
  - assert (D := ex_far). cbn [pl_max_v ex_planner] in D |- *. replace (2 ^ 53) with (2 * 2 ^ 52) in D by ring. unfold Rdiv in D |- *.
    rewrite Rinv_mult in D. lra.
Qed.

(** A goal at the current position (to stop, or to leave with another velocity)
    aborts: the estimated time is 0. *)
Lemma plan_same_position (inv : mat R -> mat R) (solve : mat R -> list R -> list R) (rf : root_oracle (T := R))
        (nlopt : nlopt_algorithm (T := R)) (dim : nat) (sp sv gv : list R) (v a : R) (tr : trajectory R) :
  length sp = dim -> length sv = dim -> length gv = dim ->
  plan_optimized inv solve rf exp nlopt dim sp sv sp gv v a tr = Abort.
Proof.
  intros L1 L2 L4. unfold plan_optimized.
  destruct (endpoint_ok dim sp sv L1 L2) as (s & Es). destruct (endpoint_ok dim sp gv L1 L4) as (e & Ee). rewrite Es. cbn [obind]. rewrite Ee. cbn [obind].
  destruct (endpoint_inv _ _ _ _ Es) as (Ws & Ds & _ & _ & Gs0 & _). destruct (endpoint_inv _ _ _ _ Ee) as (We & De & _ & _ & Ge0 & _).
  assert (Hpos : has_positions dim [s; e]).
  { constructor; [exists sp; auto|]. constructor; [exists sp; auto|constructor]. }
  unfold estimateSegmentTimes. rewrite (nfabian_eq dim) by (auto; cbn; lia). cbn [obind pairs map fst snd].
  unfold pos_of at 1 2. rewrite Gs0, Ge0. rewrite (dist_zero sp sp eq_refl). unfold nfabian_time. rnum.
  match goal with |- context [0 / v * 2 * ?x] => replace (0 / v * 2 * x) with 0 by (unfold Rdiv; ring) end.
  assert (FO : forall x : vertex R, vertex_wf x -> v_D x = dim -> exists w : vertex R, filter_vertex 5 dim x = Ok w).
  { intros x (_ & Wx) Dx. apply filter_vertex_ok. eapply List.Forall_impl; [|exact Wx]. cbn beta. intros c Hc _. congruence. }
  destruct (FO s Ws Ds) as (w1 & F1). destruct (FO e We De) as (w2 & F2).
  unfold nl_setupFromVertices, opt_setupFromVertices.
  destruct ((kSnap <? 0)%Z || (kHighestDerivative 5 <? kSnap)%Z); [reflexivity|]. cbn [length Nat.add Nat.eqb negb nl_new nl_opt omap opt_new o_dim].
  rewrite F1, F2. cbn [obind]. unfold opt_updateSegmentTimes. cbn [length o_nseg Nat.eqb negb omap obind]. unfold n0. rnum.
  destruct (Rltb_spec 0 0); [lra|]. reflexivity.
Qed.
Theorem C84_same_position_aborts {A} (inv : mat R -> mat R) (solve : mat R -> list R -> list R) (rf : root_oracle (T := R))
        (nlopt : nlopt_algorithm (T := R)) (p : planner R A) (gv : list R) (tr : trajectory R) :
  length (pl_position p) = 3%nat -> length (pl_velocity p) = 3%nat -> length gv = 3%nat ->
  plan_simple inv solve rf exp nlopt p (pl_position p) gv tr = Abort.
Proof. intros L1 L2 L4. unfold plan_simple. rewrite plan_same_position by assumption. reflexivity. Qed.
Print Assumptions C84_same_position_aborts.
Example C84_same_position_example : length (pl_position ex_planner) = 3%nat /\ length (pl_velocity ex_planner) = 3%nat /\ length [0; 0; 0] = 3%nat.
Proof. auto. Qed.
Theorem C84_succeeds_everywhere_refuted : exists (p : planner R unit) (gp gv : list R),
  inverse_ok 5 (perfect_inv 5) /\ (forall A b, length (perfect_solve A b) = length b) /\ perfect_root_finder perfect_rf /\
  bounded_algorithm bounded_nlopt /\ length (pl_position p) = 3%nat /\ length (pl_velocity p) = 3%nat /\ length gp = 3%nat /\ length gv = 3%nat /\
  0 < pl_max_v p /\ 0 < pl_max_a p /\
  plan_simple (perfect_inv 5) perfect_solve perfect_rf exp bounded_nlopt p gp gv traj_new = Abort.
Proof.
  exists ex_planner, [0; 0; 1], [0; 0; 0]. destruct C84_succeeds_example as (H1 & H2 & H3 & H4 & H5 & H6 & H7 & H8 & _).
  split; [exact H1|]. split; [exact H2|]. split; [exact H3|]. split; [exact H4|]. split; [exact H5|]. split; [exact H6|].
  split; [reflexivity|]. split; [reflexivity|]. split; [exact H7|]. split; [exact H8|].
  exact (C84_same_position_aborts (perfect_inv 5) perfect_solve perfect_rf bounded_nlopt ex_planner [0; 0; 0] traj_new eq_refl eq_refl eq_refl).
Qed.
Print Assumptions C84_succeeds_everywhere_refuted.

(** Goals of another size abort, in every arithmetic. *)
Theorem C84_wrong_size_aborts {T} {ops : NumOps T} {A} (inv : mat T -> mat T) (solve : mat T -> list T -> list T) (rf : root_oracle) (fexp : T -> T)
        (nlopt : nlopt_algorithm) (p : planner T A) (gp gv : list T) (tr : trajectory T) :
  length (pl_position p) = 3%nat -> length (pl_velocity p) = 3%nat -> length gp <> 3%nat \/ length gv <> 3%nat ->
  plan_simple inv solve rf fexp nlopt p gp gv tr = Abort.
Proof.
  intros L1 L2 H. unfold plan_simple, plan_optimized. destruct (endpoint_ok 3 _ _ L1 L2) as (s & ->). cbn [obind].
  unfold endpoint. destruct (vertex_makeStartOrEnd_spec (vertex_new 3) gp kSnap (vertex_new_wf 3)) as (Y & N). cbn [vertex_new v_D] in Y, N.
  destruct (Nat.eq_dec (length gp) 3) as [E|E]; [|rewrite (N E); reflexivity].
  destruct (Y E) as (v1 & -> & _ & D1 & _). cbn [obind]. unfold vertex_add. rewrite D1. cbn [vertex_new v_D].
  destruct (Nat.eqb_spec (length gv) 3); [|reflexivity]. destruct H; contradiction.
Qed.
Print Assumptions C84_wrong_size_aborts.
Example C84_wrong_size_example : length [1; 2] <> 3%nat /\ length (pl_position ex_planner) = 3%nat.
Proof. split; [discriminate|reflexivity]. Qed.

(** The result does not tell whether the optimisation succeeded: it is true
    whatever nlopt reports. *)
Theorem C84_always_true {T} {ops : NumOps T} {A} (inv : mat T -> mat T) (solve : mat T -> list T -> list T) (rf : root_oracle) (fexp : T -> T)
        (nlopt : nlopt_algorithm) (p : planner T A) (gp gv : list T) (tr tr' : trajectory T) (ok : bool) :
  plan_simple inv solve rf fexp nlopt p gp gv tr = Ok (ok, tr') -> ok = true.
Proof.
  unfold plan_simple. destruct (plan_optimized _ _ _ _ _ _ _ _ _ _ _ _ _); cbn [obind]; try discriminate.
  intros H. apply Ok_inj in H. congruence.
Qed.
Print Assumptions C84_always_true.
Theorem C84_failure_not_reported_finding : exists (p : planner R unit) (gp gv : list R) (tr' : trajectory R),
  (forall n n' res, np_method (nl_par n) = kSquaredTimeAndConstraints ->
     nl_optimize 5 (perfect_inv 5) perfect_solve perfect_rf exp rejecting_nlopt n = Ok (n', res) -> res = kFailure) /\
  plan_simple (perfect_inv 5) perfect_solve perfect_rf exp rejecting_nlopt p gp gv traj_new = Ok (true, tr').
Proof.
  destruct C84_succeeds_example as (H1 & H2 & H3 & H4 & H5 & H6 & H7 & H8 & H9).
  destruct (C84_succeeds (perfect_inv 5) perfect_solve perfect_rf rejecting_nlopt ex_planner [2; 0; 1] [0; 0; 0] traj_new
    H1 H2 H3 rejecting_nlopt_ok H5 H6 eq_refl eq_refl H7 H8 H9) as (tr' & E & _).
  exists ex_planner, [2; 0; 1], [0; 0; 0], tr'. split; [|exact E].
  intros n n' res Hm. unfold nl_optimize. rewrite Hm. unfold nl_optimizeAll.
  destruct (nl_problem _ _ _) as [[[[o st] w] x0]| | |]; cbn [obind]; try discriminate.
  destruct (nl_nlopt _); try discriminate. destruct (negb _); cbn [obind snd]; [intros H; apply Ok_inj in H; congruence|].
  cbn [rejecting_nlopt nlopt_drive obind snd fst]. intros H. apply Ok_inj in H. congruence.
Qed.
Print Assumptions C84_failure_not_reported_finding.

(** ** C85: planning with explicit start (6-DoF planner), limits *)
(** The plan is the optimised trajectory run slower by a factor c >= 1: velocity
    and acceleration keep the limits within 0.1% at all times, the positions are
    met, the velocities at the ends are those requested divided by c. *)
Theorem C85_limits_met (inv : mat R -> mat R) (solve : mat R -> list R -> list R) (rf : root_oracle (T := R))
        (nlopt : nlopt_algorithm (T := R)) (sp sv gp gv : list R) (v a : R) (tr : trajectory R) :
  inverse_ok 5 inv -> (forall A b, length (solve A b) = length b) -> perfect_root_finder rf -> bounded_algorithm nlopt ->
  (0 < length gp)%nat -> length sp = length gp -> length sv = length gp -> length gv = length gp ->
  0 < v -> 0 < a -> v / 2 ^ 53 <= dist sp gp ->
  exists tr1 tr' c,
    plan_optimized inv solve rf exp nlopt (length gp) sp sv gp gv v a tr = Ok tr1 /\
    plan_from_to inv solve rf exp nlopt gp gv sp sv v a tr = Ok (true, tr') /\
    tr_D tr' = length gp /\ tr_K tr' = 1%nat /\ traj_consistent tr' /\
    1 <= c /\ duration tr' = c * duration tr1 /\
    norm_at_most tr' (all_dims tr') 1 ((1 + 1 / 1000) * v) /\
    norm_at_most tr' (all_dims tr') 2 ((1 + 1 / 1000) * a) /\
    state_at tr' 0 sp (map (fun x => x / c) sv) /\
    state_at tr' (duration tr') gp (map (fun x => x / c) gv).
Proof.
  intros. destruct (from_to_total inv solve rf nlopt sp sv gp gv v a tr) as
    (tr1 & tr' & g & c & E1 & E & Hc & Ed & _ & Es & ED & _ & _ & C & _ & B1 & B2 & S0 & S1); try assumption.
  exists tr1, tr', c. repeat (split; [first [assumption | unfold tr_K; rewrite Es; reflexivity]|]). assumption.
Qed.
Print Assumptions C85_limits_met.

(** From rest to rest both states are met. *)
Theorem C85_rest_to_rest (inv : mat R -> mat R) (solve : mat R -> list R -> list R) (rf : root_oracle (T := R))
        (nlopt : nlopt_algorithm (T := R)) (sp gp : list R) (v a : R) (tr : trajectory R) :
  inverse_ok 5 inv -> (forall A b, length (solve A b) = length b) -> perfect_root_finder rf -> bounded_algorithm nlopt ->
  (0 < length gp)%nat -> length sp = length gp -> 0 < v -> 0 < a -> v / 2 ^ 53 <= dist sp gp ->
  exists tr', plan_from_to inv solve rf exp nlopt gp (repeat 0 (length gp)) sp (repeat 0 (length gp)) v a tr = Ok (true, tr') /\
    norm_at_most tr' (all_dims tr') 1 ((1 + 1 / 1000) * v) /\
    norm_at_most tr' (all_dims tr') 2 ((1 + 1 / 1000) * a) /\
    state_at tr' 0 sp (repeat 0 (length gp)) /\ state_at tr' (duration tr') gp (repeat 0 (length gp)).
Proof.
  intros Hi Hs Hr Hb Hl L Hv Ha Hd.
  destruct (C85_limits_met inv solve rf nlopt sp (repeat 0 (length gp)) gp (repeat 0 (length gp)) v a tr) as
    (tr1 & tr' & c & _ & E & _ & _ & _ & Hc & _ & B1 & B2 & S0 & S1); try assumption; try apply repeat_length.
  rewrite map_zero in S0, S1 by (unfold Rdiv; ring). exists tr'. auto.
Qed.
Print Assumptions C85_rest_to_rest.

Example C85_example :
  inverse_ok 5 (perfect_inv 5) /\ (forall A b, length (perfect_solve A b) = length b) /\ perfect_root_finder perfect_rf /\
  bounded_algorithm bounded_nlopt /\ (0 < length [2; 0; 1])%nat /\ length [0; 0; 1] = length [2; 0; 1] /\
  0 < 2 /\ 2 / 2 ^ 53 <= dist [0; 0; 1] [2; 0; 1].
Proof.
  split; [apply perfect_inv_ok|]. split; [exact perfect_solve_length|]. split; [exact perfect_rf_ok|]. split; [exact bounded_nlopt_ok|].
  split; [cbn; lia|]. split; [reflexivity|]. split; [lra|]. exact ex_far.
Qed.

(** A start velocity above the limit is replaced by a smaller one: the plan does
    not start in the current state. *)
Lemma norm_value g d t : seg_norm g (map Z.of_nat (seq 0 (seg_D g))) d t = sqrt (lsum (map (fun x => x ^ 2) (seg_value g t d))).
Proof. unfold seg_norm, seg_value. rewrite !map_map. do 2 f_equal. apply map_ext. intros k. rewrite Nat2Z.id. reflexivity. Qed.
Lemma start_speed tr' g x b : tr_segments tr' = [g] -> traj_wf tr' -> 0 < seg_time g -> norm_at_most tr' (all_dims tr') 1 b ->
  traj_evaluate tr' 0 1 = Ok x -> sqrt (lsum (map (fun y => y ^ 2) x)) <= b.
Proof.
  intros Es W Hp B E.
  assert (Hn : times_nonneg tr') by (unfold times_nonneg; rewrite Es; constructor; [lra|constructor]).
  assert (D : seg_D g = tr_D tr') by (destruct W as (W' & _); rewrite Es in W'; exact (proj1 (List.Forall_inv W'))).
  assert (V := single_state tr' g 1 0 W Hn Es Hp (or_introl eq_refl)). cbn [Z.of_nat Pos.of_succ_nat] in V. rewrite E in V. apply Ok_inj in V.
  rewrite V, <- norm_value, D.
  assert (Q := B 0%nat 0). unfold tr_K, seg_at in Q. rewrite Es in Q. cbn [length nth] in Q. apply Q; [lia|lra].
Qed.
Theorem C85_fast_start_not_met (inv : mat R -> mat R) (solve : mat R -> list R -> list R) (rf : root_oracle (T := R))
        (nlopt : nlopt_algorithm (T := R)) (sp sv gp gv : list R) (v a : R) (tr : trajectory R) :
  inverse_ok 5 inv -> (forall A b, length (solve A b) = length b) -> perfect_root_finder rf -> bounded_algorithm nlopt ->
  (0 < length gp)%nat -> length sp = length gp -> length sv = length gp -> length gv = length gp ->
  0 < v -> 0 < a -> v / 2 ^ 53 <= dist sp gp -> (1 + 1 / 1000) * v < sqrt (lsum (map (fun x => x ^ 2) sv)) ->
  exists tr', plan_from_to inv solve rf exp nlopt gp gv sp sv v a tr = Ok (true, tr') /\ traj_evaluate tr' 0 1 <> Ok sv.
Proof.
  intros Hi Hs Hr Hb Hl L1 L2 L3 Hv Ha Hd Hfast. destruct (from_to_total inv solve rf nlopt sp sv gp gv v a tr) as
    (tr1 & tr' & g & c & E1 & E & Hc & Ed & Hp & Es & ED & _ & W & C & Et & B1 & B2 & S0 & S1); try assumption.
  exists tr'. split; [exact E|]. intros Ev.
  assert (Q := start_speed tr' g sv _ Es W ltac:(rewrite Et, Ed; nra) B1 Ev). lra.
Qed.
Print Assumptions C85_fast_start_not_met.
Example C85_fast_start_example : (1 + 1 / 1000) * 2 < sqrt (lsum (map (fun x => x ^ 2) [0; 0; 3])).
Proof. cbn [map lsum]. replace (0 ^ 2 + (0 ^ 2 + (3 ^ 2 + 0))) with (3 * 3) by ring. rewrite sqrt_square; lra. Qed.
Theorem C85_start_met_refuted : exists sp sv gp gv tr',
  plan_from_to (perfect_inv 5) perfect_solve perfect_rf exp bounded_nlopt gp gv sp sv 2 2 traj_new = Ok (true, tr') /\
  traj_evaluate tr' 0 1 <> Ok sv.
Proof.
  destruct C85_example as (H1 & H2 & H3 & H4 & H5 & H6 & H7 & H8).
  destruct (C85_fast_start_not_met (perfect_inv 5) perfect_solve perfect_rf bounded_nlopt [0; 0; 1] [0; 0; 3] [2; 0; 1] [0; 0; 0] 2 2 traj_new
    H1 H2 H3 H4 H5 H6 eq_refl eq_refl H7 H7 H8 C85_fast_start_example) as (tr' & E & Hn).
  exists [0; 0; 1], [0; 0; 3], [2; 0; 1], [0; 0; 0], tr'. auto.
Qed.
Print Assumptions C85_start_met_refuted.

(** The simple planner keeps the start velocity, so it exceeds the limit in this
    case: its limits are soft only. *)
Theorem C85_simple_planner_limit_refuted : exists (p : planner R unit) (gp gv : list R) (tr' : trajectory R) (x : list R),
  plan_simple (perfect_inv 5) perfect_solve perfect_rf exp bounded_nlopt p gp gv traj_new = Ok (true, tr') /\
  traj_evaluate tr' 0 1 = Ok x /\ (1 + 1 / 1000) * pl_max_v p < sqrt (lsum (map (fun y => y ^ 2) x)).
Proof.
  destruct C84_succeeds_example as (H1 & H2 & H3 & H4 & H5 & H6 & H7 & H8 & H9).
  set (p := mkPlanner [0; 0; 1] tt [0; 0; 3] [0; 0; 0] 2 2 2 2 : planner R unit).
  destruct (C84_succeeds (perfect_inv 5) perfect_solve perfect_rf bounded_nlopt p [2; 0; 1] [0; 0; 0] traj_new
    H1 H2 H3 H4 eq_refl eq_refl eq_refl eq_refl H7 H8 H9) as (tr' & E & _ & (_ & S & _) & _).
  exists p, [2; 0; 1], [0; 0; 0], tr', [0; 0; 3]. split; [exact E|]. split; [exact S|]. exact C85_fast_start_example.
Qed.
Print Assumptions C85_simple_planner_limit_refuted.

(** ** C86: the 6-DoF planner *)
Lemma firstn_app_exact {X} (a b : list X) n : length a = n -> firstn n (a ++ b) = a.
Proof. intros <-. rewrite firstn_app, Nat.sub_diag, firstn_all. apply app_nil_r. Qed.
Lemma skipn_app_exact {X} (a b : list X) n : length a = n -> skipn n (a ++ b) = b.
Proof. intros <-. rewrite skipn_app, Nat.sub_diag, skipn_all. reflexivity. Qed.

(** Goals of another size are refused and the output is cleared; in every
    arithmetic. *)
Theorem C86_other_sizes_refused {T A} {ops : NumOps T} inv solve rf fexp (rotvec : A -> list T) yaw nlopt nlopt' (p : planner T A) gp gv tr :
  length gp <> 3%nat -> length gp <> 4%nat -> length gp <> 6%nat ->
  exists tr', plan_6dof inv solve rf fexp rotvec yaw nlopt nlopt' p gp gv tr = Ok (false, tr') /\ tr_segments tr' = [].
Proof.
  intros H3 H4 H6. apply Nat.eqb_neq in H3, H4, H6. exists (traj_clear tr). unfold plan_6dof. rewrite H3, H4, H6. auto.
Qed.
Print Assumptions C86_other_sizes_refused.
Example C86_other_sizes_example : length [1; 2; 3; 4; 5] <> 3%nat /\ length [1; 2; 3; 4; 5] <> 4%nat /\ length [1; 2; 3; 4; 5] <> 6%nat.
Proof. cbn. lia. Qed.

(** Position goals. *)
Theorem C86_position {A} (inv : mat R -> mat R) (solve : mat R -> list R -> list R) (rf : root_oracle (T := R))
        (rotvec : A -> list R) (yaw : A -> R) (nlopt nlopt' : nlopt_algorithm (T := R)) (p : planner R A) (gp gv : list R) (tr : trajectory R) :
  inverse_ok 5 inv -> (forall A b, length (solve A b) = length b) -> perfect_root_finder rf -> bounded_algorithm nlopt ->
  length (pl_position p) = 3%nat -> length (pl_velocity p) = 3%nat -> length gp = 3%nat -> length gv = 3%nat ->
  0 < pl_max_v p -> 0 < pl_max_a p -> pl_max_v p / 2 ^ 53 <= dist (pl_position p) gp ->
  exists tr' c, plan_6dof inv solve rf exp rotvec yaw nlopt nlopt' p gp gv tr = Ok (true, tr') /\
    tr_D tr' = 3%nat /\ tr_K tr' = 1%nat /\ traj_consistent tr' /\ 1 <= c /\
    norm_at_most tr' (all_dims tr') 1 ((1 + 1 / 1000) * pl_max_v p) /\
    norm_at_most tr' (all_dims tr') 2 ((1 + 1 / 1000) * pl_max_a p) /\
    state_at tr' 0 (pl_position p) (map (fun x => x / c) (pl_velocity p)) /\
    state_at tr' (duration tr') gp (map (fun x => x / c) gv).
Proof.
  intros Hi Hs Hr Hb L1 L2 L3 L4 Hv Ha Hd.
  destruct (C85_limits_met inv solve rf nlopt (pl_position p) (pl_velocity p) gp gv (pl_max_v p) (pl_max_a p) (traj_clear tr)) as
    (tr1 & tr' & c & _ & E & HD & HK & C & Hc & _ & B1 & B2 & S0 & S1); try assumption; try (rewrite L3; first [assumption|lia]).
  exists tr', c. rewrite L3 in HD. split; [unfold plan_6dof; rewrite L3; cbn [Nat.eqb]; exact E|]. auto 10.
Qed.
Print Assumptions C86_position.

(** Position and yaw goals: the plan starts at the current yaw. *)
Theorem C86_position_yaw {A} (inv : mat R -> mat R) (solve : mat R -> list R -> list R) (rf : root_oracle (T := R))
        (rotvec : A -> list R) (yaw : A -> R) (nlopt nlopt' : nlopt_algorithm (T := R)) (p : planner R A) (gp gv : list R) (tr : trajectory R) :
  inverse_ok 5 inv -> (forall A b, length (solve A b) = length b) -> perfect_root_finder rf -> bounded_algorithm nlopt ->
  length (pl_position p) = 3%nat -> length (pl_velocity p) = 3%nat -> length gp = 4%nat -> length gv = 4%nat ->
  0 < pl_max_v p -> 0 < pl_max_a p -> pl_max_v p / 2 ^ 53 <= dist (pl_position p ++ [yaw (pl_rotation p)]) gp ->
  exists tr' c, plan_6dof inv solve rf exp rotvec yaw nlopt nlopt' p gp gv tr = Ok (true, tr') /\
    tr_D tr' = 4%nat /\ tr_K tr' = 1%nat /\ traj_consistent tr' /\ 1 <= c /\
    norm_at_most tr' (all_dims tr') 1 ((1 + 1 / 1000) * pl_max_v p) /\
    norm_at_most tr' (all_dims tr') 2 ((1 + 1 / 1000) * pl_max_a p) /\
    state_at tr' 0 (pl_position p ++ [yaw (pl_rotation p)]) (map (fun x => x / c) (pl_velocity p) ++ [0]) /\
    state_at tr' (duration tr') gp (map (fun x => x / c) gv).
Proof.
  intros Hi Hs Hr Hb L1 L2 L3 L4 Hv Ha Hd.
  destruct (C85_limits_met inv solve rf nlopt (pl_position p ++ [yaw (pl_rotation p)]) (pl_velocity p ++ [0]) gp gv
              (pl_max_v p) (pl_max_a p) (traj_clear tr)) as
    (tr1 & tr' & c & _ & E & HD & HK & C & Hc & _ & B1 & B2 & S0 & S1); try assumption;
    try (rewrite ?app_length, L3; cbn [length]; first [assumption|lia]).
  exists tr', c. rewrite L3 in HD. split; [unfold plan_6dof; rewrite L3; cbn [Nat.eqb]; exact E|].
  rewrite map_app in S0. cbn [map] in S0. replace (0 / c) with 0 in S0 by (unfold Rdiv; ring). auto 10.
Qed.
Print Assumptions C86_position_yaw.

(** Full pose goals: the two parts are slowed down to the same duration. *)
Theorem C86_full_pose {A} (inv : mat R -> mat R) (solve : mat R -> list R -> list R) (rf : root_oracle (T := R))
        (rotvec : A -> list R) (yaw : A -> R) (nlopt nlopt' : nlopt_algorithm (T := R)) (p : planner R A)
        (gp gr gv ga : list R) (tr : trajectory R) :
  inverse_ok 5 inv -> (forall A b, length (solve A b) = length b) -> perfect_root_finder rf ->
  bounded_algorithm nlopt -> bounded_algorithm nlopt' ->
  length (pl_position p) = 3%nat -> length (pl_velocity p) = 3%nat -> length (rotvec (pl_rotation p)) = 3%nat -> length (pl_angular p) = 3%nat ->
  length gp = 3%nat -> length gr = 3%nat -> length gv = 3%nat -> length ga = 3%nat ->
  0 < pl_max_v p -> 0 < pl_max_a p -> 0 < pl_max_ang_v p -> 0 < pl_max_ang_a p ->
  pl_max_v p / 2 ^ 53 <= dist (pl_position p) gp -> pl_max_ang_v p / 2 ^ 53 <= dist (rotvec (pl_rotation p)) gr ->
  exists tr1 tr2 tr' c c',
    plan_optimized inv solve rf exp nlopt 3 (pl_position p) (pl_velocity p) gp gv (pl_max_v p) (pl_max_a p) traj_new = Ok tr1 /\
    plan_optimized inv solve rf exp nlopt' 3 (rotvec (pl_rotation p)) (pl_angular p) gr ga (pl_max_ang_v p) (pl_max_ang_a p) traj_new = Ok tr2 /\
    plan_6dof inv solve rf exp rotvec yaw nlopt nlopt' p (gp ++ gr) (gv ++ ga) tr = Ok (true, tr') /\
    tr_D tr' = 6%nat /\ tr_K tr' = 1%nat /\ traj_consistent tr' /\
    1 <= c /\ duration tr' = c * duration tr1 /\ 1 <= c' /\ duration tr' = c' * duration tr2 /\
    0 < duration tr1 /\ 0 < duration tr2 /\
    norm_at_most tr' [0; 1; 2]%Z 1 ((1 + 1 / 1000) * pl_max_v p) /\
    norm_at_most tr' [0; 1; 2]%Z 2 ((1 + 1 / 1000) * pl_max_a p) /\
    norm_at_most tr' [3; 4; 5]%Z 1 ((1 + 1 / 1000) * pl_max_ang_v p) /\
    norm_at_most tr' [3; 4; 5]%Z 2 ((1 + 1 / 1000) * pl_max_ang_a p) /\
    state_at tr' 0 (pl_position p ++ rotvec (pl_rotation p))
      (map (fun x => x / c) (pl_velocity p) ++ map (fun x => x / c') (pl_angular p)) /\
    state_at tr' (duration tr') (gp ++ gr) (map (fun x => x / c) gv ++ map (fun x => x / c') ga).
Proof.
  intros Hi Hs Hr Hb Hb' L1 L2 L3 L4 L5 L6 L7 L8 Hv Ha Hw Hz Hd Hd'.
  destruct (from_to_total inv solve rf nlopt (pl_position p) (pl_velocity p) gp gv (pl_max_v p) (pl_max_a p) traj_new) as
    (o1 & t1 & g1 & c1 & O1 & E1 & C1 & D1 & P1 & S1 & DD1 & N1 & W1 & K1 & T1 & B1 & B1' & X1 & Y1); try assumption; try lia.
  destruct (from_to_total inv solve rf nlopt' (rotvec (pl_rotation p)) (pl_angular p) gr ga (pl_max_ang_v p) (pl_max_ang_a p) traj_new) as
    (o2 & t2 & g2 & c2 & O2 & E2 & C2 & D2 & P2 & S2 & DD2 & N2 & W2 & K2 & T2 & B2 & B2' & X2 & Y2); try assumption; try lia.
  assert (Q1 : 0 < seg_time g1) by (rewrite T1, D1; nra). assert (Q2 : 0 < seg_time g2) by (rewrite T2, D2; nra).
  rewrite <- T1 in Y1, D1. rewrite <- T2 in Y2, D2.
  destruct (append_single t1 t2 g1 g2 S1 S2 W1 W2 ltac:(congruence) ltac:(lia) ltac:(lia) ltac:(lia) Q1 Q2) as
    (r & g & EA & Sr & Dr & Nr & Wr & Kr & Tg & Tr & F1 & F2).
  assert (M1 := Rmax_l (seg_time g1) (seg_time g2)). assert (M2 := Rmax_r (seg_time g1) (seg_time g2)). rewrite <- Tg in M1, M2.
  assert (Z0 := append_state t1 t2 r g1 g2 g _ _ _ _ false S1 S2 W1 W2 Q1 Q2 Sr Dr Wr Tg F1 F2 X1 X2).
  assert (Z1 := append_state t1 t2 r g1 g2 g _ _ _ _ true S1 S2 W1 W2 Q1 Q2 Sr Dr Wr Tg F1 F2 Y1 Y2).
  cbn [Nat.eqb] in Z0, Z1. rewrite !map_map in Z0, Z1.
  assert (Hf1 : forall l, map (fun x => seg_time g1 / seg_time g * (x / c1)) l = map (fun x => x / (seg_time g / duration o1)) l).
  { intros l. apply map_ext. intros x. rewrite D1. field. repeat split; lra. }
  assert (Hf2 : forall l, map (fun x => seg_time g2 / seg_time g * (x / c2)) l = map (fun x => x / (seg_time g / duration o2)) l).
  { intros l. apply map_ext. intros x. rewrite D2. field. repeat split; lra. }
  rewrite Hf1, Hf2 in Z0, Z1.
  assert (G1 : 0 <= seg_time g1 / seg_time g <= 1).
  { split; [apply Rmult_le_pos; [lra|left; apply Rinv_0_lt_compat; lra]|]. apply Rmult_le_reg_r with (seg_time g); [lra|]. unfold Rdiv.
    rewrite Rmult_assoc, Rinv_l by lra. lra. }
  assert (G2 : 0 <= seg_time g2 / seg_time g <= 1).
  { split; [apply Rmult_le_pos; [lra|left; apply Rinv_0_lt_compat; lra]|]. apply Rmult_le_reg_r with (seg_time g); [lra|]. unfold Rdiv.
    rewrite Rmult_assoc, Rinv_l by lra. lra. }
  assert (LIM : forall s t off d b, tr_segments t = [s] -> norm_at_most t (all_dims t) d b -> tr_D t = 3%nat -> 0 <= b ->
            0 <= seg_time s / seg_time g <= 1 ->
            (forall k u, (k < 3)%nat -> seg_fun g (off + k) d u = (seg_time s / seg_time g) ^ d * seg_fun s k d (u * (seg_time s / seg_time g))) ->
            norm_at_most r (map Z.of_nat (seq off 3)) d b).
  { intros s t off d b Es B Et Hbb Hc HF i u Hik Hu. unfold tr_K in Hik. rewrite Sr in Hik. cbn [length] in Hik. assert (i = 0%nat) as -> by lia.
    unfold seg_at in *. rewrite Sr in *. cbn [nth] in *.
    refine (block_limit g s off 3 d (seg_time g) (seg_time s / seg_time g) b Hc Hbb HF _ _ u Hu); [field; lra|].
    intros w Hw'. assert (Q := B 0%nat w). unfold tr_K, seg_at, all_dims in Q. rewrite Es, Et in Q. cbn [length nth] in Q. apply Q; [lia|exact Hw']. }
  assert (F1' : forall d k u, (k < 3)%nat -> seg_fun g (0 + k) d u = (seg_time g1 / seg_time g) ^ d * seg_fun g1 k d (u * (seg_time g1 / seg_time g)))
    by (intros d k u Hk; apply F1; lia).
  assert (F2' : forall d k u, (k < 3)%nat -> seg_fun g (3 + k) d u = (seg_time g2 / seg_time g) ^ d * seg_fun g2 k d (u * (seg_time g2 / seg_time g))).
  { intros d k u Hk. assert (DD1' : tr_D t1 = 3%nat) by lia. rewrite <- DD1' at 1. apply F2; lia. }
  exists o1, o2, r, (seg_time g / duration o1), (seg_time g / duration o2).
  split; [rewrite L5 in O1; exact O1|]. split; [rewrite L6 in O2; exact O2|]. split.
  { unfold plan_6dof, head3, tail3. rewrite !app_length, L5, L6, L7, L8. cbn [Nat.add Nat.eqb Nat.ltb Nat.leb Nat.sub obind].
    rewrite (firstn_app_exact gp gr 3 L5), (firstn_app_exact gv ga 3 L7), (skipn_app_exact gp gr 3 L5), (skipn_app_exact gv ga 3 L7).
    rewrite E1. cbn [obind]. rewrite E2. cbn [obind fst snd]. rewrite EA. reflexivity. }
  split; [lia|]. split; [unfold tr_K; rewrite Sr; reflexivity|]. split; [exact Kr|].
  split. { apply Rmult_le_reg_r with (duration o1); [exact P1|]. unfold Rdiv. rewrite Rmult_assoc, Rinv_l by lra. nra. }
  split; [rewrite Tr; field; lra|].
  split. { apply Rmult_le_reg_r with (duration o2); [exact P2|]. unfold Rdiv. rewrite Rmult_assoc, Rinv_l by lra. nra. }
  split; [rewrite Tr; field; lra|]. split; [exact P1|]. split; [exact P2|].
  split; [exact (LIM g1 t1 0%nat 1%nat _ S1 B1 ltac:(lia) ltac:(nra) G1 (F1' 1%nat))|].
  split; [exact (LIM g1 t1 0%nat 2%nat _ S1 B1' ltac:(lia) ltac:(nra) G1 (F1' 2%nat))|].
  split; [exact (LIM g2 t2 3%nat 1%nat _ S2 B2 ltac:(lia) ltac:(nra) G2 (F2' 1%nat))|].
  split; [exact (LIM g2 t2 3%nat 2%nat _ S2 B2' ltac:(lia) ltac:(nra) G2 (F2' 2%nat))|].
  rewrite Tr. split; [exact Z0|exact Z1].
Qed.
Print Assumptions C86_full_pose.

(** At the origin with rotation vector 0, at rest; goal 1 m ahead with 0.5 m/s,
    turned by 1.5 rad; linear limits 2 and 2, angular limits 0.1 and 2. *)
Definition ex_planner6 : planner R unit := mkPlanner [0; 0; 0] tt [0; 0; 0] [0; 0; 0] 2 2 (1 / 10) 2.
Definition ex_rotvec (_ : unit) : list R := [0; 0; 0].
Definition ex_yaw (_ : unit) : R := 0.
Lemma dist_axis x y : 0 <= x -> dist [0; 0; 0] [x; 0; 0] = x /\ dist [0; 0; 0] [0; 0; x] = x /\ dist [0; 0; 0; y] [x; 0; 0; y] = x.
Proof.
  intros H. unfold dist. cbn [combine fold_right fst snd].
  repeat split; [replace (_ + _) with (x * x) by ring..]; apply sqrt_square; exact H.
Qed.
Lemma over_2_53 v x : 0 < v -> v <= x -> v / 2 ^ 53 <= x.
Proof.
  intros Hv H. apply Rle_trans with (v / 1); [|lra]. apply Rmult_le_compat_l; [lra|]. apply Rinv_le_contravar; [lra|]. apply pow_R1_Rle. lra.
Qed.
Example C86_full_pose_example :
  inverse_ok 5 (perfect_inv 5) /\ (forall A b, length (perfect_solve A b) = length b) /\ perfect_root_finder perfect_rf /\
  bounded_algorithm bounded_nlopt /\
  0 < pl_max_v ex_planner6 /\ 0 < pl_max_a ex_planner6 /\ 0 < pl_max_ang_v ex_planner6 /\ 0 < pl_max_ang_a ex_planner6 /\
  pl_max_v ex_planner6 / 2 ^ 53 <= dist (pl_position ex_planner6) [3; 0; 0] /\
  pl_max_ang_v ex_planner6 / 2 ^ 53 <= dist (ex_rotvec (pl_rotation ex_planner6)) [0; 0; 3 / 2] /\
  pl_max_v ex_planner6 / 2 ^ 53 <= dist (pl_position ex_planner6 ++ [ex_yaw (pl_rotation ex_planner6)]) [3; 0; 0; 0].
Proof.
  split; [apply perfect_inv_ok|]. split; [exact perfect_solve_length|]. split; [exact perfect_rf_ok|]. split; [exact bounded_nlopt_ok|].
  cbn [ex_planner6 pl_max_v pl_max_a pl_max_ang_v pl_max_ang_a pl_position pl_rotation app]. unfold ex_rotvec, ex_yaw.
  repeat (split; [lra|]). split; [rewrite (proj1 (dist_axis 3 0 ltac:(lra))); apply over_2_53; lra|].
  split; [rewrite (proj1 (proj2 (dist_axis (3 / 2) 0 ltac:(lra)))); apply over_2_53; lra|].
  rewrite (proj2 (proj2 (dist_axis 3 0 ltac:(lra)))); apply over_2_53; lra.
Qed.

Lemma ex_times : nfabian_time exp 2 2 2 (65 / 10) <= 15 /\ 30 <= nfabian_time exp (3 / 2) (1 / 10) 2 (65 / 10).
Proof.
  unfold nfabian_time. rnum. split.
  - assert (X : exp (- (2) / 2 * 2) <= 1) by (rewrite <- exp_0; left; apply exp_increasing; lra). lra.
  - assert (X := exp_pos (- (3 / 2) / (1 / 10) * 2)). lra.
Qed.
(** The velocity requested at the goal, though within the limits, is not met when
    the other part takes longer. *)
Theorem C86_goal_velocity_met_refuted : exists (gp gr gv ga : list R) (tr' : trajectory R),
  sqrt (lsum (map (fun x => x ^ 2) gv)) < pl_max_v ex_planner6 /\
  plan_6dof (perfect_inv 5) perfect_solve perfect_rf exp ex_rotvec ex_yaw rejecting_nlopt rejecting_nlopt ex_planner6 (gp ++ gr) (gv ++ ga) traj_new
    = Ok (true, tr') /\
  traj_evaluate tr' (duration tr') 0 = Ok (gp ++ gr) /\ traj_evaluate tr' (duration tr') 1 <> Ok (gv ++ ga).
Proof.
  destruct C86_full_pose_example as (H1 & H2 & H3 & _ & H5 & H6 & H7 & H8 & _ & H10 & _).
  set (gp := [2; 0; 0]). set (gr := [0; 0; 3 / 2]). set (gv := [1 / 2; 0; 0]). set (ga := [0; 0; 0]).
  destruct (dist_axis 2 0 ltac:(lra)) as (A1 & _). destruct (dist_axis (3 / 2) 0 ltac:(lra)) as (_ & A2 & _).
  destruct (C86_full_pose (perfect_inv 5) perfect_solve perfect_rf ex_rotvec ex_yaw rejecting_nlopt rejecting_nlopt ex_planner6 gp gr gv ga traj_new
    H1 H2 H3 rejecting_nlopt_ok rejecting_nlopt_ok eq_refl eq_refl eq_refl eq_refl eq_refl eq_refl eq_refl eq_refl H5 H6 H7 H8)
    as (tr1 & tr2 & tr' & c & c' & O1 & O2 & E & _ & _ & _ & Hc & T1 & Hc' & T2 & P1 & P2 & _ & _ & _ & _ & _ & S).
  { cbn [pl_position ex_planner6]. unfold gp. rewrite A1. apply over_2_53; cbn; lra. }
  { exact H10. }
  destruct (plan_total (perfect_inv 5) perfect_solve perfect_rf rejecting_nlopt 3 [0; 0; 0] [0; 0; 0] gp gv 2 2 traj_new
    H2 H3 rejecting_nlopt_ok ltac:(lia) eq_refl eq_refl eq_refl eq_refl ltac:(lra) ltac:(lra)) as (u1 & U1 & _ & N1).
  { unfold gp. intros Q. injection Q. lra. }
  destruct (plan_total (perfect_inv 5) perfect_solve perfect_rf rejecting_nlopt 3 [0; 0; 0] [0; 0; 0] gr ga (1 / 10) 2 traj_new
    H2 H3 rejecting_nlopt_ok ltac:(lia) eq_refl eq_refl eq_refl eq_refl ltac:(lra) ltac:(lra)) as (u2 & U2 & _ & N2).
  { unfold gr. intros Q. injection Q. lra. }
  cbn [ex_planner6 pl_max_v pl_max_a pl_max_ang_v pl_max_ang_a pl_position pl_rotation pl_velocity pl_angular ex_rotvec] in O1, O2.
  unfold ex_rotvec in O2. rewrite U1 in O1. apply Ok_inj in O1. rewrite U2 in O2. apply Ok_inj in O2.
  subst u1 u2. specialize (N1 (fun _ _ _ _ => eq_refl)). specialize (N2 (fun _ _ _ _ => eq_refl)).
  unfold gp in N1. unfold gr in N2. rewrite A1 in N1. rewrite A2 in N2. destruct ex_times as (X1 & X2). rewrite <- N1 in X1. rewrite <- N2 in X2.
  exists gp, gr, gv, ga, tr'. split.
  { unfold gv. cbn [map lsum ex_planner6 pl_max_v]. replace ((1 / 2) ^ 2 + (0 ^ 2 + (0 ^ 2 + 0))) with (1 / 2 * (1 / 2)) by field. rewrite sqrt_square; lra. }
  split; [exact E|]. destruct S as (S0 & S1 & _). split; [exact S0|]. rewrite S1. unfold gv. cbn [map app]. intros Q. apply Ok_inj in Q. injection Q. intros _ _ _ _ _ Q'.
  assert (c = 1). { apply (Rmult_eq_reg_l (1 / 2 / c)); [|intros Z; rewrite Z in Q'; lra]. rewrite Q' at 2. field. lra. }
  subst c. nra.
Qed.
Print Assumptions C86_goal_velocity_met_refuted.

(** A full pose goal that keeps the orientation aborts. *)
Theorem C86_same_orientation_aborts {A} (inv : mat R -> mat R) (solve : mat R -> list R -> list R) (rf : root_oracle (T := R))
        (rotvec : A -> list R) (yaw : A -> R) (nlopt nlopt' : nlopt_algorithm (T := R)) (p : planner R A)
        (gp gv ga : list R) (tr : trajectory R) :
  inverse_ok 5 inv -> (forall A b, length (solve A b) = length b) -> perfect_root_finder rf -> bounded_algorithm nlopt ->
  length (pl_position p) = 3%nat -> length (pl_velocity p) = 3%nat -> length (rotvec (pl_rotation p)) = 3%nat -> length (pl_angular p) = 3%nat ->
  length gp = 3%nat -> length gv = 3%nat -> length ga = 3%nat ->
  0 < pl_max_v p -> 0 < pl_max_a p -> pl_max_v p / 2 ^ 53 <= dist (pl_position p) gp ->
  plan_6dof inv solve rf exp rotvec yaw nlopt nlopt' p (gp ++ rotvec (pl_rotation p)) (gv ++ ga) tr = Abort.
Proof.
  intros Hi Hs Hr Hb L1 L2 L3 L4 L5 L7 L8 Hv Ha Hd.
  destruct (from_to_total inv solve rf nlopt (pl_position p) (pl_velocity p) gp gv (pl_max_v p) (pl_max_a p) traj_new) as
    (o1 & t1 & _ & _ & _ & E1 & _); try assumption; try lia.
  unfold plan_6dof, head3, tail3. rewrite !app_length, L3, L5, L7, L8. cbn [Nat.add Nat.eqb Nat.ltb Nat.leb Nat.sub obind].
  rewrite (firstn_app_exact gp _ 3 L5), (firstn_app_exact gv ga 3 L7), (skipn_app_exact gp _ 3 L5), (skipn_app_exact gv ga 3 L7).
  rewrite E1. cbn [obind]. unfold plan_from_to at 1. rewrite L3, (plan_same_position inv solve rf nlopt' 3) by assumption. reflexivity.
Qed.
Print Assumptions C86_same_orientation_aborts.
Theorem C86_same_orientation_refuted : exists gp gv ga,
  pl_max_v ex_planner6 / 2 ^ 53 <= dist (pl_position ex_planner6) gp /\
  plan_6dof (perfect_inv 5) perfect_solve perfect_rf exp ex_rotvec ex_yaw bounded_nlopt bounded_nlopt ex_planner6
    (gp ++ ex_rotvec tt) (gv ++ ga) traj_new = Abort.
Proof.
  destruct C86_full_pose_example as (H1 & H2 & H3 & H4 & H5 & H6 & H7 & H8 & H9 & _).
  exists [3; 0; 0], [0; 0; 0], [0; 0; 0]. split; [exact H9|].
  exact (C86_same_orientation_aborts (perfect_inv 5) perfect_solve perfect_rf ex_rotvec ex_yaw bounded_nlopt bounded_nlopt ex_planner6
    [3; 0; 0] [0; 0; 0] [0; 0; 0] traj_new H1 H2 H3 H4 eq_refl eq_refl eq_refl eq_refl eq_refl eq_refl eq_refl H5 H6 H9).
Qed.
Print Assumptions C86_same_orientation_refuted.
