(** Model of PolynomialOptimizationNonLinear<N>
    (mav_trajectory_generation/include/mav_trajectory_generation/
     polynomial_optimization_nonlinear.h and
     impl/polynomial_optimization_nonlinear_impl.h; line numbers without file
     refer to the impl header).  N = 2 * h as in ModelLinear.  Printing, wall
     clock times, stopping criteria and random seeds are not modelled. *)
From Coq Require Import ZArith List Bool.
From Verif Require Import Num ModelPolynomial ModelSegment ModelVertex ModelTrajectory ModelLinear.
Import ListNotations.

(** h:88-95 enum TimeAllocMethod. *)
Inductive time_alloc :=
| kSquaredTime | kRichterTime | kMellingerOuterLoop
| kSquaredTimeAndConstraints | kRichterTimeAndConstraints | kUnknown.

(** h:34-99 NonlinearOptimizationParameters: the fields that the modelled
    functions read. *)
Record nl_params (T : Type) := mkNlParams {
  np_step : T;            (* initial_stepsize_rel *)
  np_penalty : T;         (* time_penalty *)
  np_soft : bool;         (* use_soft_constraints *)
  np_weight : T;          (* soft_constraint_weight *)
  np_method : time_alloc
}.
Arguments mkNlParams {T} _ _ _ _ _.
Arguments np_step {T} _. Arguments np_penalty {T} _. Arguments np_soft {T} _.
Arguments np_weight {T} _. Arguments np_method {T} _.

(** h:101-109 OptimizationInfo without optimization_time. *)
Record nl_info (T : Type) := mkNlInfo {
  ni_iterations : nat;
  ni_reason : Z;
  ni_trajectory : T;
  ni_time : T;
  ni_soft : T;
  ni_maxima : list (Z * extremum T)
}.
Arguments mkNlInfo {T} _ _ _ _ _ _.
Arguments ni_iterations {T} _. Arguments ni_reason {T} _. Arguments ni_trajectory {T} _.
Arguments ni_time {T} _. Arguments ni_soft {T} _. Arguments ni_maxima {T} _.

(** h:292-304 the members.  An element of inequality_constraints_ (ConstraintData,
    h:207-211) is its pair (derivative, value); this_object always is the object
    itself (copying the optimiser object is outside the model).  nlopt_ is
    represented by [nl_nlopt]: None before setupFromVertices, else the number of
    parameters, and by [nl_hard]: the constraint data registered with it. *)
Record nlo (T : Type) := mkNlo {
  nl_opt : opt T;
  nl_par : nl_params T;
  nl_con : list (Z * T);
  nl_nlopt : option nat;
  nl_hard : list (Z * T);
  nl_inf : nl_info T
}.
Arguments mkNlo {T} _ _ _ _ _ _.
Arguments nl_opt {T} _. Arguments nl_par {T} _. Arguments nl_con {T} _.
Arguments nl_nlopt {T} _. Arguments nl_hard {T} _. Arguments nl_inf {T} _.

(** The behaviour of nlopt::opt::optimize after the calls that set bounds, step
    and objective: a terminating interaction that may depend on every value it
    has been given.  [grad] tells whether nlopt passes a non-empty gradient
    vector.  On an exception the C++ wrapper has already written the point and
    cost reached so far to its arguments. *)
Inductive nlopt_run (T : Type) :=
| NlReject                                         (* a set_... call throws *)
| NlReturn (x : list T) (f : T) (result : Z)
| NlThrow (x : list T) (f : T)
| NlObjective (grad : bool) (x : list T) (k : T -> list T -> nlopt_run T)
| NlConstraint (grad : bool) (j : nat) (x : list T) (k : T -> nlopt_run T).
Arguments NlReject {T}. Arguments NlReturn {T}. Arguments NlThrow {T}.
Arguments NlObjective {T}. Arguments NlConstraint {T}.

Inductive nlopt_end (T : Type) :=
| EndReject | EndReturn (x : list T) (f : T) (result : Z) | EndThrow (x : list T) (f : T).
Arguments EndReject {T}. Arguments EndReturn {T}. Arguments EndThrow {T}.

(** nlopt::FAILURE (nlopt.h). *)
Definition kFailure : Z := -1.
(** motion_defines.h:30-31. *)
Definition kVelocity : Z := 1.
Definition kAcceleration : Z := 2.

Section Nonlinear.
  Context {T : Type} {ops : NumOps T}.
  Local Open Scope num_scope.
  (** h, inv, solve as in ModelLinear; rf: the root finder; fexp: exp. *)
  Context (h : nat) (inv : mat T -> mat T) (solve : mat T -> list T -> list T).
  Context (rf : root_oracle (T := T)) (fexp : T -> T).

  (** h:31 kOptimizationTimeLowerBound. *)
  Definition kTimeLowerBound : T := nlit 1 10.

  (** h:101-109 the default OptimizationInfo. *)
  Definition info_new : nl_info T := mkNlInfo 0 kFailure n0 n0 n0 [].

  (** 50-53 constructor. *)
  Definition nl_new (dim : nat) (p : nl_params T) : nlo T :=
    mkNlo (opt_new dim) p [] None [] info_new.

  (** Assignments to poly_opt_ and to optimization_info_. *)
  Definition set_opt (n : nlo T) (o : opt T) : nlo T :=
    mkNlo o (nl_par n) (nl_con n) (nl_nlopt n) (nl_hard n) (nl_inf n).
  Definition set_info (n : nlo T) (i : nl_info T) : nlo T :=
    mkNlo (nl_opt n) (nl_par n) (nl_con n) (nl_nlopt n) (nl_hard n) i.

  (** 55-89 setupFromVertices; the new nlopt object has no constraints. *)
  Definition nl_parameters (n : nlo T) (o : opt T) (times : list T) : nat :=
    match np_method (nl_par n) with
    | kSquaredTime | kRichterTime | kMellingerOuterLoop => length times
    | _ => (length times + o_nfree o * o_dim o)%nat
    end.
  Definition nl_setupFromVertices (n : nlo T) (vs : list (vertex T)) (times : list T) (r : Z)
    : outcome (nlo T) :=
    o <-- opt_setupFromVertices h inv (nl_opt n) vs times r ;;
    Ok (mkNlo o (nl_par n) (nl_con n) (Some (nl_parameters n o times)) [] (nl_inf n)).

  (** 91-94 solveLinear. *)
  Definition nl_solveLinear (n : nlo T) : outcome (nlo T) :=
    o <-- opt_solveLinear h solve (nl_opt n) ;; Ok (set_opt n o).

  (** 526-553 addMaximumMagnitudeConstraint: (returned flag, new state).
      [accept]: nlopt supports inequality constraints with the chosen algorithm
      (otherwise add_inequality_constraint throws).  nlopt_ is null before
      setupFromVertices. *)
  Definition nl_addConstraint (accept : bool) (n : nlo T) (derivative : Z) (value : T)
    : outcome (bool * nlo T) :=
    if (derivative <? 0)%Z then Abort
    else if negb (n0 <=? value) then Abort
    else
      let con := nl_con n ++ [(derivative, value)] in
      if np_soft (nl_par n)
      then Ok (true, mkNlo (nl_opt n) (nl_par n) con (nl_nlopt n) (nl_hard n) (nl_inf n))
      else match nl_nlopt n with
           | None => UB
           | Some _ =>
               Ok (accept, mkNlo (nl_opt n) (nl_par n) con (nl_nlopt n)
                             (if accept then nl_hard n ++ [(derivative, value)] else nl_hard n)
                             (nl_inf n))
           end.

  (** 846-852 computeTotalTrajectoryTime; std::accumulate at 276-277. *)
  Definition total_time (times : list T) : T := fold_left nadd times n0.

  (** 744-763 evaluateMaximumMagnitudeConstraint; the point passed by nlopt is
      ignored. *)
  Definition nl_magnitudeConstraint (n : nlo T) (grad : bool) (c : Z * T) : outcome (nlo T * T) :=
    if grad then Abort
    else
      e <-- opt_maximumOfMagnitude h rf (nl_opt n) (fst c) ;;
      let i := nl_inf n in
      Ok (set_info n (mkNlInfo (ni_iterations i) (ni_reason i) (ni_trajectory i) (ni_time i)
                        (ni_soft i) (map_set (ni_maxima i) (fst c) (fst e))),
          ext_value (fst e) - snd c).

  (** 765-795 evaluateMaximumMagnitudeAsSoftConstraint; std::min(a, b). *)
  Definition nl_softConstraints (n : nlo T) (weight maximum_cost : T) : outcome (nlo T * T) :=
    ofold (fun (st : nlo T * T) c =>
             r <-- nl_magnitudeConstraint (fst st) false c ;;
             let relative := snd r / snd c in
             Ok (fst r, snd st + nmin maximum_cost (fexp (relative * weight))))
          (nl_con n) (n, n0).

  (** h:278 default argument maximum_cost. *)
  Definition kMaxSoftCost : T := nofZ (10 ^ 12).

  (** 602-614 and 729-741: the end of the two gradient-free objectives. *)
  Definition nl_finishObjective (n : nlo T) (cost_trajectory cost_time : T)
    : outcome (nlo T * T) :=
    r <-- (if np_soft (nl_par n)
           then nl_softConstraints n (np_weight (nl_par n)) kMaxSoftCost
           else Ok (n, n0)) ;;
    let i := nl_inf (fst r) in
    Ok (set_info (fst r) (mkNlInfo (S (ni_iterations i)) (ni_reason i) cost_trajectory cost_time
                            (snd r) (ni_maxima i)),
        cost_trajectory + cost_time + snd r).

  (** 555-615 objectiveFunctionTime. *)
  Definition nl_objectiveTime (n : nlo T) (grad : bool) (times : list T) : outcome (nlo T * T) :=
    if grad then Abort
    else if negb (Nat.eqb (length times) (o_nseg (nl_opt n))) then Abort
    else
      o1 <-- opt_updateSegmentTimes h inv (nl_opt n) times ;;
      o2 <-- opt_solveLinear h solve o1 ;;
      cost <-- opt_computeCost h o2 ;;
      let total := total_time times in
      let cost_time := match np_method (nl_par n) with
                       | kRichterTime => total * np_penalty (nl_par n)
                       | _ => total * total * np_penalty (nl_par n)
                       end in
      nl_finishObjective (set_opt n o2) cost cost_time.

  (** 677-700: the times and the free constraints of each dimension. *)
  Definition unpack_times (nseg : nat) (x : list T) : list T := map (fun i => nth i x n0) (seq 0 nseg).
  Definition unpack_free (nseg nfree dim : nat) (x : list T) : list (list T) :=
    map (fun d => map (fun i => nth (nseg + d * nfree + i) x n0) (seq 0 nfree)) (seq 0 dim).

  (** 659-742 objectiveFunctionTimeAndConstraints. *)
  Definition nl_objectiveAll (n : nlo T) (grad : bool) (x : list T) : outcome (nlo T * T) :=
    let o := nl_opt n in
    if grad then Abort
    else if negb (Nat.eqb (length x) (o_nseg o + o_nfree o * o_dim o)) then Abort
    else
      let times := unpack_times (o_nseg o) x in
      let free := unpack_free (o_nseg o) (o_nfree o) (o_dim o) x in
      o1 <-- opt_updateSegmentTimes h inv o times ;;
      o2 <-- opt_setFreeConstraints h o1 free ;;
      cost <-- opt_computeCost h o2 ;;
      let total := total_time times in
      let cost_time := match np_method (nl_par n) with
                       | kRichterTimeAndConstraints => total * np_penalty (nl_par n)
                       | _ => total * total * np_penalty (nl_par n)
                       end in
      nl_finishObjective (set_opt n o2) cost cost_time.

  (** 308-338: the times of the n-th perturbed problem, before and after
      clamping. *)
  Definition perturbed_times (times : list T) (nseg n : nat) : list T :=
    let corr := nlit 1 10 / (nofZ (Z.of_nat nseg) - n1) in
    map (fun i => if Nat.eqb i n then nth i times n0 + nlit 1 10 else nth i times n0 - corr)
        (seq 0 (length times)).
  Definition clamped_times (times : list T) (nseg n : nat) : list T :=
    map (nmax kTimeLowerBound) (perturbed_times times nseg n).

  (** 286-364 getCostAndGradientMellinger on a non-null / null pointer:
      (new linear optimiser, J_d, *gradients). *)
  Definition mellinger_step (times : list T) (nseg : nat) (J : T) (st : opt T * list T) (n : nat)
    : outcome (opt T * list T) :=
    o1 <-- opt_updateSegmentTimes h inv (fst st) (clamped_times times nseg n) ;;
    o2 <-- opt_solveLinear h solve o1 ;;
    Jb <-- opt_computeCost h o2 ;;
    Ok (o2, snd st ++ [(Jb - J) / nlit 1 10]).
  Definition mellinger_gradient (o : opt T) : outcome (opt T * T * list T) :=
    let times := o_times o in
    J <-- opt_computeCost h o ;;
    let nseg := o_nseg o in
    if Nat.eqb nseg 1 then Ok (o, J, [n0])
    else
      st <-- ofold (mellinger_step times nseg J) (seq 0 nseg) (o, []) ;;
      o1 <-- opt_updateSegmentTimes h inv (fst st) times ;;
      o2 <-- opt_solveLinear h solve o1 ;;
      Ok (o2, J, snd st).
  Definition mellinger_cost (o : opt T) : outcome T := opt_computeCost h o.

  (** 618-657 objectiveFunctionTimeMellingerOuterLoop: new state, value and the
      gradient vector. *)
  Definition nl_objectiveMellinger (n : nlo T) (grad : bool) (times : list T)
    : outcome (nlo T * T * list T) :=
    if negb grad then Abort
    else if negb (Nat.eqb (length times) (o_nseg (nl_opt n))) then Abort
    else
      o1 <-- opt_updateSegmentTimes h inv (nl_opt n) times ;;
      o2 <-- opt_solveLinear h solve o1 ;;
      g <-- mellinger_gradient o2 ;;
      let i := nl_inf n in
      Ok (set_info (set_opt n (fst (fst g)))
            (mkNlInfo (S (ni_iterations i)) (ni_reason i) (snd (fst g)) (ni_time i) (ni_soft i)
               (ni_maxima i)), snd (fst g), snd g).

  (** nlopt::opt::optimize: evaluates the objective and the registered
      constraints as the run asks for them. *)
  Fixpoint nlopt_drive (obj : nlo T -> bool -> list T -> outcome (nlo T * T * list T))
           (n : nlo T) (r : nlopt_run T) : outcome (nlo T * nlopt_end T) :=
    match r with
    | NlReject => Ok (n, EndReject)
    | NlReturn x f res => Ok (n, EndReturn x f res)
    | NlThrow x f => Ok (n, EndThrow x f)
    | NlObjective grad x k =>
        v <-- obj n grad x ;;
        nlopt_drive obj (fst (fst v)) (k (snd (fst v)) (snd v))
    | NlConstraint grad j x k =>
        c <-- oget (nl_hard n) j ;;
        v <-- nl_magnitudeConstraint n grad c ;;
        nlopt_drive obj (fst v) (k (snd v))
    end.
  Definition no_gradient (obj : nlo T -> bool -> list T -> outcome (nlo T * T))
    : nlo T -> bool -> list T -> outcome (nlo T * T * list T) :=
    fun n grad x => v <-- obj n grad x ;; Ok (v, []).

  (** An nlopt algorithm: initial step (empty if not set), lower and upper
      bounds, initial point. *)
  Definition nlopt_algorithm := list T -> list T -> list T -> list T -> nlopt_run T.
  Context (nlopt : nlopt_algorithm).

  (** 132-168 optimizeTime.  A step vector of the wrong size makes
      set_initial_step throw. *)
  Definition nl_optimizeTime (n : nlo T) : outcome (nlo T * Z) :=
    let times := o_times (nl_opt n) in
    let steps := map (fun t => np_step (nl_par n) * t) times in
    match nl_nlopt n with
    | None => UB
    | Some k =>
        if negb (Nat.eqb (length steps) k) then Ok (n, kFailure)
        else
          r <-- nlopt_drive (no_gradient nl_objectiveTime) n
                  (nlopt steps (repeat kTimeLowerBound k) (repeat dbl_max k) times) ;;
          match snd r with
          | EndReturn _ _ res => Ok (fst r, res)
          | _ => Ok (fst r, kFailure)
          end
    end.

  (** 371-381: the last velocity and acceleration limits; 0 if there is none. *)
  Definition limit_of (derivative : Z) (con : list (Z * T)) : T :=
    fold_left (fun v c => if (fst c =? derivative)%Z then snd c else v) con n0.

  (** 366-406 scaleSegmentTimesWithViolation. *)
  Definition nl_scaleWithViolation (n : nlo T) : outcome (nlo T) :=
    tr <-- opt_getTrajectory (nl_opt n) traj_new ;;
    s <-- traj_scaleToMeet rf tr (limit_of kVelocity (nl_con n)) (limit_of kAcceleration (nl_con n)) ;;
    o1 <-- opt_updateSegmentTimes h inv (nl_opt n) (traj_getSegmentTimes (snd s)) ;;
    o2 <-- opt_solveLinear h solve o1 ;;
    Ok (set_opt n o2).

  (** 170-259 optimizeTimeMellingerOuterLoop.  optimize() throws
      std::invalid_argument on a point of the wrong size (final_cost unchanged). *)
  Definition nl_optimizeMellinger (n : nlo T) : outcome (nlo T * Z) :=
    let times := o_times (nl_opt n) in
    match nl_nlopt n with
    | None => UB
    | Some k =>
        if negb (Nat.eqb (length times) k) then Ok (n, kFailure)
        else
          r <-- nlopt_drive nl_objectiveMellinger n
                  (nlopt [] (repeat kTimeLowerBound k) (repeat dbl_max k) times) ;;
          match snd r with
          | EndReject => Ok (fst r, kFailure)
          | EndReturn _ _ res => m <-- nl_scaleWithViolation (fst r) ;; Ok (m, res)
          | EndThrow _ f =>
              if f =? dbl_max then Ok (fst r, kFailure)
              else m <-- nl_scaleWithViolation (fst r) ;; Ok (m, kFailure)
          end
    end.

  (** 797-844 setFreeEndpointDerivativeHardConstraints: the two vectors.  at()
      throws on an index out of range. *)
  Definition bounds_set (b : list T * list T) (i : nat) (v : T) : outcome (list T * list T) :=
    if Nat.ltb i (length (fst b)) && Nat.ltb i (length (snd b))
    then Ok (list_set (fst b) i (- nabs v), list_set (snd b) i (nabs v))
    else Throw.
  Definition bounds_deriv (dim nfree : nat) (c : Z * T) (v : vertex T)
             (st : nat * (list T * list T)) (deriv : nat) : outcome (nat * (list T * list T)) :=
    if vertex_has v (Z.of_nat deriv) then Ok st
    else
      b <-- (if (Z.of_nat deriv =? fst c)%Z
             then ofold (fun b k => bounds_set b (k * nfree + fst st) (snd c)) (seq 0 dim) (snd st)
             else Ok (snd st)) ;;
      Ok (S (fst st), b).
  Definition bounds_constraint (dim nfree : nat) (derivative : Z) (vs : list (vertex T))
             (b : list T * list T) (c : Z * T) : outcome (list T * list T) :=
    r <-- ofold (fun st v => ofold (bounds_deriv dim nfree c v) (seq 0 (Z.to_nat (derivative + 1))) st)
                vs (0%nat, b) ;;
    Ok (snd r).
  Definition endpoint_bounds (o : opt T) (con : list (Z * T)) (vs : list (vertex T))
    : outcome (list T * list T) :=
    ofold (bounds_constraint (o_dim o) (o_nfree o) (o_deriv o) vs) con
          (repeat dbl_lowest (o_dim o * o_nfree o), repeat dbl_max (o_dim o * o_nfree o)).

  (** 438-447: the initial solution. *)
  Definition pack (times : list T) (free : list (list T)) : list T := times ++ concat free.

  (** 480-499: initial steps, and the bounds widened to contain the initial
      solution.  lower_bounds[i] needs i < size. *)
  Definition initial_step (rel x : T) : T :=
    if nabs x <=? dbl_epsilon then nlit 1 (10 ^ 13) else rel * nabs x.
  Definition widen_bounds (x : list T) (b : list T * list T) : outcome (list T * list T) :=
    ofold (fun b i =>
             if Nat.ltb i (length (fst b)) && Nat.ltb i (length (snd b)) then
               let xi := nth i x n0 in
               if xi <? nth i (fst b) n0 then Ok (list_set (fst b) i xi, snd b)
               else if nth i (snd b) n0 <? xi then Ok (fst b, list_set (snd b) i xi)
               else Ok b
             else UB) (seq 0 (length x)) b.

  (** 408-506: everything up to the CHECKs: (poly_opt_ after solveLinear,
      initial step, bounds, initial solution).  free_constraints.front() needs
      dimension > 0. *)
  Definition nl_problem (n : nlo T) : outcome (opt T * list T * (list T * list T) * list T) :=
    let times := o_times (nl_opt n) in
    o <-- opt_solveLinear h solve (nl_opt n) ;;
    let free := o_free o in
    match free with
    | [] => UB
    | f0 :: _ =>
        let n_vars := (length times + length free * length f0)%nat in
        if Nat.eqb n_vars 0 then Abort
        else
          let x0 := pack times free in
          b <-- endpoint_bounds o (nl_con n) (o_vertices o) ;;
          w <-- widen_bounds x0 (repeat kTimeLowerBound (length times) ++ fst b,
                                 repeat dbl_max (length times) ++ snd b) ;;
          let steps := map (initial_step (np_step (nl_par n))) x0 in
          if negb (Nat.eqb (length (fst w)) (length (snd w))) then Abort
          else if negb (Nat.eqb (length x0) (length (fst w))) then Abort
          else if negb (Nat.eqb (length x0) n_vars) then Abort
          else Ok (o, steps, w, x0)
    end.

  (** 408-523 optimizeTimeAndFreeConstraints. *)
  Definition nl_optimizeAll (n : nlo T) : outcome (nlo T * Z) :=
    p <-- nl_problem n ;;
    let '(o, steps, w, x0) := p in
    let start := set_opt n o in
    match nl_nlopt n with
    | None => UB
    | Some k =>
        if negb (Nat.eqb (length steps) k) then Ok (start, kFailure)
        else
          r <-- nlopt_drive (no_gradient nl_objectiveAll) start (nlopt steps (fst w) (snd w) x0) ;;
          match snd r with
          | EndReturn _ _ res => Ok (fst r, res)
          | _ => Ok (fst r, kFailure)
          end
    end.

  (** 96-130 optimize. *)
  Definition nl_optimize (n : nlo T) : outcome (nlo T * Z) :=
    let fresh := set_info n info_new in
    r <-- (match np_method (nl_par n) with
           | kSquaredTime | kRichterTime => nl_optimizeTime fresh
           | kSquaredTimeAndConstraints | kRichterTimeAndConstraints => nl_optimizeAll fresh
           | kMellingerOuterLoop => nl_optimizeMellinger fresh
           | kUnknown => Ok (fresh, kFailure)
           end) ;;
    let i := nl_inf (fst r) in
    Ok (set_info (fst r) (mkNlInfo (ni_iterations i) (snd r) (ni_trajectory i) (ni_time i)
                            (ni_soft i) (ni_maxima i)), snd r).

  (** 261-264 getCost. *)
  Definition nl_getCost (n : nlo T) : outcome T := opt_computeCost h (nl_opt n).

  (** 266-284 getTotalCostWithSoftConstraints.  Although const, it overwrites
      optimization_info_.maxima through ConstraintData::this_object. *)
  Definition nl_getTotalCost (n : nlo T) : outcome (nlo T * T) :=
    cost <-- opt_computeCost h (nl_opt n) ;;
    let total := total_time (o_times (nl_opt n)) in
    r <-- nl_softConstraints n (np_weight (nl_par n)) (nofZ (10 ^ 9)) ;;
    Ok (fst r, cost + total * total * np_penalty (nl_par n) + snd r).

  (** h:175-177 getTrajectory. *)
  Definition nl_getTrajectory (n : nlo T) (tr : trajectory T) : outcome (trajectory T) :=
    opt_getTrajectory (nl_opt n) tr.
End Nonlinear.
