(** Model of the time allocation benchmark
    (mav_trajectory_generation_ros/src/time_evaluation_node.cpp, cited by lines).
    The file output (809-845) and main (849-902) are in ModelReport.v; log output,
    publishers and the parameter server are not modelled. *)
From Coq Require Import ZArith List Bool String.
From Verif Require Import Num ModelPolynomial ModelSegment ModelVertex ModelTrajectory ModelSampling ModelLinear ModelNonlinear ModelPlanner ModelVis.
Import ListNotations.
Notation length := List.length.

(** motion_defines.h:32 derivative_order::JERK, 133 max_derivative_order_. *)
Definition kJerk : Z := 3.

(** 19-39 TimeAllocationBenchmarkResult. *)
Record bench_result (T : Type) := mkResult {
  br_trial : Z;
  br_method : string;
  br_segments : Z;
  br_nominal : T;
  br_success : Z;
  br_violated : bool;
  br_time : T;
  br_length : T;
  br_computation : T;
  br_v_max : T;
  br_a_max : T;
  br_cost : T;
  br_max_dist : T;
  br_area : T
}.
Arguments mkResult {T}. Arguments br_trial {T}. Arguments br_method {T}. Arguments br_segments {T}. Arguments br_nominal {T}.
Arguments br_success {T}. Arguments br_violated {T}. Arguments br_time {T}. Arguments br_length {T}. Arguments br_computation {T}.
Arguments br_v_max {T}. Arguments br_a_max {T}. Arguments br_cost {T}. Arguments br_max_dist {T}. Arguments br_area {T}.

(** The evaluated methods, in the order of runBenchmark (189-339). *)
Inductive bench_method := Nfabian | Trapezoidal | SegmentViolationScaling | NonlinearTimeOnly | NonlinearAll | NonlinearRichter
                        | MellingerOuterLoop | MellingerTrapezoidalInit.
Definition all_methods : list bench_method :=
  [Nfabian; Trapezoidal; SegmentViolationScaling; NonlinearTimeOnly; NonlinearAll; NonlinearRichter; MellingerOuterLoop; MellingerTrapezoidalInit].
(** 190, 208, 226, 245, 263, 281, 299, 317. *)
Definition method_name (m : bench_method) : string :=
  match m with
  | Nfabian => "nfabian" | Trapezoidal => "trapezoidal" | SegmentViolationScaling => "segment_violation_scaling"
  | NonlinearTimeOnly => "nonlinear_time_only" | NonlinearAll => "nonlinear" | NonlinearRichter => "nonlinear_richter"
  | MellingerOuterLoop => "mellinger_outer_loop" | MellingerTrapezoidalInit => "mellinger_outer_loop_trapezoidal_init"
  end%string.

Section Bench.
  Context {T : Type} {ops : NumOps T}.
  Local Open Scope num_scope.
  (** inv, solve, rf, fexp as in ModelNonlinear; v_max, a_max: the members v_max_
      and a_max_. *)
  Context (inv : mat T -> mat T) (solve : mat T -> list T -> list T).
  Context (rf : root_oracle (T := T)) (fexp : T -> T) (mav : mav_functions T) (v_max a_max : T).

  (** 19-39 the default member values. *)
  Definition result_new : bench_result T :=
    mkResult (-1) "none" 0 n0 0 false n0 n0 n0 n0 n0 n0 n0 n0.

  (** 782-791 computePointLineDistance of A from the line through B and C; the dot
      product in the order of v3_norm. *)
  Definition v3_div (a : list T) (s : T) : list T := [vx a 0 / s; vx a 1 / s; vx a 2 / s].
  Definition v3_dot (a b : list T) : T := vx a 0 * vx b 0 + (vx a 1 * vx b 1 + vx a 2 * vx b 2).
  Definition pointLineDistance (A B C : list T) : T :=
    let d := v3_div (v3_sub C B) (v3_norm (v3_sub C B)) in
    let t := v3_dot (v3_sub A B) d in
    v3_norm (v3_sub (v3_add B (v3_scale d t)) A).

  (** 793-807 computePathLength. *)
  Fixpoint path_length_from (last : list T) (ps : list (point T)) (distance : T) : T :=
    match ps with
    | [] => distance
    | p :: ps' => path_length_from (pt_position p) ps' (distance + v3_norm (v3_sub (pt_position p) last))
    end.
  Definition computePathLength (ps : list (point T)) : T :=
    match ps with [] => n0 | p :: ps' => path_length_from (pt_position p) ps' n0 end.

  (** 161-177: the nominal length.  An Eigen::VectorXd that getConstraint does not
      assign is empty, and head(3) of it is undefined, as is vertices[0] of an empty
      vector (vertices.size() - 1 wraps around). *)
  Definition head_of (x : option (list T)) : outcome (list T) :=
    match x with None => UB | Some v => if Nat.ltb (length v) 3 then UB else Ok (firstn 3 v) end.
  Fixpoint first_position (vs : list (vertex T)) : option (list T) :=
    match vs with
    | [] => None
    | v :: vs' => match vertex_get v kPosition with Some x => Some x | None => first_position vs' end
    end.
  Fixpoint nominal_loop (vs : list (vertex T)) (acc : T) : outcome T :=
    match vs with
    | [] => UB
    | [_] => Ok acc
    | v :: vs' =>
        e <-- head_of (first_position vs') ;;
        s <-- head_of (vertex_get v kPosition) ;;
        nominal_loop vs' (acc + v3_norm (v3_sub e s))
    end.
  Definition nominalLength (vs : list (vertex T)) : outcome T := nominal_loop vs n0.

  (** 717-741 computeMinMaxMagnitudeAllSegments: (returned flag, *maxima). *)
  Fixpoint segment_maxima (segs : list (segment T)) (derivative : Z) (dims : list Z) (maxima : list (extremum T))
    : outcome (bool * list (extremum T)) :=
    match segs with
    | [] => Ok (true, maxima)
    | s :: segs' =>
        c <-- seg_candidates rf s derivative n0 (seg_time s) dims ;;
        if fst c then
          match seg_selectMinMax n0 (seg_time s) (snd c) extremum_zero extremum_zero with
          | None => Ok (false, maxima)
          | Some (_, mx) => segment_maxima segs' derivative dims (maxima ++ [mx])
          end
        else Ok (false, maxima)
    end.
  (** 500, 649: the dimensions x, y and z. *)
  Definition xyz : list Z := [0; 1; 2]%Z.

  (** 519-542: the time of one segment after the scaling. *)
  Definition violation_time (t max_v max_a : T) : T :=
    let rel_v := (max_v - v_max) / v_max in
    let rel_a := (max_a - a_max) / a_max in
    nmax kTimeLowerBound (t / (n1 - nmax rel_a rel_v)).

  (** 353-360, 377-385, 583-590: cost of a linear solution with soft constraints. *)
  Definition linear_cost (o : opt T) : outcome T :=
    c1 <-- nl_addConstraint true (set_opt (nl_new 3 default_params) o) kVelocity v_max ;;
    c2 <-- nl_addConstraint true (snd c1) kAcceleration a_max ;;
    r <-- nl_getTotalCost 5 rf fexp (snd c2) ;;
    Ok (snd r).

  (** 348-350, 372-374, 489-491: the linear solution for given times (kN = 10). *)
  Definition linear_run (vs : list (vertex T)) (times : list T) : outcome (opt T) :=
    o <-- opt_setupFromVertices 5 inv (opt_new 3) vs times kJerk ;;
    opt_solveLinear 5 solve o.

  (** 342-362 runNfabian, 364-387 runTrapezoidalTime: (result, *trajectory, *cost). *)
  Definition run_linear (times : outcome (list T)) (vs : list (vertex T)) (tr : trajectory T) : outcome (Z * trajectory T * T) :=
    ts <-- times ;;
    o <-- linear_run vs ts ;;
    tr' <-- opt_getTrajectory o tr ;;
    c <-- linear_cost o ;;
    Ok (1%Z, tr', c).

  (** 483-593 runSegmentViolationScalingTime.  The maxima computed afterwards
      (549-580) are only printed, yet their computation may abort. *)
  Definition run_violation (vs : list (vertex T)) (tr : trajectory T) : outcome (Z * trajectory T * T) :=
    ts <-- estimateSegmentTimes fexp vs v_max a_max ;;
    o <-- linear_run vs ts ;;
    tr1 <-- opt_getTrajectory o tr ;;
    mv <-- segment_maxima (tr_segments tr1) kVelocity xyz [] ;;
    ma <-- segment_maxima (tr_segments tr1) kAcceleration xyz [] ;;
    if negb (Nat.eqb (length ts) (length (snd mv))) then Abort
    else if negb (Nat.eqb (length ts) (length (snd ma))) then Abort
    else
      let ts' := map (fun p => violation_time (fst p) (ext_value (fst (snd p))) (ext_value (snd (snd p))))
                   (combine ts (combine (snd mv) (snd ma))) in
      o1 <-- opt_updateSegmentTimes 5 inv o ts' ;;
      o2 <-- opt_solveLinear 5 solve o1 ;;
      tr2 <-- opt_getTrajectory o2 tr1 ;;
      mv' <-- segment_maxima (tr_segments tr2) kVelocity xyz [] ;;
      ma' <-- segment_maxima (tr_segments tr2) kAcceleration xyz [] ;;
      if Nat.ltb (length (snd mv')) (length (tr_segments tr2)) || Nat.ltb (length (snd ma')) (length (tr_segments tr2)) then UB
      else
        c <-- linear_cost o2 ;;
        Ok (1%Z, tr2, c).

  (** 389-481: the nonlinear runs, with the time allocation method of each. *)
  Definition run_nonlinear (nlopt : nlopt_algorithm (T := T)) (method : time_alloc) (times : outcome (list T))
             (vs : list (vertex T)) (tr : trajectory T) : outcome (Z * trajectory T * T) :=
    ts <-- times ;;
    o <-- nl_setupFromVertices 5 inv (nl_new 3 (mkNlParams (nlit 1 10) (nofZ 500) true (nofZ 100) method)) vs ts kJerk ;;
    o1 <-- nl_addConstraint true o kVelocity v_max ;;
    o2 <-- nl_addConstraint true (snd o1) kAcceleration a_max ;;
    o3 <-- nl_optimize 5 inv solve rf fexp nlopt (snd o2) ;;
    tr' <-- nl_getTrajectory (fst o3) tr ;;
    r <-- nl_getTotalCost 5 rf fexp (fst o3) ;;
    Ok (snd o3, tr', snd r).
  Definition run_method (nlopt : nlopt_algorithm (T := T)) (m : bench_method) (vs : list (vertex T)) (tr : trajectory T)
    : outcome (Z * trajectory T * T) :=
    let nf := estimateSegmentTimes fexp vs v_max a_max in
    let ramp := estimateSegmentTimesVelocityRamp vs v_max a_max n1 in
    match m with
    | Nfabian => run_linear nf vs tr
    | Trapezoidal => run_linear ramp vs tr
    | SegmentViolationScaling => run_violation vs tr
    | NonlinearTimeOnly => run_nonlinear nlopt kSquaredTime nf vs tr
    | NonlinearAll => run_nonlinear nlopt kSquaredTimeAndConstraints nf vs tr
    | NonlinearRichter => run_nonlinear nlopt kRichterTimeAndConstraints nf vs tr
    | MellingerOuterLoop => run_nonlinear nlopt kMellingerOuterLoop nf vs tr
    | MellingerTrapezoidalInit => run_nonlinear nlopt kMellingerOuterLoop ramp vs tr
    end.

  (** 689-711: one segment of the comparison with the straight line; assigning a
      VectorXd of another size to a Vector3d is undefined.  State: max_dist, dist,
      area, point; the loop over t is bounded by fuel (None: bound reached). *)
  Definition line_state : Type := T * T * T * list T.
  Definition eval3 (s : segment T) (t : T) : outcome (list T) :=
    x <-- seg_evaluate s t 0 ;; if Nat.eqb (length x) 3 then Ok x else UB.
  Fixpoint line_loop (fuel : nat) (s : segment T) (a b : list T) (dt t : T) (st : line_state) : outcome (option line_state) :=
    match fuel with
    | O => Ok None
    | S k =>
        if t <? seg_time s then
          let '(max_dist, prev_dist, area, prev_pos) := st in
          p <-- eval3 s t ;;
          let dist := pointLineDistance p a b in
          let max_dist' := if max_dist <? dist then dist else max_dist in
          line_loop k s a b dt (t + dt)
            (max_dist', dist, area + nlit 1 2 * (dist + prev_dist) * v3_norm (v3_sub p prev_pos), p)
        else Ok (Some st)
    end.
  Fixpoint line_segments (fuel : nat) (segs : list (segment T)) (dt : T) (st : line_state) : outcome (option line_state) :=
    match segs with
    | [] => Ok (Some st)
    | s :: segs' =>
        a <-- eval3 s n0 ;;
        b <-- eval3 s (seg_time s) ;;
        let '(max_dist, dist, area, _) := st in
        r <-- line_loop fuel s a b dt n0 (max_dist, dist, area, a) ;;
        match r with
        | None => Ok None
        | Some st' => line_segments fuel segs' dt st'
        end
    end.

  (** 632-715 evaluateTrajectory on *result.  The return value of
      sampleWholeTrajectory is ignored; the maxima over the samples (657-667) are
      not used.  prev_pos and point are uninitialised only before the first
      segment assigns them. *)
  Definition kSample : T := nlit 1 100.
  Definition evaluateTrajectory (fuel : nat) (name : string) (tr : trajectory T) (computation_time : T)
             (result : bench_result T) : outcome (option (bench_result T)) :=
    ps <-- sampleWholeTrajectory mav fuel tr kSample [] ;;
    match ps with
    | None => Ok None
    | Some (_, path) =>
        v <-- traj_minmax rf tr kVelocity xyz extremum_zero extremum_zero ;;
        a <-- traj_minmax rf tr kAcceleration xyz extremum_zero extremum_zero ;;
        let vm := ext_value (snd v) in
        let am := ext_value (snd a) in
        let violated := (v_max + nlit 1 10000 <? vm) || (a_max + nlit 1 10000 <? am) in
        r <-- line_segments fuel (tr_segments tr) kSample (n0, n0, n0, []) ;;
        match r with
        | None => Ok None
        | Some (max_dist, _, area, _) =>
            Ok (Some (mkResult (br_trial result) name (br_segments result) (br_nominal result) (br_success result) violated
                        (tr_max_time tr) (computePathLength path) computation_time vm am (br_cost result) max_dist area))
        end
    end.

  (** 743-780 createMarkerForPath: every tenth point whose coordinates are within
      100 m.  maxCoeff and minCoeff by comparisons in index order. *)
  Definition coeff_extremum (pick : T -> T -> bool) (x : list T) : T :=
    fold_left (fun m c => if pick m c then c else m) (tl x) (vx x 0).
  Definition maxCoeff := coeff_extremum (fun m c => m <? c).
  Definition minCoeff := coeff_extremum (fun m c => c <? m).
  Fixpoint marker_points (ps : list (point T)) (i : nat) : list (list T) :=
    match ps with
    | [] => []
    | p :: ps' =>
        if negb (Nat.eqb (Nat.modulo (S i) 10) 0) then marker_points ps' (S i)
        else if (nofZ 100 <? maxCoeff (pt_position p)) || (minCoeff (pt_position p) <? - nofZ 100) then marker_points ps' (S i)
        else point_msg (pt_position p) :: marker_points ps' (S i)
    end.
  Definition createMarkerForPath (ps : list (point T)) (color : list T) (name frame : string) (scale : T) : marker T :=
    let m := marker_new in
    set_points (set_scale (set_ns (set_color (set_type (set_frame m frame) kLINE_STRIP) color) name) [scale; vx (mk_scale m) 1; vx (mk_scale m) 2])
      (marker_points ps 0).

  (** 595-630 visualizeTrajectory; helpers.h:40-51 the colours. *)
  Definition method_color (m : bench_method) : list T :=
    match m with
    | Nfabian => rgb n1 n1 n0 | Trapezoidal => rgb n0 n1 n1 | SegmentViolationScaling => rgb n1 n0 (nlit 1 2)
    | NonlinearTimeOnly => rgb (nlit 1 2) n0 n1 | NonlinearAll => Red | NonlinearRichter => Blue
    | MellingerOuterLoop => Orange | MellingerTrapezoidalInit => rgb (nlit 1 2) (nlit 1 2) (nlit 1 2)
    end.
  Definition visualizeTrajectory (fuel : nat) (m : bench_method) (tr : trajectory T) (frame : string) (arr : list (marker T))
    : outcome (option (list (marker T))) :=
    ps <-- sampleWholeTrajectory mav fuel tr (nlit 1 10) [] ;;
    match ps with
    | None => Ok None
    | Some (_, path) => Ok (Some (arr ++ [createMarkerForPath path (method_color m) (method_name m) frame (nlit 5 100)]))
    end.

  (** 189-336: one method after the other; clock: the measured computation time of
      each.  result is reused. *)
  Fixpoint bench_loop (fuel : nat) (nlopt : bench_method -> nlopt_algorithm (T := T)) (clock : bench_method -> T) (visualize : bool)
           (frame : string) (vs : list (vertex T)) (ms : list bench_method) (result : bench_result T)
           (results : list (bench_result T)) (markers : list (marker T))
    : outcome (option (list (bench_result T) * list (marker T))) :=
    match ms with
    | [] => Ok (Some (results, markers))
    | m :: ms' =>
        r <-- run_method (nlopt m) m vs traj_new ;;
        let '(success, tr, cost) := r in
        let result1 := mkResult (br_trial result) (br_method result) (br_segments result) (br_nominal result) success (br_violated result)
                         (br_time result) (br_length result) (br_computation result) (br_v_max result) (br_a_max result) cost
                         (br_max_dist result) (br_area result) in
        e <-- evaluateTrajectory fuel (method_name m) tr (clock m) result1 ;;
        match e with
        | None => Ok None
        | Some result2 =>
            v <-- (if visualize then visualizeTrajectory fuel m tr frame markers else Ok (Some markers)) ;;
            match v with
            | None => Ok None
            | Some markers' => bench_loop fuel nlopt clock visualize frame vs ms' result2 (results ++ [result2]) markers'
            end
        end
    end.
  (** 143-340 runBenchmark for given vertices (152-153 createRandomVertices is
      modelled in ModelVertex): the vector results_ and the published markers. *)
  Definition runBenchmark (fuel : nat) (nlopt : bench_method -> nlopt_algorithm (T := T)) (clock : bench_method -> T) (visualize : bool)
             (frame : string) (trial segments : Z) (vs : list (vertex T)) (results : list (bench_result T))
    : outcome (option (list (bench_result T) * list (marker T))) :=
    nominal <-- nominalLength vs ;;
    let result := mkResult trial "none" segments nominal 0 false n0 n0 n0 n0 n0 n0 n0 n0 in
    let markers := if visualize
                   then map (fun m => set_scale m [nlit 1 10; vx (mk_scale m) 1; vx (mk_scale m) 2]) (drawVertices vs frame [])
                   else [] in
    bench_loop fuel nlopt clock visualize frame vs all_methods result results markers.
End Bench.
