(** Model of the example planners
    (mav_trajectory_generation_example/src/example_planner.cc and
     example_planner_6dof.cc).  Publishers, subscribers, log output and the
    parameter server are not modelled: the limits are what the constructor
    ended up with. *)
From Coq Require Import ZArith List Bool.
From Verif Require Import Num ModelPolynomial ModelSegment ModelVertex ModelTrajectory ModelLinear ModelNonlinear.
Import ListNotations.

(** motion_defines.h:33 derivative_order::SNAP. *)
Definition kSnap : Z := 4.

(** example_planner.h:36-48 the members that planTrajectory reads.  A is the type
    of current_pose_.rotation(). *)
Record planner (T A : Type) := mkPlanner {
  pl_position : list T;          (* current_pose_.translation() *)
  pl_rotation : A;               (* current_pose_.rotation() *)
  pl_velocity : list T;
  pl_angular : list T;           (* current_angular_velocity_ *)
  pl_max_v : T;
  pl_max_a : T;
  pl_max_ang_v : T;
  pl_max_ang_a : T
}.
Arguments mkPlanner {T A} _ _ _ _ _ _ _ _.
Arguments pl_position {T A} _. Arguments pl_rotation {T A} _. Arguments pl_velocity {T A} _.
Arguments pl_angular {T A} _. Arguments pl_max_v {T A} _. Arguments pl_max_a {T A} _.
Arguments pl_max_ang_v {T A} _. Arguments pl_max_ang_a {T A} _.

Section Planner.
  Context {T : Type} {ops : NumOps T}.
  Local Open Scope num_scope.
  (** inv, solve, rf, fexp as in ModelNonlinear. *)
  Context (inv : mat T -> mat T) (solve : mat T -> list T -> list T).
  Context (rf : root_oracle (T := T)) (fexp : T -> T).

  (** polynomial_optimization_nonlinear.h:34-99 the default values. *)
  Definition default_params : nl_params T :=
    mkNlParams (nlit 1 10) (nofZ 500) true (nofZ 100) kSquaredTimeAndConstraints.

  (** example_planner.cc:65-90, example_planner_6dof.cc:142-153 one of the two
      vertices. *)
  Definition endpoint (dim : nat) (pos vel : list T) : outcome (vertex T) :=
    v <-- vertex_makeStartOrEnd (vertex_new dim) pos kSnap ;;
    vertex_add v kVelocity vel.

  (** example_planner.cc:60-114, example_planner_6dof.cc:132-175: the steps that
      both files share, up to getTrajectory; N = 10.  The results of
      addMaximumMagnitudeConstraint and of optimize() are ignored.  Soft
      constraints are not registered with nlopt, so the first argument of
      nl_addConstraint is irrelevant. *)
  Definition plan_optimized (nlopt : nlopt_algorithm (T := T)) (dim : nat)
             (start_pos start_vel goal_pos goal_vel : list T) (v_max a_max : T)
             (tr : trajectory T) : outcome (trajectory T) :=
    s <-- endpoint dim start_pos start_vel ;;
    e <-- endpoint dim goal_pos goal_vel ;;
    times <-- estimateSegmentTimes fexp [s; e] v_max a_max ;;
    o <-- nl_setupFromVertices 5 inv (nl_new dim default_params) [s; e] times kSnap ;;
    o1 <-- nl_addConstraint true o kVelocity v_max ;;
    o2 <-- nl_addConstraint true (snd o1) kAcceleration a_max ;;
    o3 <-- nl_optimize 5 inv solve rf fexp nlopt (snd o2) ;;
    nl_getTrajectory (fst o3) tr.

  (** example_planner.cc:48-117 planTrajectory. *)
  Definition plan_simple {A : Type} (nlopt : nlopt_algorithm (T := T)) (p : planner T A)
             (goal_pos goal_vel : list T) (tr : trajectory T) : outcome (bool * trajectory T) :=
    tr' <-- plan_optimized nlopt 3 (pl_position p) (pl_velocity p) goal_pos goal_vel
              (pl_max_v p) (pl_max_a p) tr ;;
    Ok (true, tr').

  (** example_planner_6dof.cc:122-179 planTrajectory with explicit start; the
      result of scaleSegmentTimesToMeetConstraints is ignored. *)
  Definition plan_from_to (nlopt : nlopt_algorithm (T := T))
             (goal_pos goal_vel start_pos start_vel : list T) (v_max a_max : T)
             (tr : trajectory T) : outcome (bool * trajectory T) :=
    tr1 <-- plan_optimized nlopt (length goal_pos) start_pos start_vel goal_pos goal_vel v_max a_max tr ;;
    r <-- traj_scaleToMeet rf tr1 v_max a_max ;;
    Ok (true, snd r).

  (** Eigen head(3), tail(3) assigned to a Vector3d. *)
  Definition head3 (x : list T) : outcome (list T) :=
    if Nat.ltb (length x) 3 then UB else Ok (firstn 3 x).
  Definition tail3 (x : list T) : outcome (list T) :=
    if Nat.ltb (length x) 3 then UB else Ok (skipn (length x - 3) x).

  (** example_planner_6dof.cc:57-119 planTrajectory.  rotvec:
      mav_msgs::vectorFromRotationMatrix; yaw: mav_msgs::yawFromQuaternion after
      the conversion to a quaternion.  nlopt, nlopt': the behaviour of nlopt in
      the first and in the second optimisation.  If
      getTrajectoryWithAppendedDimension returns false the output stays
      cleared. *)
  Definition plan_6dof {A : Type} (rotvec : A -> list T) (yaw : A -> T)
             (nlopt nlopt' : nlopt_algorithm (T := T)) (p : planner T A)
             (goal_pos goal_vel : list T) (tr : trajectory T) : outcome (bool * trajectory T) :=
    let tr0 := traj_clear tr in
    if Nat.eqb (length goal_pos) 6 then
      gp <-- head3 goal_pos ;;
      gv <-- head3 goal_vel ;;
      trans <-- plan_from_to nlopt gp gv (pl_position p) (pl_velocity p) (pl_max_v p) (pl_max_a p) traj_new ;;
      gr <-- tail3 goal_pos ;;
      ga <-- tail3 goal_vel ;;
      rot <-- plan_from_to nlopt' gr ga (rotvec (pl_rotation p)) (pl_angular p)
                (pl_max_ang_v p) (pl_max_ang_a p) traj_new ;;
      r <-- traj_append (snd trans) (snd rot) ;;
      match r with
      | Some tr' => Ok (fst trans && fst rot, tr')
      | None => Ok (false, tr0)
      end
    else if Nat.eqb (length goal_pos) 3 then
      plan_from_to nlopt goal_pos goal_vel (pl_position p) (pl_velocity p) (pl_max_v p) (pl_max_a p) tr0
    else if Nat.eqb (length goal_pos) 4 then
      plan_from_to nlopt goal_pos goal_vel (pl_position p ++ [yaw (pl_rotation p)])
        (pl_velocity p ++ [n0]) (pl_max_v p) (pl_max_a p) tr0
    else Ok (false, tr0).
End Planner.
