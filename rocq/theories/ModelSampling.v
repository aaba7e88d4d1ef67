(** Model of mav_trajectory_generation/src/trajectory_sampling.cpp and of
    sampledTrajectoryStatesToFile (mav_trajectory_generation/src/io.cpp). *)
From Coq Require Import ZArith List Bool String.
From Verif Require Import Num ModelPolynomial ModelSegment ModelVertex ModelTrajectory ModelIO.
Import ListNotations.
Notation length := List.length.

(** mav_msgs::EigenTrajectoryPoint (mav_msgs is not part of the repository):
    the members used in trajectory_sampling.cpp:78-106, 149-178.  Vectors as
    lists; the orientation as its w, x, y, z. *)
Inductive dof := DOF4 | DOF6.
Record point (T : Type) := mkPoint {
  pt_time_ns : Z;
  pt_position : list T;
  pt_velocity : list T;
  pt_acceleration : list T;
  pt_jerk : list T;
  pt_snap : list T;
  pt_orientation : list T;
  pt_angular_velocity : list T;
  pt_angular_acceleration : list T;
  pt_dof : dof
}.
Arguments mkPoint {T}. Arguments pt_time_ns {T}. Arguments pt_position {T}. Arguments pt_velocity {T}.
Arguments pt_acceleration {T}. Arguments pt_jerk {T}. Arguments pt_snap {T}. Arguments pt_orientation {T}.
Arguments pt_angular_velocity {T}. Arguments pt_angular_acceleration {T}. Arguments pt_dof {T}.

(** Functions of mav_msgs called at trajectory_sampling.cpp:88-105, 159-175;
    arguments of the model: setFromYaw, setFromYawRate, setFromYawAcc as the
    orientation, angular velocity and angular acceleration they store, the
    quaternion of matrixFromRotationVector, omegaFromRotationVector and
    omegaDotFromRotationVector. *)
Record mav_functions (T : Type) := mkMav {
  mav_yaw : T -> list T;
  mav_yaw_rate : T -> list T;
  mav_yaw_acc : T -> list T;
  mav_rotation : list T -> list T;
  mav_omega : list T -> list T -> list T;
  mav_omega_dot : list T -> list T -> list T -> list T
}.
Arguments mav_yaw {T}. Arguments mav_yaw_rate {T}. Arguments mav_yaw_acc {T}. Arguments mav_rotation {T}.
Arguments mav_omega {T}. Arguments mav_omega_dot {T}.

Section Sampling.
  Context {T : Type} {ops : NumOps T}.
  Local Open Scope num_scope.
  Variable mav : mav_functions T.

  (** mav_msgs::EigenTrajectoryPoint(): zero vectors, identity orientation. *)
  Definition point_new : point T :=
    let z := [n0; n0; n0] in mkPoint 0 z z z z z [n1; n0; n0; n0] z z DOF4.

  (** static_cast<int64_t>(double): undefined when out of range. *)
  Definition to_int64 (x : T) : outcome Z :=
    match ntoZ x with
    | Some z => if ((- 2 ^ 63 <=? z) && (z <? 2 ^ 63))%Z then Ok z else UB
    | None => UB
    end.

  (** Eigen's v.tail(3) and v.tail<3>(). *)
  Definition vec_tail3 (v : list T) : outcome (list T) :=
    if Nat.ltb (length v) 3 then UB else Ok (skipn (length v - 3) v).

  (** trajectory_sampling.cpp:78-106 and 149-178: the state from the position,
      velocity, acceleration, jerk and snap vectors of a D-dimensional object.
      Members that are not assigned keep their value. *)
  Definition fill_state (D : nat) (p v a j s : list T) (label : T) (st : point T) : outcome (point T) :=
    p3 <-- vec_head p 3 ;; v3 <-- vec_head v 3 ;; a3 <-- vec_head a 3 ;; j3 <-- vec_head j 3 ;; s3 <-- vec_head s 3 ;;
    ns <-- to_int64 (label * nofZ (10 ^ 9)) ;;
    if Nat.eqb D 4 then
      y <-- oget p 3 ;; yr <-- oget v 3 ;; ya <-- oget a 3 ;;
      Ok (mkPoint ns p3 v3 a3 j3 s3 (mav_yaw mav y) (mav_yaw_rate mav yr) (mav_yaw_acc mav ya) DOF4)
    else if Nat.eqb D 6 then
      r <-- vec_tail3 p ;; rv <-- vec_tail3 v ;; ra <-- vec_tail3 a ;;
      Ok (mkPoint ns p3 v3 a3 j3 s3 (mav_rotation mav r) (mav_omega mav r rv) (mav_omega_dot mav r rv ra) DOF6)
    else Ok (mkPoint ns p3 v3 a3 j3 s3 (pt_orientation st) (pt_angular_velocity st) (pt_angular_acceleration st) DOF4).

  (** trajectory_sampling.cpp:141-182 sampleFlatStateAtTime, for the D() and
      evaluate() of a trajectory or segment. *)
  Definition sampleFlatState (D : nat) (evaluate : Z -> outcome (list T)) (t : T) (st : point T)
    : outcome (bool * point T) :=
    if Nat.ltb D 3 then Ok (false, st)
    else
      p <-- evaluate 0%Z ;; v <-- evaluate 1%Z ;; a <-- evaluate 2%Z ;; j <-- evaluate 3%Z ;; s <-- evaluate 4%Z ;;
      st' <-- fill_state D p v a j s t st ;;
      Ok (true, st').

  (** trajectory_sampling.cpp:27-43 sampleTrajectoryAtTime.  getMinTime() is 0.0
      (trajectory.h:81). *)
  Definition sampleTrajectoryAtTime (tr : trajectory T) (t : T) (st : point T) : outcome (bool * point T) :=
    if (t <? n0) || (tr_max_time tr <? t) then Ok (false, st)
    else if Nat.ltb (tr_D tr) 3 then Ok (false, st)
    else sampleFlatState (tr_D tr) (traj_evaluate tr t) t st.

  (** trajectory_sampling.cpp:129-139 sampleSegmentAtTime. *)
  Definition sampleSegmentAtTime (s : segment T) (t : T) (st : point T) : outcome (bool * point T) :=
    if (t <? n0) || (seg_time s <? t) then Ok (false, st)
    else sampleFlatState (seg_D s) (seg_evaluate s t) t st.

  (** Element i of one of the vectors of samples. *)
  Definition sample_at (vs : list (list T)) (i : nat) : outcome (list T) := oget vs i.

  (** trajectory_sampling.cpp:45-110 sampleTrajectoryInRange.  The samples of
      evaluateRange are bounded by fuel (None: bound reached).  states->resize
      keeps the first elements of the vector. *)
  Definition sampleTrajectoryInRange (fuel : nat) (tr : trajectory T) (min_time max_time dt : T)
             (states : list (point T)) : outcome (option (bool * list (point T))) :=
    if (min_time <? n0) || (tr_max_time tr <? max_time) then Ok (Some (false, states))
    else if Nat.ltb (tr_D tr) 3 then Ok (Some (false, states))
    else
      let range d := traj_evaluateRange fuel tr min_time max_time dt d in
      rp <-- range 0%Z ;; rv <-- range 1%Z ;; ra <-- range 2%Z ;; rj <-- range 3%Z ;; rs <-- range 4%Z ;;
      match rp, rv, ra, rj, rs with
      | Some (ps, _), Some (vs, _), Some (acs, _), Some (js, _), Some (ss, _) =>
          sts <-- omap (fun i =>
            p <-- sample_at ps i ;; v <-- sample_at vs i ;; a <-- sample_at acs i ;; j <-- sample_at js i ;; s <-- sample_at ss i ;;
            fill_state (tr_D tr) p v a j s (min_time + dt * nofZ (Z.of_nat i)) (nth i states point_new))
            (seq 0 (length ps)) ;;
          Ok (Some (true, sts))
      | _, _, _, _, _ => Ok None
      end.

  (** trajectory_sampling.cpp:112-117 sampleTrajectoryStartDuration. *)
  Definition sampleTrajectoryStartDuration (fuel : nat) (tr : trajectory T) (start_time duration dt : T) (states : list (point T)) :=
    sampleTrajectoryInRange fuel tr start_time (start_time + duration) dt states.
  (** trajectory_sampling.cpp:119-127 sampleWholeTrajectory. *)
  Definition sampleWholeTrajectory (fuel : nat) (tr : trajectory T) (dt : T) (states : list (point T)) :=
    sampleTrajectoryInRange fuel tr n0 (tr_max_time tr) dt states.

  (** io.cpp:237-260: the columns of a row before the last one. *)
  Definition state_row (st : point T) : list T :=
    nofZ (pt_time_ns st) :: pt_position st ++ pt_velocity st ++ pt_acceleration st ++ pt_jerk st ++ pt_snap st ++
      pt_orientation st ++ pt_angular_velocity st ++ pt_angular_acceleration st.
  (** io.cpp:262-270: the running sum of the segment times goes into the last
      column, from row j on; a row that does not exist is undefined behaviour. *)
  Fixpoint segment_time_column (segs : list (segment T)) (rows : nat) (j : nat) (current : T) : outcome (list T) :=
    match segs with
    | [] => Ok []
    | s :: segs' =>
        let current' := current + seg_time s in
        if Nat.ltb j rows then (rest <-- segment_time_column segs' rows (S j) current' ;; Ok (current' :: rest)) else UB
    end.
  (** io.cpp:221-279 sampledTrajectoryStatesToFile; the text of a matrix and
      whether the file can be opened are arguments. *)
  Definition sampledTrajectoryStatesToFile (text : list (list T) -> string) (writable : bool) (fuel : nat) (fs : files)
             (filename : string) (tr : trajectory T) : outcome (option (bool * files)) :=
    r <-- sampleWholeTrajectory fuel tr (nlit 1 100) [] ;;
    match r with
    | None => Ok None
    | Some (false, _) => Ok (Some (false, fs))
    | Some (true, states) =>
        column <-- segment_time_column (tr_segments tr) (length states) 0 n0 ;;
        let rows := map (fun i => state_row (nth i states point_new) ++ [nth i column n0]) (seq 0 (length states)) in
        if writable then Ok (Some (true, fun f => if String.eqb f filename then Some (text rows) else fs f))
        else Ok (Some (false, fs))
    end.
End Sampling.
