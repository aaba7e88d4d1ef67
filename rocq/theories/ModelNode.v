(** Model of mav_trajectory_generation_ros/src/trajectory_sampler_node.cpp. *)
From Coq Require Import ZArith List Bool.
From Verif Require Import Num ModelPolynomial ModelSegment ModelVertex ModelTrajectory ModelSampling ModelMsgs.
Import ListNotations.

(** trajectory_sampler_node.h:60-79: the members that change what is published:
    publish_whole_trajectory_, dt_, current_sample_time_, trajectory_ and whether
    publish_timer_ is running.  start_time_ is written but not read. *)
Record node (T : Type) := mkNode {
  nd_whole : bool;
  nd_dt : T;
  nd_time : T;
  nd_trajectory : trajectory T;
  nd_running : bool
}.
Arguments mkNode {T}. Arguments nd_whole {T}. Arguments nd_dt {T}. Arguments nd_time {T}.
Arguments nd_trajectory {T}. Arguments nd_running {T}.

(** What leaves the node: a call of the position-hold service
    (trajectory_sampler_node.cpp:94), a message with one state and its
    time_from_start (127-129), a message with a list of states (103-104).  The
    conversion of states to ROS messages is outside the repository; the
    time_from_start is the argument of ros::Duration. *)
Inductive output (T : Type) :=
| PositionHold
| PublishPoint (time_from_start : T) (st : point T)
| PublishWhole (sts : list (point T)).
Arguments PositionHold {T}. Arguments PublishPoint {T}. Arguments PublishWhole {T}.

(** The callbacks of the node (36-49), called one after the other by ros::spin
    (142).  A message comes with the answer of position_hold_client_.exists()
    (92) at that time.  Messages are the lists of their segments. *)
Inductive event (M M4 : Type) :=
| PathSegments (hold : bool) (msg : list M)
| PathSegments4D (hold : bool) (msg : list M4)
| StopSampling
| Tick.
Arguments PathSegments {M M4}. Arguments PathSegments4D {M M4}. Arguments StopSampling {M M4}. Arguments Tick {M M4}.

Section Node.
  Context {T M M4 : Type} {ops : NumOps T}.
  Variable mav : mav_functions T.
  Variable dec : M -> outcome (eigen_segment T).
  Variable dec4 : M4 -> outcome (eigen_segment T).
  (** Bound on the number of samples of sampleWholeTrajectory. *)
  Variable fuel : nat.

  (** trajectory_sampler_node.cpp:23-50; dt and whole are the parameters
      (defaults 0.01 and false).  The timer does not start by itself (46). *)
  Definition node_new (whole : bool) (dt : T) : node T := mkNode whole dt n0 traj_new false.

  (** trajectory_sampler_node.cpp:90-110.  None: bound reached.  The result of
      sampleWholeTrajectory is not looked at (100). *)
  Definition processTrajectory (hold : bool) (n : node T) : outcome (option (node T * list (output T))) :=
    let out := if hold then [PositionHold] else [] in
    if nd_whole n then
      r <-- sampleWholeTrajectory mav fuel (nd_trajectory n) (nd_dt n) [] ;;
      match r with
      | None => Ok None
      | Some (_, sts) => Ok (Some (n, out ++ [PublishWhole sts]))
      end
    else Ok (Some (mkNode (nd_whole n) (nd_dt n) n0 (nd_trajectory n) true, out)).

  (** trajectory_sampler_node.cpp:54-70 and 72-88, for the conversion of the
      message type. *)
  Definition segments_callback {A : Type} (convert : list A -> trajectory T -> outcome (bool * trajectory T))
             (hold : bool) (msg : list A) (n : node T) : outcome (option (node T * list (output T))) :=
    match msg with
    | [] => Ok (Some (n, []))
    | _ =>
        r <-- convert msg (nd_trajectory n) ;;
        let n' := mkNode (nd_whole n) (nd_dt n) (nd_time n) (snd r) (nd_running n) in
        if fst r then processTrajectory hold n' else Ok (Some (n', []))
    end.
  (** trajectory_sampler_node.cpp:54-70. *)
  Definition pathSegmentsCallback := segments_callback (msgToTrajectory dec).
  (** trajectory_sampler_node.cpp:72-88. *)
  Definition pathSegments4DCallback := segments_callback (msgToTrajectory4D dec4).

  (** trajectory_sampler_node.cpp:112-116. *)
  Definition stopSamplingCallback (n : node T) : node T :=
    mkNode (nd_whole n) (nd_dt n) (nd_time n) (nd_trajectory n) false.

  (** trajectory_sampler_node.cpp:118-134.  The state is published also when
      sampling failed (124-129). *)
  Definition commandTimerCallback (n : node T) : outcome (node T * list (output T)) :=
    if nleb (nd_time n) (tr_max_time (nd_trajectory n)) then
      r <-- sampleTrajectoryAtTime mav (nd_trajectory n) (nd_time n) point_new ;;
      Ok (mkNode (nd_whole n) (nd_dt n) (nadd (nd_time n) (nd_dt n)) (nd_trajectory n)
            (if fst r then nd_running n else false),
          [PublishPoint (nd_time n) (snd r)])
    else Ok (stopSamplingCallback n, []).

  (** One callback of ros::spin (trajectory_sampler_node.cpp:142).  A ros::Timer
      calls back only between start() and stop(): a tick of a timer that does not
      run is no call. *)
  Definition node_step (n : node T) (e : event M M4) : outcome (option (node T * list (output T))) :=
    match e with
    | PathSegments hold msg => pathSegmentsCallback hold msg n
    | PathSegments4D hold msg => pathSegments4DCallback hold msg n
    | StopSampling => Ok (Some (stopSamplingCallback n, []))
    | Tick => if nd_running n then r <-- commandTimerCallback n ;; Ok (Some r) else Ok (Some (n, []))
    end.
  (** trajectory_sampler_node.cpp:136-143: the outputs of every callback. *)
  Fixpoint node_run (n : node T) (es : list (event M M4)) : outcome (option (node T * list (list (output T)))) :=
    match es with
    | [] => Ok (Some (n, []))
    | e :: es' =>
        r <-- node_step n e ;;
        match r with
        | None => Ok None
        | Some (n', out) =>
            r' <-- node_run n' es' ;;
            match r' with
            | None => Ok None
            | Some (n'', outs) => Ok (Some (n'', out :: outs))
            end
        end
    end.
End Node.
