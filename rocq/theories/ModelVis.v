(** Model of mav_visualization/src/marker_group.cpp, hexacopter_marker.cpp,
    leica_marker.cpp, mav_visualization/include/mav_visualization/helpers.h and
    mav_trajectory_generation_ros/src/ros_visualization.cpp. *)
From Coq Require Import ZArith List Bool String.
From Verif Require Import Num ModelPolynomial ModelSegment ModelVertex ModelTrajectory ModelSampling ModelMotion.
Import ListNotations.
Notation length := List.length.

(** visualization_msgs::Marker (not part of the repository): the members the code
    uses.  The header is its frame_id (stamp and seq are left out); vectors and
    points as lists x, y, z, quaternions as w, x, y, z, colours as r, g, b, a.
    Colours are float32 in the message; the conversion is left out. *)
Record marker (T : Type) := mkMarker {
  mk_frame : string;
  mk_ns : string;
  mk_id : Z;
  mk_type : Z;
  mk_action : Z;
  mk_position : list T;
  mk_orientation : list T;
  mk_scale : list T;
  mk_color : list T;
  mk_lifetime : T;
  mk_locked : bool;
  mk_points : list (list T);
  mk_colors : list (list T);
  mk_mesh : string
}.
Arguments mkMarker {T}. Arguments mk_frame {T}. Arguments mk_ns {T}. Arguments mk_id {T}. Arguments mk_type {T}.
Arguments mk_action {T}. Arguments mk_position {T}. Arguments mk_orientation {T}. Arguments mk_scale {T}.
Arguments mk_color {T}. Arguments mk_lifetime {T}. Arguments mk_locked {T}. Arguments mk_points {T}.
Arguments mk_colors {T}. Arguments mk_mesh {T}.

(** Constants of visualization_msgs/Marker.msg. *)
Definition kARROW : Z := 0.
Definition kCUBE : Z := 1.
Definition kCYLINDER : Z := 3.
Definition kLINE_STRIP : Z := 4.
Definition kLINE_LIST : Z := 5.
Definition kMESH_RESOURCE : Z := 10.
Definition kADD : Z := 0.

Section Vis.
  Context {T : Type} {ops : NumOps T}.
  Local Open Scope num_scope.

  (** visualization_msgs::Marker(): every number zero, every string empty (also the
      orientation is 0, 0, 0, 0). *)
  Definition marker_new : marker T :=
    mkMarker "" "" 0 0 0 [n0; n0; n0] [n0; n0; n0; n0] [n0; n0; n0] [n0; n0; n0; n0] n0 false [] [] "".

  (** Assignments to members of a marker, as made throughout the files cited at the top
      (one definition per member; the other members keep their values). *)
  Definition set_frame (m : marker T) f := mkMarker f (mk_ns m) (mk_id m) (mk_type m) (mk_action m) (mk_position m) (mk_orientation m) (mk_scale m) (mk_color m) (mk_lifetime m) (mk_locked m) (mk_points m) (mk_colors m) (mk_mesh m).
  Definition set_ns (m : marker T) s := mkMarker (mk_frame m) s (mk_id m) (mk_type m) (mk_action m) (mk_position m) (mk_orientation m) (mk_scale m) (mk_color m) (mk_lifetime m) (mk_locked m) (mk_points m) (mk_colors m) (mk_mesh m).
  Definition set_id (m : marker T) i := mkMarker (mk_frame m) (mk_ns m) i (mk_type m) (mk_action m) (mk_position m) (mk_orientation m) (mk_scale m) (mk_color m) (mk_lifetime m) (mk_locked m) (mk_points m) (mk_colors m) (mk_mesh m).
  Definition set_type (m : marker T) y := mkMarker (mk_frame m) (mk_ns m) (mk_id m) y (mk_action m) (mk_position m) (mk_orientation m) (mk_scale m) (mk_color m) (mk_lifetime m) (mk_locked m) (mk_points m) (mk_colors m) (mk_mesh m).
  Definition set_action (m : marker T) a := mkMarker (mk_frame m) (mk_ns m) (mk_id m) (mk_type m) a (mk_position m) (mk_orientation m) (mk_scale m) (mk_color m) (mk_lifetime m) (mk_locked m) (mk_points m) (mk_colors m) (mk_mesh m).
  Definition set_pose (m : marker T) p q := mkMarker (mk_frame m) (mk_ns m) (mk_id m) (mk_type m) (mk_action m) p q (mk_scale m) (mk_color m) (mk_lifetime m) (mk_locked m) (mk_points m) (mk_colors m) (mk_mesh m).
  Definition set_scale (m : marker T) s := mkMarker (mk_frame m) (mk_ns m) (mk_id m) (mk_type m) (mk_action m) (mk_position m) (mk_orientation m) s (mk_color m) (mk_lifetime m) (mk_locked m) (mk_points m) (mk_colors m) (mk_mesh m).
  Definition set_color (m : marker T) c := mkMarker (mk_frame m) (mk_ns m) (mk_id m) (mk_type m) (mk_action m) (mk_position m) (mk_orientation m) (mk_scale m) c (mk_lifetime m) (mk_locked m) (mk_points m) (mk_colors m) (mk_mesh m).
  Definition set_life (m : marker T) l := mkMarker (mk_frame m) (mk_ns m) (mk_id m) (mk_type m) (mk_action m) (mk_position m) (mk_orientation m) (mk_scale m) (mk_color m) l (mk_locked m) (mk_points m) (mk_colors m) (mk_mesh m).
  Definition set_locked (m : marker T) b := mkMarker (mk_frame m) (mk_ns m) (mk_id m) (mk_type m) (mk_action m) (mk_position m) (mk_orientation m) (mk_scale m) (mk_color m) (mk_lifetime m) b (mk_points m) (mk_colors m) (mk_mesh m).
  Definition set_points (m : marker T) ps := mkMarker (mk_frame m) (mk_ns m) (mk_id m) (mk_type m) (mk_action m) (mk_position m) (mk_orientation m) (mk_scale m) (mk_color m) (mk_lifetime m) (mk_locked m) ps (mk_colors m) (mk_mesh m).
  Definition set_colors (m : marker T) cs := mkMarker (mk_frame m) (mk_ns m) (mk_id m) (mk_type m) (mk_action m) (mk_position m) (mk_orientation m) (mk_scale m) (mk_color m) (mk_lifetime m) (mk_locked m) (mk_points m) cs (mk_mesh m).
  Definition set_mesh (m : marker T) s := mkMarker (mk_frame m) (mk_ns m) (mk_id m) (mk_type m) (mk_action m) (mk_position m) (mk_orientation m) (mk_scale m) (mk_color m) (mk_lifetime m) (mk_locked m) (mk_points m) (mk_colors m) s.

  (** Eigen::Vector3d: element access, sum, difference, product with a number,
      cross product, norm (squared elements summed as x + (y + z), the order of the
      reduction of a vector of three; with vector instructions the order may differ);
      used at ros_visualization.cpp:147, 163, 171 and helpers.h:160-165.
      tf::pointEigenToMsg (ros_visualization.cpp:184) copies the elements. *)
  Definition vx (v : list T) (i : nat) : T := nth i v n0.
  Definition v3_add (a b : list T) : list T := [vx a 0 + vx b 0; vx a 1 + vx b 1; vx a 2 + vx b 2].
  Definition v3_sub (a b : list T) : list T := [vx a 0 - vx b 0; vx a 1 - vx b 1; vx a 2 - vx b 2].
  Definition v3_scale (a : list T) (s : T) : list T := [vx a 0 * s; vx a 1 * s; vx a 2 * s].
  Definition v3_cross (a b : list T) : list T :=
    [vx a 1 * vx b 2 - vx a 2 * vx b 1; vx a 2 * vx b 0 - vx a 0 * vx b 2; vx a 0 * vx b 1 - vx a 1 * vx b 0].
  Definition v3_norm (a : list T) : T := nsqrt (vx a 0 * vx a 0 + (vx a 1 * vx a 1 + vx a 2 * vx a 2)).
  Definition point_msg (a : list T) : list T := [vx a 0; vx a 1; vx a 2].
  (** Eigen::Quaterniond times a vector (_transformVector): v + w uv + vec x uv with
      uv = 2 vec x v; and the product of two quaternions; used at marker_group.cpp:117-118
      and helpers.h:160-165. *)
  Definition q_vec (q : list T) : list T := [vx q 1; vx q 2; vx q 3].
  Definition q_rotate (q v : list T) : list T :=
    let uv0 := v3_cross (q_vec q) v in
    let uv := v3_add uv0 uv0 in
    v3_add (v3_add v (v3_scale uv (vx q 0))) (v3_cross (q_vec q) uv).
  Definition q_mult (a b : list T) : list T :=
    [vx a 0 * vx b 0 - vx a 1 * vx b 1 - vx a 2 * vx b 2 - vx a 3 * vx b 3;
     vx a 0 * vx b 1 + vx a 1 * vx b 0 + vx a 2 * vx b 3 - vx a 3 * vx b 2;
     vx a 0 * vx b 2 + vx a 2 * vx b 0 + vx a 3 * vx b 1 - vx a 1 * vx b 3;
     vx a 0 * vx b 3 + vx a 3 * vx b 0 + vx a 1 * vx b 2 - vx a 2 * vx b 1].

  (** helpers.h:29-51: class Color; only the colours used below. *)
  Definition rgb (r g b : T) : list T := [r; g; b; n1].
  Definition Black := rgb n0 n0 n0.
  Definition Red := rgb n1 n0 n0.
  Definition Green := rgb n0 n1 n0.
  Definition Blue := rgb n0 n0 n1.
  Definition Orange := rgb n1 (nlit 1 2) n0.

  (** helpers.h:90-116 drawAxes. *)
  Definition drawAxes (p q : list T) (scale line_width : T) (m : marker T) : marker T :=
    let o := [n0; n0; n0] in
    let ps := [o; [n1 * scale; n0; n0]; o; [n0; n1 * scale; n0]; o; [n0; n0; n1 * scale]] in
    let m1 := set_colors (set_points m ps) [Red; Red; Green; Green; Blue; Blue] in
    let m2 := set_scale (set_color m1 Black) [line_width; vx (mk_scale m) 1; vx (mk_scale m) 2] in
    set_pose (set_action (set_type m2 kLINE_LIST) kADD) (point_msg p) q.
  (** helpers.h:118-133 drawArrowPositionOrientation. *)
  Definition drawArrowPositionOrientation (p q color : list T) (len diameter : T) (m : marker T) : marker T :=
    set_scale (set_pose (set_color (set_action (set_type m kARROW) kADD) color) (point_msg p) q) [len; diameter; diameter].
  (** helpers.h:135-150 drawArrowPoints; points.resize(2) and both points set. *)
  Definition drawArrowPoints (p1 p2 color : list T) (diameter : T) (m : marker T) : marker T :=
    set_scale (set_points (set_color (set_action (set_type m kARROW) kADD) color) [point_msg p1; point_msg p2])
      [diameter * nlit 1 10; diameter * nofZ 2 * nlit 1 10; n0].
  (** helpers.h:152-166 drawAxesArrows on a MarkerArray just constructed. *)
  Definition drawAxesArrows (p q : list T) (scale diameter : T) : list (marker T) :=
    let arrow u c := drawArrowPoints (v3_add [n0; n0; n0] p) (v3_add (v3_scale (q_rotate q u) scale) p) c diameter marker_new in
    [arrow [n1; n0; n0] Red; arrow [n0; n1; n0] Green; arrow [n0; n0; n1] Blue].

  (** marker_group.h:48: the member markers_; MarkerGroup() is the empty list. *)
  Definition group := list (marker T).
  (** marker_group.cpp:25-55 getMarkers: the vector after the call. *)
  Definition scale_marker (s : T) (m : marker T) : marker T :=
    set_scale (set_pose m (v3_scale (mk_position m) s) (mk_orientation m)) (v3_scale (mk_scale m) s).
  Definition group_getMarkers (g : group) (markers : list (marker T)) (scale : T) (append : bool) : list (marker T) :=
    if negb append && (scale =? n1) then g
    else (if append then markers else []) ++ map (fun m => if scale =? n1 then m else scale_marker scale m) g.
  (** marker_group.cpp:57-99. *)
  Definition group_setNamespace (g : group) (s : string) : group := map (fun m => set_ns m s) g.
  Definition group_setHeader (g : group) (f : string) : group := map (fun m => set_frame m f) g.
  Definition group_setHeaderAndNamespace (g : group) (f s : string) : group := map (fun m => set_frame (set_ns m s) f) g.
  Definition group_setAction (g : group) (a : Z) : group := map (fun m => set_action m a) g.
  Definition group_setLifetime (g : group) (l : T) : group := map (fun m => set_life m l) g.
  Definition group_setFrameLocked (g : group) (b : bool) : group := map (fun m => set_locked m b) g.
  (** marker_group.cpp:108-134 transformMarker, transform. *)
  Definition transformMarker (t q : list T) (m : marker T) : marker T :=
    set_pose m (v3_add (q_rotate q (mk_position m)) t) (q_mult q (mk_orientation m)).
  Definition group_transform (g : group) (t q : list T) : group := map (transformMarker t q) g.

  (** hexacopter_marker.cpp:25-151 createHexacopter. *)
  Definition hexacopter (simple : bool) : group :=
    let m0 := set_pose (set_color (set_scale (set_ns (set_type marker_new kCYLINDER) "hexacopter") [nlit 2 10; nlit 2 10; nlit 1 100])
                [nlit 8 10; nlit 5 10; n0; nlit 5 10]) [n0; n0; n0] [n1; n0; n0; n0] in
    let at_ m x y i := set_id (set_pose m [x; y; n0] (mk_orientation m)) i in
    let m1 := set_color m0 [nlit 8 10; nlit 8 10; nlit 8 10; nlit 5 10] in
    let rotors := [at_ m0 (nlit 19 100) (nlit 11 100) 1%Z; at_ m0 (nlit 19 100) (- nlit 11 100) 2%Z;
                   at_ m1 n0 (nlit 22 100) 3%Z; at_ m1 n0 (- nlit 22 100) 4%Z;
                   at_ m1 (- nlit 19 100) (nlit 11 100) 5%Z; at_ m1 (- nlit 19 100) (- nlit 11 100) 6%Z] in
    let rest :=
      if simple then
        let a := set_color (set_scale (set_type m1 kCUBE) [nlit 44 100; nlit 2 100; nlit 1 100]) [nlit 3 10; nlit 3 10; nlit 3 10; n1] in
        let arm w z i := set_id (set_pose a [n0; n0; - nlit 15 1000] [w; n0; n0; z]) i in
        let s := nsqrt (nofZ 2) / nofZ 2 in
        [arm s s 7%Z; arm (nlit 9659 10000) (nlit 2588 10000) 8%Z; arm (nlit 9659 10000) (- nlit 2588 10000) 9%Z]
      else
        let b := set_mesh (set_scale (set_pose (set_type (set_ns marker_new "hexacopter") kMESH_RESOURCE) [n0; n0; - nlit 3 100] (mk_orientation marker_new))
                   [n1; n1; n1]) "package://mav_visualization/meshes/firefly_carbon.dae" in
        [set_id (set_color b [nlit 3 10; nlit 3 10; nlit 3 10; n1]) 7;
         set_id (set_color (set_mesh b "package://mav_visualization/meshes/firefly_cowl.dae") [n1; n1; n1; n1]) 8] in
    group_setFrameLocked (rotors ++ rest) true.

  (** leica_marker.cpp:23-96 createLeica; [cos15]: the value of cos(15.0 / 180.0 * M_PI). *)
  Definition leica (cos15 : T) : group :=
    let tripod := nlit 135 100 in
    let head := nlit 3 10 in
    let z := - (tripod + head) / nofZ 2 in
    let m := set_color (set_scale (set_type marker_new kCYLINDER) [nlit 2 100; nlit 2 100; tripod / cos15]) [n1; n1; n0; n1] in
    let leg x y q i := set_id (set_pose m [x; y; z] q) i in
    let q1 := [nlit 9914 10000; n0; - nlit 1305 10000; n0] in
    let q2 := [nlit 4957 10000; nlit 1130 10000; - nlit 653 10000; nlit 8586 10000] in
    let q3 := [- nlit 4957 10000; nlit 1130 10000; nlit 653 10000; nlit 8586 10000] in
    [leg (nlit 2 10) n0 q1 0%Z; leg (nlit 2 10) n0 q1 1%Z;
     leg (- nlit 1 10) (nlit 17 100) q2 1%Z; leg (- nlit 1 10) (nlit 17 100) q2 2%Z;
     leg (- nlit 1 10) (- nlit 17 100) q3 3%Z;
     set_id (set_pose (set_color (set_scale m [nlit 2 10; nlit 2 10; head]) [nlit 5 10; nlit 5 10; nlit 5 10; n1]) [n0; n0; n0] [n1; n0; n0; n0]) 4].

  (** ros_visualization.cpp:33-44 appendMarkers. *)
  Definition appendMarkers (ms : list (marker T)) (ns : string) (arr : list (marker T)) : list (marker T) :=
    arr ++ map (fun m => if String.eqb ns "" then m else set_ns m ns) ms.
  (** ros_visualization.cpp:47-59 setMarkerProperties, from the given count on. *)
  Fixpoint setMarkerProperties (frame : string) (life : T) (action count : Z) (ms : list (marker T)) : list (marker T) :=
    match ms with
    | [] => []
    | m :: ms' => set_life (set_id (set_action (set_frame m frame) action) count) life ::
                  setMarkerProperties frame life action (count + 1) ms'
    end.

  (** mav_msgs::EigenMavStateFromEigenTrajectoryPoint (mav_msgs is not part of the
      repository): the position it stores. *)
  Variable mav_position : point T -> list T.

  (** ros_visualization.cpp:148-182: the markers appended for one drawn pose.  The
      second arrow reuses the first one's marker. *)
  Definition pose_markers (additional : group) (p : point T) (arr : list (marker T)) : list (marker T) :=
    let d := nlit 3 10 in
    let arr1 := appendMarkers (drawAxesArrows (mav_position p) (pt_orientation p) d d) "pose" arr in
    let c255 k := nofZ k / nofZ 255 in
    let a1 := set_ns (drawArrowPoints (pt_position p) (v3_add (pt_position p) (pt_acceleration p))
                        (rgb (c255 190%Z) (c255 81%Z) (c255 80%Z)) d marker_new) (positionDerivativeToString 2) in
    let a2 := set_ns (drawArrowPoints (pt_position p) (v3_add (pt_position p) (pt_velocity p))
                        (rgb (c255 80%Z) (c255 172%Z) (c255 196%Z)) d a1) (positionDerivativeToString 1) in
    group_getMarkers (group_transform additional (mav_position p) (pt_orientation p)) (arr1 ++ [a1] ++ [a2]) n1 true.
  (** ros_visualization.cpp:142-187: one turn of the loop; the state is
      (accumulated_distance, last_position, markers, points of the line strip). *)
  Definition draw_state : Type := T * list T * list (marker T) * list (list T).
  Definition draw_step (distance : T) (additional : group) (st : draw_state) (p : point T) : draw_state :=
    let '(acc, last, arr, strip) := st in
    let acc1 := acc + v3_norm (v3_sub last (pt_position p)) in
    let last' := pt_position p in
    if distance <? acc1
    then (n0, last', pose_markers additional p arr, strip ++ [point_msg last'])
    else (acc1, last', arr, strip ++ [point_msg last']).
  (** ros_visualization.cpp:128-194 drawMavSampledTrajectoryWithMavMarker; the array
      is cleared first. *)
  Definition drawSampledWithMarker (ps : list (point T)) (distance : T) (frame : string) (additional : group)
             (arr : list (marker T)) : list (marker T) :=
    let '(_, _, ms, strip) := fold_left (draw_step distance additional) ps (n0, [n0; n0; n0], [], []) in
    let line := set_points (set_ns (set_scale (set_color (set_type marker_new kLINE_STRIP) Orange) [nlit 1 100; n0; n0]) "path") strip in
    setMarkerProperties frame n0 kADD 0 (ms ++ [line]).
  (** ros_visualization.cpp:101-109 drawMavSampledTrajectory. *)
  Definition drawSampled (ps : list (point T)) (distance : T) (frame : string) (arr : list (marker T)) :=
    drawSampledWithMarker ps distance frame [] arr.

  (** ros_visualization.cpp:79, 83: conversion of a double to uint32_t (undefined when
      out of range), and of an int64_t to uint32_t. *)
  Definition to_uint32 (x : T) : outcome Z :=
    match ntoZ x with
    | Some z => if ((0 <=? z) && (z <? 2 ^ 32))%Z then Ok z else UB
    | None => UB
    end.
  Definition wrap32 (z : Z) : Z := (z mod 2 ^ 32)%Z.
  (** ros_visualization.cpp:82-90: the loop over the points between the first and the
      last one. *)
  Fixpoint time_filter (dt_ns last : Z) (ps : list (point T)) : list (point T) :=
    match ps with
    | [] => []
    | p :: ps' =>
        let now := wrap32 (pt_time_ns p) in
        if (dt_ns <=? wrap32 (now - last))%Z then p :: time_filter dt_ns now ps' else time_filter dt_ns last ps'
    end.
  (** ros_visualization.cpp:78-92: the filtered vector.  front() of an empty vector
      is undefined. *)
  Definition filter_by_time (ps : list (point T)) (dt : T) : outcome (list (point T)) :=
    dt_ns <-- to_uint32 (dt * nofZ (10 ^ 9)) ;;
    match ps with
    | [] => UB
    | p :: ps' => Ok (p :: time_filter dt_ns 0 (removelast ps') ++ [last ps p])
    end.
  (** ros_visualization.cpp:74-98 drawMavSampledTrajectorybyTime. *)
  Definition drawSampledByTime (ps : list (point T)) (dt : T) (frame : string) (arr : list (marker T)) : outcome (list (marker T)) :=
    filtered <-- filter_by_time ps dt ;; Ok (drawSampledWithMarker filtered n0 frame [] arr).

  Variable mav : mav_functions T.
  (** ros_visualization.cpp:63, 111-126 drawMavTrajectoryWithMavMarker; on failure the
      array is not touched.  None: the bound on the number of samples is reached. *)
  Definition kDefaultSamplingTime : T := nlit 1 10.
  Definition drawTrajectoryWithMarker (fuel : nat) (tr : trajectory T) (distance : T) (frame : string) (additional : group)
             (arr : list (marker T)) : outcome (option (list (marker T))) :=
    r <-- sampleWholeTrajectory mav fuel tr kDefaultSamplingTime [] ;;
    Ok (match r with
        | Some (true, ps) => Some (drawSampledWithMarker ps distance frame additional arr)
        | Some (false, _) => Some arr
        | None => None
        end).
  (** ros_visualization.cpp:65-72 drawMavTrajectory. *)
  Definition drawTrajectory (fuel : nat) (tr : trajectory T) (distance : T) (frame : string) (arr : list (marker T)) :=
    drawTrajectoryWithMarker fuel tr distance frame [] arr.

  (** ros_visualization.cpp:207-223: the loop of drawVertices: (finished, marker). *)
  Fixpoint vertex_points (vs : list (vertex T)) (m : marker T) : bool * marker T :=
    match vs with
    | [] => (true, m)
    | v :: vs' =>
        if negb (Nat.eqb (v_D v) 3) then (false, m)
        else match vertex_get v 0 with
             | Some x => vertex_points vs' (set_points m (mk_points m ++ [point_msg x]))
             | None => vertex_points vs' m
             end
    end.
  (** ros_visualization.cpp:196-229 drawVertices; resize(1) keeps the first marker of
      the array. *)
  Definition drawVertices (vs : list (vertex T)) (frame : string) (arr : list (marker T)) : list (marker T) :=
    let m0 := match arr with m :: _ => m | [] => marker_new end in
    let m1 := set_ns (set_scale (set_color (set_type m0 kLINE_STRIP) Green) [nlit 1 100; vx (mk_scale m0) 1; vx (mk_scale m0) 2]) "straight_path" in
    let r := vertex_points vs m1 in
    if fst r then setMarkerProperties frame n0 kADD 0 [snd r] else [snd r].
  (** ros_visualization.cpp:231-254 drawVerticesFromTrajectory. *)
  Definition drawVerticesFromTrajectory (tr : trajectory T) (frame : string) (arr : list (marker T)) : outcome (list (marker T)) :=
    match tr_segments tr with
    | [] => Ok arr
    | segs =>
        vs <-- omap (fun t => traj_vertexAtTime tr t 0) (removelast (n0 :: boundary_times segs n0)) ;;
        goal <-- traj_goalVertex tr 0 ;;
        Ok (drawVertices (vs ++ [goal]) frame arr)
    end.
End Vis.
