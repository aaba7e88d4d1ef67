(** Model of Trajectory
    (mav_trajectory_generation/include/mav_trajectory_generation/trajectory.h,
     mav_trajectory_generation/src/trajectory.cpp). *)
From Coq Require Import ZArith List Bool.
From Verif Require Import Num ModelPolynomial ModelSegment ModelVertex.
Import ListNotations.

(** trajectory.h:143-149: members D_, N_, segments_, max_time_.  D_ and N_ are
    ints that only ever hold the (non-negative) values of a segment. *)
Record trajectory (T : Type) := mkTraj {
  tr_D : nat;
  tr_N : nat;
  tr_segments : list (segment T);
  tr_max_time : T
}.
Arguments mkTraj {T} _ _ _ _.
Arguments tr_D {T} _.
Arguments tr_N {T} _.
Arguments tr_segments {T} _.
Arguments tr_max_time {T} _.
(** trajectory.h:44 K(). *)
Definition tr_K {T} (tr : trajectory T) : nat := length (tr_segments tr).

(** The object the output pointer of addTrajectories refers to. *)
Inductive merge_target := MergeOther | MergeThis | MergeElement (j : nat).

Section Trajectory.
  Context {T : Type} {ops : NumOps T}.
  Local Open Scope num_scope.

  (** trajectory.h:34 constructor; 47-52 clear. *)
  Definition traj_new : trajectory T := mkTraj 0 0 [] n0.
  Definition traj_clear (tr : trajectory T) : trajectory T := mkTraj 0 0 [] n0.

  (** trajectory.h:65-72 addSegments; the argument is a vector distinct from the
      trajectory's own. *)
  Definition traj_addSegments (tr : trajectory T) (segs : list (segment T))
    : outcome (trajectory T) :=
    mt <-- ofold (fun mt s =>
                    if negb (Nat.eqb (seg_D s) (tr_D tr)) then Abort
                    else if negb (Nat.eqb (seg_N s) (tr_N tr)) then Abort
                    else Ok (mt + seg_time s)) segs (tr_max_time tr) ;;
    Ok (mkTraj (tr_D tr) (tr_N tr) (tr_segments tr ++ segs) mt).

  (** trajectory.h:54-63 setSegments; argument as above. *)
  Definition traj_setSegments (tr : trajectory T) (segs : list (segment T))
    : outcome (trajectory T) :=
    match segs with
    | [] => Abort
    | s :: _ => traj_addSegments (mkTraj (seg_D s) (seg_N s) [] n0) segs
    end.

  (** The same functions called with the trajectory's own vector, i.e.
      tr.setSegments(tr.segments()): segments_.clear() at line 60 empties the
      argument.  tr.addSegments(tr.segments()): vector::insert from the vector
      itself is undefined. *)
  Definition traj_setSegments_self (tr : trajectory T) : outcome (trajectory T) :=
    match tr_segments tr with
    | [] => Abort
    | s :: _ => traj_addSegments (mkTraj (seg_D s) (seg_N s) [] n0) []
    end.
  Definition traj_addSegments_self (tr : trajectory T) : outcome (trajectory T) :=
    mt <-- ofold (fun mt s =>
                    if negb (Nat.eqb (seg_D s) (tr_D tr)) then Abort
                    else if negb (Nat.eqb (seg_N s) (tr_N tr)) then Abort
                    else Ok (mt + seg_time s)) (tr_segments tr) (tr_max_time tr) ;;
    UB.

  (** trajectory.cpp:34-46 operator==; the loop repeats the same comparison of
      the two vectors, which compares elements until the first difference. *)
  Fixpoint segs_eqb (a b : list (segment T)) : outcome bool :=
    match a, b with
    | s :: a', r :: b' =>
        e <-- seg_eqb s r ;; if e then segs_eqb a' b' else Ok false
    | _, _ => Ok true
    end.
  Definition traj_eqb (a b : trajectory T) : outcome bool :=
    if negb (Nat.eqb (tr_K a) (tr_K b)) then Ok false
    else segs_eqb (tr_segments a) (tr_segments b).

  (** trajectory.cpp:49-64 (and 95-110): segment search; returns the index and
      accumulated_time. *)
  Fixpoint find_segment (segs : list (segment T)) (t : T) (i : nat) (acc : T) : nat * T :=
    match segs with
    | [] => (i, acc)
    | s :: segs' =>
        let acc' := acc + seg_time s in
        if t <? acc' then (i, acc') else find_segment segs' t (S i) acc'
    end.

  (** trajectory.cpp:48-79 evaluate.  On an empty trajectory segments_.size() - 1
      wraps around. *)
  Definition traj_evaluate (tr : trajectory T) (t : T) (derivative : Z) : outcome (list T) :=
    let (i, acc) := find_segment (tr_segments tr) t 0 n0 in
    if acc <? t then Ok (repeat n0 (tr_D tr))
    else
      let i' := if Nat.leb (tr_K tr) i then (tr_K tr - 1)%nat else i in
      s <-- oget (tr_segments tr) i' ;;
      seg_evaluate s (t - (acc - seg_time s)) derivative.

  (** trajectory.cpp:120-140: the sampling loop with a bound on the iterations
      (None: bound reached).  Returns (values, sampling_times). *)
  Fixpoint range_loop (fuel : nat) (segs : list (segment T)) (t_end dt : T) (derivative : Z)
           (i : nat) (acc tis : T) : outcome (option (list (list T) * list T)) :=
    match fuel with
    | O => Ok None
    | S k =>
        if acc <? t_end then
          s <-- oget segs i ;;
          if seg_time s <? tis then
            (if Nat.leb (length segs) (S i) then Ok (Some ([], []))
             else range_loop k segs t_end dt derivative (S i) acc (tis - seg_time s))
          else
            v <-- seg_evaluate s tis derivative ;;
            r <-- range_loop k segs t_end dt derivative i (acc + dt) (tis + dt) ;;
            match r with
            | None => Ok None
            | Some (vs, ts) => Ok (Some (v :: vs, acc :: ts))
            end
        else Ok (Some ([], []))
    end.

  (** Conversion of a double to size_t followed by vector::reserve (line 85-93);
      max_size of a vector of 16-byte elements is 2^59 - 1. *)
  Definition reserve_samples (x : T) : outcome unit :=
    match ntoZ x with
    | None => UB
    | Some z => if (z <? 0)%Z || (2 ^ 64 <=? z)%Z then UB
                else if (2 ^ 59 <=? z)%Z then Throw else Ok tt
    end.

  (** trajectory.cpp:81-141 evaluateRange with sampling_times != nullptr. *)
  Definition traj_evaluateRange (fuel : nat) (tr : trajectory T) (t_start t_end dt : T)
             (derivative : Z) : outcome (option (list (list T) * list T)) :=
    _u <-- reserve_samples ((t_end - t_start) / dt + n1) ;;
    let (i, acc) := find_segment (tr_segments tr) t_start 0 n0 in
    if acc <? t_start then Ok (Some ([], []))
    else
      s <-- oget (tr_segments tr) i ;;
      let acc0 := acc - seg_time s in
      range_loop fuel (tr_segments tr) t_end dt derivative i acc0 (t_start - acc0).

  (** trajectory.cpp:143-159 getTrajectoryWithSingleDimension.  A negative
      dimension is converted to a huge size_t and fails the CHECK of
      Segment::operator[] (or setSegments aborts on no segments). *)
  Definition traj_single (tr : trajectory T) (dimension : Z) : outcome (trajectory T) :=
    if (Z.of_nat (tr_D tr) <=? dimension)%Z then Abort
    else
      segs <-- omap (fun s =>
                       p <-- (if (dimension <? 0)%Z then Abort
                              else seg_index s (Z.to_nat dimension)) ;;
                       Ok (mkSegment (tr_N tr) [p] n0)) (tr_segments tr) ;;
      traj_setSegments traj_new segs.

  (** trajectory.cpp:161-189 getTrajectoryWithAppendedDimension.  None: returns
      false.  The output may be an operand: it is only written at the end. *)
  Fixpoint append_segments (a b : list (segment T)) : outcome (option (list (segment T))) :=
    match a with
    | [] => Ok (Some [])
    | s :: a' =>
        match b with
        | [] => UB
        | r :: b' =>
            n <-- seg_append ToOther s r ;;
            match n with
            | None => Ok None
            | Some n' =>
                rest <-- append_segments a' b' ;;
                Ok (option_map (cons n') rest)
            end
        end
    end.
  Definition traj_append (this app : trajectory T) : outcome (option (trajectory T)) :=
    if Nat.eqb (tr_N this) 0 || Nat.eqb (tr_D this) 0 then Ok (Some app)
    else if Nat.eqb (tr_N app) 0 || Nat.eqb (tr_D app) 0 then Ok (Some this)
    else if negb (Nat.eqb (tr_K this) (tr_K app)) then Abort
    else
      segs <-- append_segments (tr_segments this) (tr_segments app) ;;
      match segs with
      | None => Ok None
      | Some l => tr <-- traj_setSegments traj_new l ;; Ok (Some tr)
      end.

  (** extremum.h:31 Extremum(). *)
  Definition extremum_zero : extremum T := mkExtremum n0 n0 0.

  (** trajectory.cpp:191-227 computeMinMaxMagnitude on the caller's objects:
      (returned flag, *minimum, *maximum). *)
  Fixpoint minmax_loop (rf : root_oracle) (segs : list (segment T)) (idx : nat)
           (derivative : Z) (dims : list Z) (mn mx : extremum T)
    : outcome (bool * extremum T * extremum T) :=
    match segs with
    | [] => Ok (true, mn, mx)
    | s :: segs' =>
        c <-- seg_candidates rf s derivative n0 (seg_time s) dims ;;
        if fst c then
          match seg_selectMinMax n0 (seg_time s) (snd c) extremum_zero extremum_zero with
          | None => Ok (false, mn, mx)
          | Some (cmn, cmx) =>
              let mn' := if ext_value cmn <? ext_value mn
                         then mkExtremum (ext_time cmn) (ext_value cmn) (Z.of_nat idx) else mn in
              let mx' := if ext_value mx <? ext_value cmx
                         then mkExtremum (ext_time cmx) (ext_value cmx) (Z.of_nat idx) else mx in
              minmax_loop rf segs' (S idx) derivative dims mn' mx'
          end
        else Ok (false, mn, mx)
    end.
  Definition traj_minmax (rf : root_oracle) (tr : trajectory T) (derivative : Z) (dims : list Z)
             (mn mx : extremum T) : outcome (bool * extremum T * extremum T) :=
    minmax_loop rf (tr_segments tr) 0 derivative dims
      (mkExtremum (ext_time mn) dbl_max (ext_segment mn))
      (mkExtremum (ext_time mx) dbl_lowest (ext_segment mx)).

  (** trajectory.cpp:229-235 getSegmentTimes. *)
  Definition traj_getSegmentTimes (tr : trajectory T) : list T := map seg_time (tr_segments tr).

  (** trajectory.cpp:237-260 addTrajectories: (returned flag, *merged). [trajs] are
      the elements on entry; the element that is the output object is read in
      its current state. *)
  Definition merge_loop (target : merge_target) (this_D this_N : nat) (trajs : list (trajectory T))
    (idx : list nat) (st : bool * trajectory T) : outcome (bool * trajectory T) :=
    ofold (fun (st : bool * trajectory T) i =>
             if fst st then
               t <-- (match target with
                      | MergeElement j => if Nat.eqb i j then Ok (snd st) else oget trajs i
                      | _ => oget trajs i
                      end) ;;
               if negb (Nat.eqb (tr_D t) this_D) || negb (Nat.eqb (tr_N t) this_N)
               then Ok (false, snd st)
               else m <-- traj_addSegments (snd st) (tr_segments t) ;; Ok (true, m)
             else Ok st) idx st.
  Definition traj_addTrajectories (target : merge_target) (this : trajectory T)
             (trajs : list (trajectory T)) : outcome (bool * trajectory T) :=
    let this' := match target with MergeThis => traj_clear this | _ => this end in
    merge_loop target (tr_D this') (tr_N this') trajs (seq 0 (length trajs)) (true, this').

  (** trajectory.cpp:262-274 offsetTrajectory: (returned flag, new state). *)
  Fixpoint offset_loop (segs : list (segment T)) (o : list T) : bool * list (segment T) :=
    match segs with
    | [] => (true, [])
    | s :: segs' =>
        match seg_offset s o with
        | None => (false, s :: segs')
        | Some s' => let (ok, r) := offset_loop segs' o in (ok, s' :: r)
        end
    end.
  Definition traj_offset (tr : trajectory T) (o : list T) : bool * trajectory T :=
    if Nat.ltb (length o) (Nat.min (tr_D tr) 3) then (false, tr)
    else let (ok, segs) := offset_loop (tr_segments tr) o in
         (ok, mkTraj (tr_D tr) (tr_N tr) segs (tr_max_time tr)).

  (** trajectory.cpp:276-282 getVertexAtTime.  The loop compares a size_t with an
      int: a negative order becomes 2^64 - |order| and the loop never ends in
      practice; modelled as UB. *)
  Definition traj_vertexAtTime (tr : trajectory T) (t : T) (max_order : Z) : outcome (vertex T) :=
    if (max_order <? 0)%Z then UB
    else ofold (fun v i => x <-- traj_evaluate tr t (Z.of_nat i) ;; vertex_add v (Z.of_nat i) x)
               (seq 0 (Z.to_nat max_order + 1)) (vertex_new (tr_D tr)).

  (** trajectory.cpp:284-290 getStartVertex, getGoalVertex. *)
  Definition traj_startVertex (tr : trajectory T) (max_order : Z) := traj_vertexAtTime tr n0 max_order.
  Definition traj_goalVertex (tr : trajectory T) (max_order : Z) :=
    traj_vertexAtTime tr (tr_max_time tr) max_order.

  (** Times 0, t1, t1 + t2, ... at which getVertices evaluates (335-338). *)
  Fixpoint boundary_times (segs : list (segment T)) (t : T) : list T :=
    match segs with
    | [] => []
    | s :: segs' => let t' := t + seg_time s in t' :: boundary_times segs' t'
    end.

  (** trajectory.cpp:329-341 getVertices(max_derivative_order, vertices). *)
  Definition traj_getVertices (tr : trajectory T) (max_order : Z) : outcome (list (vertex T)) :=
    first <-- traj_startVertex tr max_order ;;
    rest <-- omap (fun t => traj_vertexAtTime tr t max_order) (boundary_times (tr_segments tr) n0) ;;
    Ok (first :: rest).

  (** trajectory.cpp:292-327 getVertices(pos order, yaw order, ...).  None:
      returns false; the output vectors, then partly written, are not modelled. *)
  Definition pos_yaw_vertex (v : vertex T) (pos_order yaw_order : Z)
    : outcome (option (vertex T * vertex T)) :=
    p <-- vertex_getSubdimension v [0; 1; 2]%nat pos_order ;;
    if fst p then
      y <-- vertex_getSubdimension v [3]%nat yaw_order ;;
      if fst y then Ok (Some (snd p, snd y)) else Ok None
    else Ok None.
  Fixpoint pos_yaw_loop (tr : trajectory T) (pos_order yaw_order : Z) (times : list T)
    : outcome (option (list (vertex T) * list (vertex T))) :=
    match times with
    | [] => Ok (Some ([], []))
    | t :: times' =>
        v <-- traj_vertexAtTime tr t (Z.max pos_order yaw_order) ;;
        py <-- pos_yaw_vertex v pos_order yaw_order ;;
        match py with
        | None => Ok None
        | Some (p, y) =>
            r <-- pos_yaw_loop tr pos_order yaw_order times' ;;
            Ok (option_map (fun l => (p :: fst l, y :: snd l)) r)
        end
    end.
  Definition traj_getVertices_pos_yaw (tr : trajectory T) (pos_order yaw_order : Z)
    : outcome (option (list (vertex T) * list (vertex T))) :=
    pos_yaw_loop tr pos_order yaw_order (n0 :: boundary_times (tr_segments tr) n0).

  (** trajectory.cpp:344-361 computeMaxVelocityAndAcceleration: (flag, v, a). *)
  Definition traj_maxVelAcc (rf : root_oracle) (tr : trajectory T) : outcome (bool * T * T) :=
    let dims := map Z.of_nat (seq 0 (tr_D tr)) in
    v <-- traj_minmax rf tr 1 dims extremum_zero extremum_zero ;;
    a <-- traj_minmax rf tr 2 dims extremum_zero extremum_zero ;;
    Ok (fst (fst v) && fst (fst a), ext_value (snd v), ext_value (snd a)).

  (** trajectory.cpp:367-377 and 414-426: stretch all segments by [scaling]. *)
  Definition seg_stretch (scaling inverse : T) (s : segment T) : segment T :=
    mkSegment (seg_N s) (map (fun p => poly_scale_time p inverse) (seg_polys s))
              (seg_time s * scaling).
  Definition traj_stretch (tr : trajectory T) (scaling : T) : trajectory T :=
    let segs := map (seg_stretch scaling (n1 / scaling)) (tr_segments tr) in
    mkTraj (tr_D tr) (tr_N tr) segs (fold_left nadd (map seg_time segs) n0).

  (** trajectory.cpp:363-380 scaleSegmentTimes: (returned flag, new state). *)
  Definition traj_scale (tr : trajectory T) (scaling : T) : bool * trajectory T :=
    if scaling <? nlit 1 1000000 then (false, tr) else (true, traj_stretch tr scaling).

  (** trajectory.cpp:385-429 scaleSegmentTimesToMeetConstraints: [counter]
      iterations remain; (within_range, new state). *)
  Fixpoint scale_to_meet_loop (rf : root_oracle) (counter : nat) (v_max a_max : T)
           (within : bool) (tr : trajectory T) : outcome (bool * trajectory T) :=
    match counter with
    | O => Ok (within, tr)
    | S k =>
        va <-- traj_maxVelAcc rf tr ;;
        let vv := snd (fst va) / v_max in
        let av := snd va / a_max in
        let within' := (vv <=? n1 + nlit 1 1000) && (av <=? n1 + nlit 1 1000) in
        if within' then Ok (true, tr)
        else scale_to_meet_loop rf k v_max a_max within'
               (traj_stretch tr (nmax n1 (nmax vv (nsqrt av))))
    end.
  Definition traj_scaleToMeet (rf : root_oracle) (tr : trajectory T) (v_max a_max : T)
    : outcome (bool * trajectory T) :=
    scale_to_meet_loop rf 20 v_max a_max false tr.
End Trajectory.
