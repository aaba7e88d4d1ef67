(** Model of mav_trajectory_generation_ros/src/ros_conversions.cpp. *)
From Coq Require Import ZArith List Bool.
From Verif Require Import Num ModelPolynomial ModelSegment ModelVertex ModelTrajectory ModelIO.
Import ListNotations.

(** mav_planning_msgs::EigenPolynomialSegment (not part of the repository): the
    members used in ros_conversions.cpp:49-61, 82-102.  num_coeffs and
    segment_time_ns are integers. *)
Record eigen_segment (T : Type) := mkEseg {
  es_x : list T; es_y : list T; es_z : list T; es_yaw : list T;
  es_rx : list T; es_ry : list T; es_rz : list T;
  es_num_coeffs : Z; es_time_ns : Z
}.
Arguments mkEseg {T}. Arguments es_x {T}. Arguments es_y {T}. Arguments es_z {T}. Arguments es_yaw {T}.
Arguments es_rx {T}. Arguments es_ry {T}. Arguments es_rz {T}. Arguments es_num_coeffs {T}. Arguments es_time_ns {T}.

Section Msgs.
  Context {T M : Type} {ops : NumOps T}.
  (** polynomialSegmentMsgFromEigen and the per-segment part of
      eigenPolynomialTrajectoryFromMsg of mav_planning_msgs, for the message
      type M; a message is the list of its segments. *)
  Variable enc : eigen_segment T -> outcome M.
  Variable dec : M -> outcome (eigen_segment T).

  (** segment[i].getCoefficients(). *)
  Definition coeffs_of (s : segment T) (i : nat) : outcome (list T) :=
    p <-- seg_index s i ;; poly_getCoefficients p 0.

  (** ros_conversions.cpp:48-61 (133-141). *)
  Definition eigen_of_segment (s : segment T) : outcome (eigen_segment T) :=
    x <-- coeffs_of s 0 ;; y <-- coeffs_of s 1 ;; z <-- coeffs_of s 2 ;;
    ns <-- seg_getTimeNSec s ;;
    if Nat.eqb (seg_D s) 4 then
      yaw <-- coeffs_of s 3 ;; Ok (mkEseg x y z yaw [] [] [] (Z.of_nat (seg_N s)) ns)
    else if Nat.eqb (seg_D s) 6 then
      rx <-- coeffs_of s 3 ;; ry <-- coeffs_of s 4 ;; rz <-- coeffs_of s 5 ;;
      Ok (mkEseg x y z [] rx ry rz (Z.of_nat (seg_N s)) ns)
    else Ok (mkEseg x y z [] [] [] [] (Z.of_nat (seg_N s)) ns).

  (** ros_conversions.cpp:33-66 (118-146 for the 4D message): the loop over the
      segments, stopping at the first bad dimension; (success, segments). *)
  Fixpoint msg_loop (dims : list nat) (segs : list (segment T)) (msg : list M) : outcome (bool * list M) :=
    match segs with
    | [] => Ok (true, msg)
    | s :: segs' =>
        if existsb (Nat.eqb (seg_D s)) dims then
          e <-- eigen_of_segment s ;; m <-- enc e ;; msg_loop dims segs' (msg ++ [m])
        else Ok (false, msg)
    end.
  (** ros_conversions.cpp:28-31, 68-69: the message starts empty and is cleared
      again on failure. *)
  Definition to_msg (dims : list nat) (tr : trajectory T) : outcome (bool * list M) :=
    r <-- msg_loop dims (tr_segments tr) [] ;;
    Ok (if fst r then r else (false, [])).
  (** ros_conversions.cpp:25-70 trajectoryToPolynomialTrajectoryMsg. *)
  Definition trajectoryToMsg := to_msg [3; 4; 6]%nat.
  (** ros_conversions.cpp:110-150, for PolynomialTrajectory4D. *)
  Definition trajectoryToMsg4D := to_msg [3; 4]%nat.

  (** Eigen size() == 0, as tested in ros_conversions.cpp:83-87. *)
  Definition empty (l : list T) : bool := match l with [] => true | _ => false end.
  (** ros_conversions.cpp:82-103; (162-175 for the 4D message, without line
      86-89).  The first dimensions of the new segment are set one after the
      other; setCoefficients checks the sizes. *)
  Definition segment_of_eigen (with6 : bool) (e : eigen_segment T) : outcome (segment T) :=
    let D := if with6 && negb (empty (es_rx e)) && negb (empty (es_ry e)) && negb (empty (es_rz e)) then 6%nat
             else if negb (empty (es_yaw e)) then 4%nat else 3%nat in
    let fresh := repeat n0 (length (es_x e)) in
    x <-- poly_setCoefficients fresh (es_x e) ;;
    y <-- poly_setCoefficients fresh (es_y e) ;;
    z <-- poly_setCoefficients fresh (es_z e) ;;
    rest <-- (if Nat.eqb D 4 then yaw <-- poly_setCoefficients fresh (es_yaw e) ;; Ok [yaw]
              else if Nat.eqb D 6 then
                rx <-- poly_setCoefficients fresh (es_rx e) ;;
                ry <-- poly_setCoefficients fresh (es_ry e) ;;
                rz <-- poly_setCoefficients fresh (es_rz e) ;; Ok [rx; ry; rz]
              else Ok []) ;;
    Ok (seg_setTimeNSec (mkSegment (length (es_x e)) (x :: y :: z :: rest) n0) (es_time_ns e)).

  (** ros_conversions.cpp:76-81, 104-107: decode and collect every segment, then
      setSegments. *)
  Definition from_msg (with6 : bool) (msg : list M) (tr : trajectory T) : outcome (bool * trajectory T) :=
    segs <-- omap (fun m => e <-- dec m ;; segment_of_eigen with6 e) msg ;;
    tr' <-- traj_setSegments tr segs ;;
    Ok (true, tr').
  (** ros_conversions.cpp:73-108 polynomialTrajectoryMsgToTrajectory. *)
  Definition msgToTrajectory := from_msg true.
  (** ros_conversions.cpp:153-180, for PolynomialTrajectory4D. *)
  Definition msgToTrajectory4D := from_msg false.
End Msgs.
