(** Specification of the quantities the feasibility checks are about;
    independent of the model's code. *)
From Coq Require Import Reals List ZArith.
From Coquelicot Require Import Coquelicot.
From Verif Require Import ModelSegment SpecSegment.
Import ListNotations.
Open Scope R_scope.

(** Norm and product of vectors given by their first three entries. *)
Definition norm3 (v : nat -> R) : R := sqrt (v 0%nat ^ 2 + v 1%nat ^ 2 + v 2%nat ^ 2).
Definition dot3 (v w : nat -> R) : R := v 0%nat * w 0%nat + v 1%nat * w 1%nat + v 2%nat * w 2%nat.
Definition entries (l : list R) (k : nat) : R := nth k l 0.

(** Gravity acts along the third axis. *)
Definition gravity (k : nat) : R := if Nat.eqb k 2 then 980665 / 100000 else 0.

(** Mass-normalised thrust: acceleration plus gravity. *)
Definition thrust_vec (s : segment R) (t : R) (k : nat) : R := seg_fun s k 2 t + gravity k.
Definition thrust (s : segment R) (t : R) : R := norm3 (thrust_vec s t).
Definition speed (s : segment R) (t : R) : R := norm3 (fun k => seg_fun s k 1 t).
Definition jerk (s : segment R) (t : R) : R := norm3 (fun k => seg_fun s k 3 t).

(** The roll and pitch rates turn the direction of the thrust: their norm is the
    speed of the unit vector along the thrust. *)
Definition thrust_direction (s : segment R) (k : nat) (t : R) : R := thrust_vec s t k / thrust s t.
Definition roll_pitch_rate (s : segment R) (t : R) : R := norm3 (fun k => Derive (thrust_direction s k) t).

(** Signed distance (times the length of the normal) from the plane through p. *)
Definition side (p n : list R) (q : nat -> R) : R := dot3 (fun k => q k - entries p k) (entries n).

(** The limits of a constraint set (input_constraints.h: lower and upper limit of
    the thrust, speed, roll and pitch rates, yaw rate, yaw acceleration), none or a
    number each. *)
Record limits := mkLimits {
  l_thrust_min : option R; l_thrust_max : option R; l_speed : option R;
  l_roll_pitch : option R; l_yaw_rate : option R; l_yaw_acc : option R }.
Definition holds_for (o : option R) (P : R -> Prop) : Prop := match o with Some l => P l | None => True end.
Definition broken_for (o : option R) (P : R -> Prop) : Prop := match o with Some l => P l | None => False end.

(** The motion respects the limits at time t: thrust and speed; roll and pitch
    rates (the thrust does not vanish, so that they are defined); yaw. *)
Definition thrust_within (l : limits) s t := holds_for (l_thrust_min l) (fun m => m <= thrust s t) /\ holds_for (l_thrust_max l) (fun m => thrust s t <= m).
Definition speed_within (l : limits) s t := holds_for (l_speed l) (fun m => speed s t <= m).
Definition roll_pitch_within (l : limits) s t :=
  holds_for (l_roll_pitch l) (fun m => 0 < thrust s t /\ (forall k, ex_derive (thrust_direction s k) t) /\ roll_pitch_rate s t <= m).
Definition yaw_within (l : limits) s t := seg_D s = 4%nat ->
  holds_for (l_yaw_rate l) (fun m => Rabs (seg_fun s 3 1 t) <= m) /\ holds_for (l_yaw_acc l) (fun m => Rabs (seg_fun s 3 2 t) <= m).
