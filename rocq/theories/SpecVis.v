(** Specification of what is drawn: paths, poses, spacing; independent of the
    functions of ModelVis.v (only its marker record is used). *)
From Coq Require Import ZArith Reals List String.
From Verif Require Import Num RSum ModelSampling ModelVis.
Import ListNotations.
Notation length := List.length.

Open Scope R_scope.
Definition origin : list R := [0; 0; 0].
Definition dist3 (a b : list R) : R :=
  sqrt ((nth 0 a 0 - nth 0 b 0) ^ 2 + (nth 1 a 0 - nth 1 b 0) ^ 2 + (nth 2 a 0 - nth 2 b 0) ^ 2).
(** Length of the polygonal path Q_i, ..., Q_j. *)
Definition path_length (Q : list (list R)) (i j : nat) : R :=
  lsum (map (fun k => dist3 (nth k Q origin) (nth (S k) Q origin)) (seq i (j - i))).
(** I: indices greater than i such that each is the first one that lies more than
    the given distance along the path behind the previous one. *)
Fixpoint spaced (distance : R) (Q : list (list R)) (i : nat) (I : list nat) : Prop :=
  match I with
  | [] => forall k, (i < k < length Q)%nat -> path_length Q i k <= distance
  | j :: I' => (i < j < length Q)%nat /\ distance < path_length Q i j /\
               (forall k, (i < k < j)%nat -> path_length Q i k <= distance) /\ spaced distance Q j I'
  end.

(** Rotation of a vector by the rotation matrix of a quaternion w, x, y, z. *)
Definition rotated (q v : list R) : list R :=
  let w := nth 0 q 0 in let x := nth 1 q 0 in let y := nth 2 q 0 in let z := nth 3 q 0 in
  let a := nth 0 v 0 in let b := nth 1 v 0 in let c := nth 2 v 0 in
  [(1 - 2 * (y ^ 2 + z ^ 2)) * a + 2 * (x * y - w * z) * b + 2 * (x * z + w * y) * c;
   2 * (x * y + w * z) * a + (1 - 2 * (x ^ 2 + z ^ 2)) * b + 2 * (y * z - w * x) * c;
   2 * (x * z - w * y) * a + 2 * (y * z + w * x) * b + (1 - 2 * (x ^ 2 + y ^ 2)) * c].
Definition unit_q (q : list R) : Prop :=
  length q = 4%nat /\ nth 0 q 0 ^ 2 + nth 1 q 0 ^ 2 + nth 2 q 0 ^ 2 + nth 3 q 0 ^ 2 = 1.
Definition plus3 (a b : list R) : list R := [nth 0 a 0 + nth 0 b 0; nth 1 a 0 + nth 1 b 0; nth 2 a 0 + nth 2 b 0].
Definition times3 (s : R) (a : list R) : list R := [s * nth 0 a 0; s * nth 1 a 0; s * nth 2 a 0].
(** The rigid motion v |-> q v + t. *)
Definition motion (t q v : list R) : list R := plus3 (rotated q v) t.

(** Everything a marker shows besides pose, header, id, action and lifetime. *)
Definition same_look (m m' : marker R) : Prop :=
  mk_ns m' = mk_ns m /\ mk_type m' = mk_type m /\ mk_scale m' = mk_scale m /\ mk_color m' = mk_color m /\ mk_locked m' = mk_locked m /\
  mk_points m' = mk_points m /\ mk_colors m' = mk_colors m /\ mk_mesh m' = mk_mesh m.
(** m' is m moved rigidly. *)
Definition moved (t q : list R) (m m' : marker R) : Prop :=
  same_look m m' /\ mk_position m' = motion t q (mk_position m) /\
  (unit_q (mk_orientation m) -> unit_q (mk_orientation m') /\
     forall v, rotated (mk_orientation m') v = rotated q (rotated (mk_orientation m) v)).
(** An arrow (type 0) between two points given in the frame itself. *)
Definition arrow (m : marker R) (ns : string) (from to color : list R) : Prop :=
  mk_type m = 0%Z /\ mk_ns m = ns /\ mk_position m = origin /\ mk_points m = [from; to] /\ mk_color m = color /\
  mk_scale m = [3 / 100; 6 / 100; 0].
(** The markers of one pose: body axes of length 0.3 in red, green, blue,
    acceleration, velocity, and the additional markers moved to the pose. *)
Definition shows (additional : list (marker R)) (p : point R) (b : list (marker R)) : Prop :=
  let o := pt_position p in
  let axis u := plus3 o (times3 (3 / 10) (rotated (pt_orientation p) u)) in
  exists x y z a v rest, b = [x; y; z; a; v] ++ rest /\
    arrow x "pose" o (axis [1; 0; 0]) [1; 0; 0; 1] /\ arrow y "pose" o (axis [0; 1; 0]) [0; 1; 0; 1] /\
    arrow z "pose" o (axis [0; 0; 1]) [0; 0; 1; 1] /\
    arrow a "acceleration" o (plus3 o (pt_acceleration p)) [190 / 255; 81 / 255; 80 / 255; 1] /\
    arrow v "velocity" o (plus3 o (pt_velocity p)) [80 / 255; 172 / 255; 196 / 255; 1] /\
    Forall2 (moved o (pt_orientation p)) additional rest.

(** The selected indices of a list of time stamps: each is the first one, from index
    i on, at least n after the stamp before it, t0 to begin with. *)
Fixpoint thinned (n : Z) (ts : list Z) (t0 : Z) (i : nat) (I : list nat) : Prop :=
  match I with
  | [] => forall k, (i <= k < length ts)%nat -> (nth k ts 0 - t0 < n)%Z
  | j :: I' => (i <= j < length ts)%nat /\ (n <= nth j ts 0 - t0)%Z /\
               (forall k, (i <= k < j)%nat -> (nth k ts 0 - t0 < n)%Z) /\ thinned n ts (nth j ts 0%Z) (S j) I'
  end.

(** Header fields of a freshly labelled array: frame, ADD, ids 0, 1, ..., no
    expiry. *)
Definition labelled {T} {ops : NumOps T} (frame : string) (ms : list (marker T)) : Prop :=
  forall i d, (i < length ms)%nat -> let m := nth i ms d in
    mk_frame m = frame /\ mk_action m = 0%Z /\ mk_id m = Z.of_nat i /\ mk_lifetime m = n0.
