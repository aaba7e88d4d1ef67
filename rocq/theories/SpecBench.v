(** Specification notions for the benchmark. *)
From Coq Require Import ZArith Reals List Sorted.
From Verif Require Import Num RSum ModelPolynomial ModelSegment ModelVertex ModelTrajectory SpecSegment SpecVertex SpecTrajectory SpecVis.
Import ListNotations.
Open Scope R_scope.

(** Length of the polygonal path through all points. *)
Definition polyline (Q : list (list R)) : R := path_length Q 0 (List.length Q - 1).
(** The points of the line through B and C; between them for s in [0, 1]. *)
Definition line_point (B C : list R) (s : R) : list R :=
  [(1 - s) * nth 0 B 0 + s * nth 0 C 0; (1 - s) * nth 1 B 0 + s * nth 1 C 0; (1 - s) * nth 2 B 0 + s * nth 2 C 0].
(** d is the smallest distance of A from a point of the line. *)
Definition distance_to_line (A B C : list R) (d : R) : Prop :=
  (forall s, d <= dist3 A (line_point B C s)) /\ exists s, d = dist3 A (line_point B C s).

(** m is the maximum over the duration of s of the norm of the d-th derivative. *)
Definition segment_maximum (s : segment R) (dims : list Z) (d : nat) (m : R) : Prop :=
  (exists t, 0 <= t <= seg_time s /\ seg_norm s dims d t = m) /\
  forall t, 0 <= t <= seg_time s -> seg_norm s dims d t <= m.

(** The samples of the position of s at 0, dt, 2 dt, ... before its end. *)
Definition position_samples (s : segment R) (dt : R) (Q : list (list R)) : Prop :=
  (forall k, (k < List.length Q)%nat <-> INR k * dt < seg_time s) /\
  forall k, (k < List.length Q)%nat -> nth k Q origin = seg_value s (INR k * dt) 0.
(** The area under the distances f along the path Q by the trapezoidal rule. *)
Definition trapezoids (f : list R -> R) (Q : list (list R)) : R :=
  lsum (map (fun k => (f (nth k Q origin) + f (nth (S k) Q origin)) / 2 * dist3 (nth k Q origin) (nth (S k) Q origin))
    (seq 0 (List.length Q - 1))).

(** drawn: of the points Q those at the positions 9, 19, 29, ... whose coordinates
    are within 100 m, in order. *)
Definition within_100 (p : list R) : Prop := forall c, In c p -> -100 <= c <= 100.
Definition every_tenth (Q drawn : list (list R)) : Prop :=
  exists idx, drawn = map (fun i => nth i Q origin) idx /\ Sorted.StronglySorted lt idx /\
    forall i, In i idx <-> (i < List.length Q)%nat /\ (exists q, i = (10 * q + 9)%nat) /\ within_100 (nth i Q origin).
