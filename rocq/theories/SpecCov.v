(** Specification of a drawn covariance: the set of points of the ellipsoid; independent of
    ModelCov.v (only the marker record of ModelVis.v is used). *)
From Coq Require Import ZArith Reals List String.
From Verif Require Import Num ModelVis SpecVis.
Import ListNotations.
Notation length := List.length.
Open Scope R_scope.

Definition dot3 (a b : list R) : R := nth 0 a 0 * nth 0 b 0 + nth 1 a 0 * nth 1 b 0 + nth 2 a 0 * nth 2 b 0.
Definition minus3 (a b : list R) : list R := [nth 0 a 0 - nth 0 b 0; nth 1 a 0 - nth 1 b 0; nth 2 a 0 - nth 2 b 0].
(** Product of a matrix, given by its columns, with a vector. *)
Definition mat3 (A : list (list R)) (w : list R) : list R :=
  plus3 (plus3 (times3 (nth 0 w 0) (nth 0 A [])) (times3 (nth 1 w 0) (nth 1 A []))) (times3 (nth 2 w 0) (nth 2 A [])).
(** Variance in direction w of a distribution with covariance A. *)
Definition variance (A : list (list R)) (w : list R) : R := dot3 w (mat3 A w).
(** A symmetric matrix, and what an eigenvalue solver returns for it: orthonormal vectors,
    each mapped to a multiple of itself. *)
Definition eigen_of (A : list (list R)) (ev : list R) (V : list (list R)) : Prop :=
  (forall i j, (i < 3)%nat -> (j < 3)%nat -> dot3 (nth i V []) (nth j V []) = if Nat.eqb i j then 1 else 0) /\
  (forall k, (k < 3)%nat -> mat3 A (nth k V []) = times3 (nth k ev 0) (nth k V [])).
Definition symmetric3 (A : list (list R)) : Prop :=
  forall i j, (i < 3)%nat -> (j < 3)%nat -> nth i (nth j A []) 0 = nth j (nth i A []) 0.
(** The points within n standard deviations of mu in every direction. *)
Definition within_sigmas (mu : list R) (A : list (list R)) (n : R) (p : list R) : Prop :=
  length p = 3%nat /\ forall w, length w = 3%nat -> (dot3 w (minus3 p mu)) ^ 2 <= n ^ 2 * variance A w.
(** The points of a sphere marker (type 2): the ball of diameter 1, scaled along the axes of
    the marker, rotated and moved by its pose. *)
Definition shown_ellipsoid (m : marker R) (p : list R) : Prop :=
  mk_type m = 2%Z /\
  exists y, length y = 3%nat /\ dot3 y y <= (1 / 2) ^ 2 /\
    p = motion (mk_position m) (mk_orientation m)
          [nth 0 (mk_scale m) 0 * nth 0 y 0; nth 1 (mk_scale m) 0 * nth 1 y 0; nth 2 (mk_scale m) 0 * nth 2 y 0].
Definition shape3 (A : list (list R)) : Prop := length A = 3%nat /\ Forall (fun c => length c = 3%nat) A.
(** The eigenvalue solver is right about the symmetric matrix that has the same variances as A
    (there is exactly one such matrix). *)
Definition solves (solver : list (list R) -> list R * list (list R)) (A : list (list R)) : Prop :=
  forall S, shape3 S -> symmetric3 S -> (forall w, variance S w = variance A w) -> eigen_of S (fst (solver S)) (snd (solver S)).
