(** Specification of segment-level notions; independent of the model's code. *)
From Coq Require Import Reals List ZArith.
From Coquelicot Require Import Coquelicot.
From Verif Require Import RSum SpecPoly ModelSegment.
Import ListNotations.
Open Scope R_scope.

(** Every polynomial of the segment has N_ coefficients. *)
Definition seg_wf {T} (s : segment T) : Prop := List.Forall (fun p => length p = seg_N s) (seg_polys s).

(** Component k of the d-th derivative of the motion described by a segment. *)
Definition seg_fun (s : segment R) (k d : nat) (t : R) : R :=
  Derive_n (poly_fun (nth k (seg_polys s) [])) d t.

(** Euclidean norm of the d-th derivative over the listed dimensions. *)
Definition seg_norm (s : segment R) (dims : list Z) (d : nat) (t : R) : R :=
  sqrt (lsum (map (fun k => seg_fun s (Z.to_nat k) d t ^ 2) dims)).

(** The listed dimensions exist in the segment. *)
Definition dims_ok {T} (s : segment T) (dims : list Z) : Prop :=
  List.Forall (fun k => (0 <= k < Z.of_nat (seg_D s))%Z) dims.
