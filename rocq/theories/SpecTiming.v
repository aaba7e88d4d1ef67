(** Specification notions for timing statistics; independent of the model. *)
From Coq Require Import Reals List.
From Verif Require Import RSum.
Import ListNotations.
Open Scope R_scope.

(** The last k elements (all, if there are fewer). *)
Definition recent {A} (k : nat) (xs : list A) : list A := skipn (length xs - k) xs.
Definition mean (xs : list R) : R := lsum xs / INR (length xs).
Definition variance (xs : list R) : R := mean (map (fun x => (x - mean xs) ^ 2) xs).
