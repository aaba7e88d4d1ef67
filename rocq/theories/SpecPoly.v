(** Specification of polynomials as real functions; independent of the model. *)
From Coq Require Import Reals List.
Import ListNotations.
From Verif Require Import RSum.
Open Scope R_scope.

(** The function t |-> c0 + c1 t + ... + c(n-1) t^(n-1). *)
Definition poly_fun (c : list R) (t : R) : R :=
  rsum (length c) (fun i => nth i c 0 * t ^ i).

(** A list of complex numbers (re, im) covers the real zeros of g in (a, b):
    either g vanishes identically there, or every zero appears with an imaginary
    part of at most 2^-52.  Extra entries are allowed. *)
Definition covers_real_roots (g : R -> R) (a b : R) (roots : list (R * R)) : Prop :=
  (forall t, a < t < b -> g t = 0) \/
  (forall t, a < t < b -> g t = 0 -> exists im, Rabs im <= / 2 ^ 52 /\ In (t, im) roots).

(** The root finder finds all real roots of every polynomial and interval. *)
Definition perfect_root_finder (rf : list R -> bool * list (R * R)) : Prop :=
  forall cs a b, covers_real_roots (poly_fun cs) a b (snd (rf cs)).

(** m is the minimum (maximum) of f over [a, b], attained at x. *)
Definition is_min_on (f : R -> R) (a b x m : R) : Prop :=
  a <= x <= b /\ f x = m /\ forall t, a <= t <= b -> m <= f t.
Definition is_max_on (f : R -> R) (a b x m : R) : Prop :=
  a <= x <= b /\ f x = m /\ forall t, a <= t <= b -> f t <= m.

(** t is the first element of cs with the least (greatest) value v of ev. *)
Definition first_argmin (ev : R -> R) (cs : list R) (t v : R) : Prop :=
  exists pre post, cs = pre ++ t :: post /\ v = ev t /\
    (forall x, In x pre -> v < ev x) /\ (forall x, In x post -> v <= ev x).
Definition first_argmax (ev : R -> R) (cs : list R) (t v : R) : Prop :=
  exists pre post, cs = pre ++ t :: post /\ v = ev t /\
    (forall x, In x pre -> ev x < v) /\ (forall x, In x post -> ev x <= v).
