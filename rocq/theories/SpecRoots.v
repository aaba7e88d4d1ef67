(** Specification of polynomials over the complex numbers and of what a deflating
    root finder reports; independent of the model. *)
From Coq Require Import Reals List.
From Coquelicot Require Import Complex.
From Verif Require Import RSum.
Import ListNotations.
Open Scope R_scope.

(** c0 + c1 z + c2 z^2 + ... *)
Fixpoint cpoly (cs : list R) (z : C) : C :=
  match cs with
  | [] => RtoC 0
  | c :: cs' => Cplus (RtoC c) (Cmult z (cpoly cs' z))
  end.
(** The product of z - r over the list. *)
Fixpoint from_roots (rs : list C) (z : C) : C :=
  match rs with
  | [] => RtoC 1
  | r :: rs' => Cmult (Cminus z r) (from_roots rs' z)
  end.

(** 2^-52. *)
Definition macheps : R := / 2 ^ 52.

(** The bound on the rounding error of Horner's scheme at s, relative to
    [macheps], for coefficients in decreasing order: half of |p0 s^N| plus the
    moduli of the intermediate results. *)
Definition real_error (p : list R) (s : R) : R :=
  let N := (length p - 1)%nat in
  Rabs (nth 0 p 0) * Rabs s ^ N / 2 +
  rsum N (fun i => Rabs (fst (cpoly (rev (firstn (i + 2) p)) (RtoC s))) * Rabs s ^ (N - 1 - i)).
(** The same for the division by z^2 + u z + v with quotient q and remainder
    b (z + u) + a; x is the real part of the first zero of the divisor. *)
Definition pair_error (q : list R) (a b x v : R) : R :=
  let m := sqrt (Rabs v) in
  let n := length q in
  9 * (2 * Rabs (nth 0 q 0) * m ^ (n + 1) + rsum (n - 1) (fun i => Rabs (nth (i + 1) q 0) * m ^ (n - i)) + Rabs b * m + Rabs (a - x * b))
  + 2 * Rabs (x * b) - 7 * (Rabs (a - x * b) + m * Rabs b).

(** [found p zs]: zs can be reported for the polynomial with the coefficients p
    (decreasing).  Up to degree two the zeros are exact.  Otherwise a real zero
    or a pair of zeros is split off; the remainder, that is the value at the real
    zero and at the second zero of the pair, is small compared to the rounding
    error, and the search goes on with the quotient, or it is given up. *)
Inductive found : list R -> list C -> Prop :=
| found_constant : forall c, found [c] []
| found_linear : forall a b r, (forall z, cpoly [b; a] z = Cmult (RtoC a) (from_roots [r] z)) -> found [a; b] [r]
| found_quadratic : forall a b c r1 r2,
    (forall z, cpoly [c; b; a] z = Cmult (RtoC a) (from_roots [r1; r2] z)) -> found [a; b; c] [r1; r2]
| found_given_up : forall p, (4 <= length p)%nat -> found p []
| found_real : forall p k s q e zs, (4 <= length p)%nat -> k <> 0 ->
    (forall z, Cmult (RtoC k) (cpoly (rev p) z) = Cplus (Cmult (Cminus z (RtoC s)) (cpoly (rev q) z)) (RtoC e)) ->
    Rabs e <= 20 * macheps * (2 * real_error (map (Rmult k) p) s - Rabs e) ->
    found q zs -> found p (RtoC s :: zs)
| found_pair : forall p k u v q a b r1 r2 zs, (4 <= length p)%nat -> k <> 0 ->
    (forall z, Cmult (RtoC k) (cpoly (rev p) z) =
      Cplus (Cmult (from_roots [r1; r2] z) (cpoly (rev q) z)) (Cplus (Cmult (RtoC b) (Cplus z (RtoC u))) (RtoC a))) ->
    (forall z, from_roots [r1; r2] z = cpoly [v; u; 1] z) ->
    (let w := Cmult (RtoC k) (cpoly (rev p) r2) in Rabs (fst w) + Rabs (snd w) <= 20 * (pair_error q a b (fst r1) v * macheps)) ->
    found q zs -> found p (r1 :: r2 :: zs).
