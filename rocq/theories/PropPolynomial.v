(** C01-C05: polynomial evaluation and algebra.
    Real-number instance of the model; specification: [poly_fun] (SpecPoly) and
    Coquelicot's [is_derive_n]. *)
From Coq Require Import Reals Lra Lia List Arith ZArith Bool.
From Coquelicot Require Import Coquelicot.
From Verif Require Import Num RSum SpecPoly ModelPolynomial ProofPolynomial ProofPolynomial2.
Import ListNotations.
Open Scope R_scope.

(** * C01 *)
Theorem C01_evaluate_is_derivative :
  forall (c : list R) (t : R) (d : Z),
    (0 <= d)%Z -> (length c <= 22)%nat \/ (Z.of_nat (length c) <= d)%Z ->
    exists v, poly_evaluate c t d = Ok v /\ is_derive_n (poly_fun c) (Z.to_nat d) t v.
Proof. exact evaluate_is_derivative. Qed.
Print Assumptions C01_evaluate_is_derivative.

Example C01_evaluate_is_derivative_nonvacuous :
  (0 <= 1)%Z /\ ((length [1; 2; 3] <= 22)%nat \/ (Z.of_nat (length [1; 2; 3]) <= 1)%Z) /\
  poly_evaluate [1; 2; 3] 2 1 = Ok 14.
Proof. exact evaluate_example. Qed.

(** The only undefined calls: a derivative order below zero or more than 22
    coefficients (with an order below N); there is no other failure. *)
Theorem C01_evaluate_undefined_iff :
  forall (c : list R) (t : R) (d : Z),
    (poly_evaluate c t d = UB <->
     (d < Z.of_nat (length c))%Z /\ ((d < 0)%Z \/ (22 < length c)%nat)) /\
    poly_evaluate c t d <> Abort /\ poly_evaluate c t d <> Throw.
Proof. exact evaluate_undefined_iff. Qed.
Print Assumptions C01_evaluate_undefined_iff.

Theorem C01_evaluate_vector :
  forall (c : list R) (t : R) (n : nat),
    (n <= length c <= 22)%nat ->
    exists v, poly_evaluate_vec c t n = Ok v /\ length v = n /\
      forall i, (i < n)%nat -> is_derive_n (poly_fun c) i t (nth i v 0).
Proof. exact evaluate_vector. Qed.
Print Assumptions C01_evaluate_vector.

Example C01_evaluate_vector_nonvacuous : (2 <= length [1; 2; 3] <= 22)%nat.
Proof. cbn. lia. Qed.

Theorem C01_evaluate_vector_abort_iff :
  forall (c : list R) (t : R) (n : nat),
    poly_evaluate_vec c t n = Abort <-> (length c < n)%nat.
Proof. exact evaluate_vector_abort_iff. Qed.
Print Assumptions C01_evaluate_vector_abort_iff.

(** Table entries: falling factorials. *)
Theorem C01_base_coefficient_values :
  forall n i : nat,
    ((i < n)%nat -> @base_coefficient R R_ops n i = 0) /\
    ((n <= i)%nat -> @base_coefficient R R_ops n i = INR (fact i) / INR (fact (i - n))).
Proof. exact base_coefficient_values. Qed.
Print Assumptions C01_base_coefficient_values.

(** * C02 *)
Theorem C02_getCoefficients_is_derivative :
  forall (c cs : list R) (d : Z),
    poly_getCoefficients c d = Ok cs ->
    length cs = length c /\
    (forall t, is_derive_n (poly_fun c) (Z.to_nat d) t (poly_fun cs t)) /\
    (forall t, poly_evaluate c t d = Ok (poly_fun cs t) \/ (22 < length c)%nat).
Proof. exact getCoefficients_is_derivative. Qed.
Print Assumptions C02_getCoefficients_is_derivative.

Theorem C02_getCoefficients_outcomes :
  forall (c : list R) (d : Z),
    (poly_getCoefficients c d = Abort <-> (Z.of_nat (length c) < d)%Z) /\
    ((length c <= 21)%nat -> (0 <= d <= Z.of_nat (length c))%Z ->
     exists cs, poly_getCoefficients c d = Ok cs) /\
    (length c = 22%nat -> (0 <= d < 22)%Z -> exists cs, poly_getCoefficients c d = Ok cs) /\
    ((d < 0)%Z -> poly_getCoefficients c d = UB).
Proof. exact getCoefficients_outcomes. Qed.
Print Assumptions C02_getCoefficients_outcomes.

Example C02_nonvacuous : poly_getCoefficients [1; 2; 3] 1 = Ok [2; 6; 0].
Proof. exact getCoefficients_example. Qed.

(** * C03 *)
Theorem C03_convolve_is_product :
  forall (a b : list R),
    (1 <= length a)%nat -> (1 <= length b)%nat ->
    exists r, convolve a b = Ok r /\ length r = (length a + length b - 1)%nat /\
      (forall t, poly_fun r t = poly_fun a t * poly_fun b t) /\
      convolve b a = Ok r /\ poly_mul a b = Ok r /\ convolve_fixed a b = r.
Proof. exact convolve_is_product. Qed.
Print Assumptions C03_convolve_is_product.

Theorem C03_convolve_coefficients :
  forall (a b r : list R) (i : nat),
    convolve a b = Ok r -> (i < length r)%nat ->
    nth i r 0 = rsum (S i) (fun k => nth k b 0 * nth (i - k) a 0).
Proof. exact convolve_coefficients. Qed.
Print Assumptions C03_convolve_coefficients.

Theorem C03_convolve_undefined_iff :
  forall (a b : list R), convolve a b = UB <-> a = [] /\ b = [].
Proof. exact convolve_undefined_iff. Qed.
Print Assumptions C03_convolve_undefined_iff.

Example C03_nonvacuous : convolve [1; 2] [3; 4; 5] = Ok [3; 10; 13; 10].
Proof. exact convolve_example. Qed.

(** * C04 *)
Theorem C04_add :
  forall (c d : list R),
    (length c = length d -> exists r, poly_add c d = Ok r /\ length r = length c /\
        forall t, poly_fun r t = poly_fun c t + poly_fun d t) /\
    (length c <> length d -> poly_add c d = UB).
Proof. exact add_spec. Qed.
Print Assumptions C04_add.

Theorem C04_scalar_mul :
  forall (c : list R) (s t : R),
    length (poly_scalar_mul c s) = length c /\
    poly_fun (poly_scalar_mul c s) t = s * poly_fun c t.
Proof. exact scalar_mul_spec. Qed.
Print Assumptions C04_scalar_mul.

Theorem C04_scale_in_time :
  forall (c : list R) (s : R),
    length (poly_scale_time c s) = length c /\
    forall (d : nat) (t v : R),
      is_derive_n (poly_fun c) d (s * t) v ->
      is_derive_n (poly_fun (poly_scale_time c s)) d t (s ^ d * v).
Proof. exact scale_in_time_spec. Qed.
Print Assumptions C04_scale_in_time.

Theorem C04_offset :
  forall (c : list R) (o : R),
    length (poly_offset c o) = length c /\
    (c <> [] -> forall t, poly_fun (poly_offset c o) t = poly_fun c t + o) /\
    (c = [] -> poly_offset c o = []) /\
    forall (d : nat) (t v : R),
      is_derive_n (poly_fun c) (S d) t v ->
      is_derive_n (poly_fun (poly_offset c o)) (S d) t v.
Proof. exact offset_spec. Qed.
Print Assumptions C04_offset.

Theorem C04_append_coefficients :
  forall (c : list R) (n : Z),
    let '(ok, c') := poly_append c n in
    (ok = true <-> (Z.of_nat (length c) <= n)%Z) /\
    (ok = true -> Z.of_nat (length c') = n) /\
    (ok = false -> c' = c) /\
    (forall t, poly_fun c' t = poly_fun c t) /\
    (forall i, (i < length c)%nat -> nth i c' 0 = nth i c 0).
Proof. exact append_coefficients_spec. Qed.
Print Assumptions C04_append_coefficients.

Theorem C04_equality :
  forall (c d : list R),
    (length c = length d -> (poly_eqb c d = Ok true <-> c = d) /\ (poly_eqb c d = Ok false <-> c <> d)) /\
    (length c <> length d -> poly_eqb c d = UB).
Proof. exact equality_spec. Qed.
Print Assumptions C04_equality.

Theorem C04_set_coefficients :
  forall (c d : list R),
    (length c = length d -> poly_setCoefficients c d = Ok d) /\
    (length c <> length d -> poly_setCoefficients c d = Abort).
Proof. exact set_coefficients_spec. Qed.
Print Assumptions C04_set_coefficients.

(** The operations on 1 + 2 t and 3 + 4 t, and on polynomials of different lengths. *)
Example C04_operations_example :
  poly_add [1; 2] [3; 4] = Ok [1 + 3; 2 + 4] /\ @poly_add R R_ops [1; 2] [3] = UB /\
  poly_fun (poly_scalar_mul [1; 2] 5) 7 = 75 /\
  poly_fun (poly_scale_time [1; 2] 3) 7 = 43 /\
  poly_fun (poly_offset [1; 2] 10) 7 = 25 /\
  (fst (poly_append [1; 2] 4) = true /\ poly_fun (snd (poly_append [1; 2] 4)) 7 = 15) /\ poly_append [1; 2] 1 = (false, [1; 2]) /\
  poly_eqb [1; 2] [1; 2] = Ok true /\ poly_eqb [1; 2] [1; 3] = Ok false /\ @poly_eqb R R_ops [1; 2] [1] = UB /\
  poly_setCoefficients [1; 2] [3; 4] = Ok [3; 4] /\ @poly_setCoefficients R [1; 2] [3] = Abort.
Proof.
  split; [reflexivity|]. split; [apply C04_add; cbn; lia|].
  split; [rewrite (proj2 (C04_scalar_mul _ _ _)); unfold poly_fun; cbn; lra|].
  split; [unfold poly_fun, poly_scale_time; cbn; lra|].
  split; [rewrite (proj1 (proj2 (C04_offset [1; 2] 10))) by discriminate; unfold poly_fun; cbn; lra|].
  split.
  { pose proof (C04_append_coefficients [1; 2] 4) as H. destruct (poly_append [1; 2] 4) as [ok c']. destruct H as (H1 & _ & _ & H4 & _).
    split; [apply H1; cbn; lia|]. cbn [snd]. rewrite H4. unfold poly_fun; cbn; lra. }
  split; [reflexivity|].
  split; [apply (proj1 (C04_equality [1; 2] [1; 2]) eq_refl); reflexivity|].
  split; [apply (proj1 (C04_equality [1; 2] [1; 3]) eq_refl); intros E; inversion E; lra|].
  split; [apply C04_equality; cbn; lia|].
  split; [apply (proj1 (C04_set_coefficients [1; 2] [3; 4])); reflexivity|apply C04_set_coefficients; cbn; lia].
Qed.

(** * C05 *)
(** Exact for t = 0 and |t| >= machine epsilon; in between the code uses t = 0. *)
Theorem C05_baseCoeffsWithTime_exact :
  forall (N d : Z) (t : R) (v c : list R),
    baseCoeffsWithTime N d t = Ok v -> Z.of_nat (length c) = N ->
    t = 0 \/ / 2 ^ 52 <= Rabs t ->
    is_derive_n (poly_fun c) (Z.to_nat d) t (rsum (length v) (fun i => nth i v 0 * nth i c 0)).
Proof. exact baseCoeffsWithTime_exact. Qed.
Print Assumptions C05_baseCoeffsWithTime_exact.

Theorem C05_baseCoeffsWithTime_small_t :
  forall (N d : Z) (t : R) (v c : list R),
    baseCoeffsWithTime N d t = Ok v -> Z.of_nat (length c) = N ->
    Rabs t < / 2 ^ 52 ->
    is_derive_n (poly_fun c) (Z.to_nat d) 0 (rsum (length v) (fun i => nth i v 0 * nth i c 0)).
Proof. exact baseCoeffsWithTime_small. Qed.
Print Assumptions C05_baseCoeffsWithTime_small_t.

(** The full statement (exactness for every t) is false. *)
Theorem C05_exact_for_every_t_refuted :
  exists (N d : Z) (t : R) (v c : list R),
    baseCoeffsWithTime N d t = Ok v /\ Z.of_nat (length c) = N /\
    ~ is_derive_n (poly_fun c) (Z.to_nat d) t (rsum (length v) (fun i => nth i v 0 * nth i c 0)).
Proof. exact baseCoeffsWithTime_inexact. Qed.
Print Assumptions C05_exact_for_every_t_refuted.

Theorem C05_baseCoeffsWithTime_outcomes :
  forall (N d : Z) (t : R),
    (baseCoeffsWithTime N d t = Abort <-> (d < 0 \/ N <= d)%Z) /\
    ((0 <= d < N)%Z -> (N <= 22)%Z -> exists v, baseCoeffsWithTime N d t = Ok v /\ Z.of_nat (length v) = N).
Proof. exact baseCoeffsWithTime_outcomes. Qed.
Print Assumptions C05_baseCoeffsWithTime_outcomes.

Example C05_nonvacuous :
  baseCoeffsWithTime 3 1 2 = Ok [0; 1; 4] /\ (2 = 0 \/ / 2 ^ 52 <= Rabs 2).
Proof. exact baseCoeffs_example. Qed.
