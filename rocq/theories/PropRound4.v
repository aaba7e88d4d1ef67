(** C99: rounding errors of the polynomial arithmetic in doubles. *)
From Coq Require Import ZArith Reals List Bool Lia Lra.
From Coquelicot Require Import Coquelicot.
From Flocq Require Import IEEE754.BinarySingleNaN Core.
From Verif Require Import Num RSum ModelPolynomial SpecPoly ProofPolynomial ProofPolynomial2 ProofRound PropPolynomial PropRound PropRound2 PropRound3.
Import ListNotations.
Open Scope R_scope.
Local Arguments bpow : simpl never.

(** The polynomial with absolute coefficients. *)
Definition abs_poly (c : list b64) : list R := map Rabs (map B2R c).
Lemma coeff_R (c : list b64) i : nth i (map B2R c) 0 = B2R (@coeff b64 B64_ops c i).
Proof. unfold coeff. replace 0 with (B2R (@n0 b64 B64_ops)) by (vm_compute; reflexivity). apply map_nth. Qed.
Lemma coeff_abs (c : list b64) i : nth i (abs_poly c) 0 = Rabs (B2R (@coeff b64 B64_ops c i)).
Proof. unfold abs_poly. rewrite <- Rabs_R0 at 1. rewrite map_nth, coeff_R. reflexivity. Qed.
Lemma poly_diff (r e w : list R) t : length r = length e -> length w = length e ->
  (forall i, (i < length e)%nat -> Rabs (nth i r 0 - nth i e 0) <= nth i w 0) -> Rabs (poly_fun r t - poly_fun e t) <= poly_fun w (Rabs t).
Proof.
  intros Lr Lw H. unfold poly_fun. rewrite Lr, Lw, <- rsum_minus. eapply Rle_trans; [apply rsum_abs|]. apply rsum_le. intros i Hi.
  replace (nth i r 0 * t ^ i - nth i e 0 * t ^ i) with ((nth i r 0 - nth i e 0) * t ^ i) by ring. rewrite Rabs_mult, <- RPow_abs.
  apply Rmult_le_compat_r; [apply pow_le, Rabs_pos|now apply H].
Qed.
Lemma poly_map_seq n g t : poly_fun (map g (seq 0 n)) t = rsum n (fun i => g i * t ^ i).
Proof.
  unfold poly_fun. rewrite map_length, seq_length. apply rsum_ext. intros i Hi. rewrite (nth_map_lt _ _ _ 0%nat) by (rewrite seq_length; exact Hi).
  rewrite seq_nth by exact Hi. reflexivity.
Qed.

(** A sum of products. *)
Lemma sum_step (acc x y : b64) A SA m E : (1 <= m)%nat -> 0 <= E -> near m E (B2R acc) A SA ->
  is_finite (@nadd b64 B64_ops acc (@nmul b64 B64_ops x y)) = true ->
  near (S m) ((1 + u64) * (E + h64)) (B2R (@nadd b64 B64_ops acc (@nmul b64 B64_ops x y))) (A + B2R x * B2R y) (SA + Rabs (B2R x * B2R y)).
Proof.
  intros Hm HE (H1 & H2) F. destruct (add_err _ _ F) as (_ & Fm & Ea). destruct (mul_err _ _ Fm) as (_ & _ & Em).
  set (r := B2R (nadd _ _)) in *. set (f := B2R (nmul _ _)) in *. set (g := B2R x * B2R y) in *. set (a := B2R acc) in *.
  assert (U := u64_pos). assert (H0 := h64_pos). assert (Q := pow_u_ge m). split; [eapply Rle_trans; [apply Rabs_triang|lra]|].
  assert (SA0 : 0 <= SA) by (eapply Rle_trans; [apply Rabs_pos|exact H1]). set (G := Rabs g) in *. assert (G0 : 0 <= G) by apply Rabs_pos.
  assert (Q1 : 1 + u64 <= (1 + u64) ^ m) by (replace (1 + u64) with ((1 + u64) ^ 1) at 1 by ring; apply Rle_pow; [lra|exact Hm]).
  rewrite <- tech_pow_Rmult. set (q := (1 + u64) ^ m) in *.
  assert (Aa : Rabs a <= q * SA + E). { replace a with ((a - A) + A) by ring. eapply Rle_trans; [apply Rabs_triang|]. lra. }
  assert (Af : Rabs f <= (1 + u64) * G + h64). { replace f with ((f - g) + g) by ring. eapply Rle_trans; [apply Rabs_triang|]. fold G. lra. }
  assert (T : u64 * Rabs (a + f) <= u64 * (q * SA + E + ((1 + u64) * G + h64))) by (apply Rmult_le_compat_l; [lra|eapply Rle_trans; [apply Rabs_triang|lra]]).
  replace (r - (A + g)) with ((r - (a + f)) + ((a - A) + (f - g))) by ring. eapply Rle_trans; [apply Rabs_triang|].
  apply Rle_trans with (u64 * (q * SA + E + ((1 + u64) * G + h64)) + (((q - 1) * SA + E) + (u64 * G + h64))).
  - apply Rplus_le_compat; [lra|]. eapply Rle_trans; [apply Rabs_triang|]. lra.
  - assert (X : (1 + u64) * (1 + u64) * G <= (1 + u64) * q * G) by (apply Rmult_le_compat_r; [exact G0|apply Rmult_le_compat_l; lra]). lra.
Qed.
Section Dot.
  Context (x y : nat -> b64).
  Let step := fun (acc : b64) k => @nadd b64 B64_ops acc (@nmul b64 B64_ops (x k) (y k)).
  Lemma fold_finite l : forall acc, is_finite (fold_left step l acc) = true -> is_finite acc = true.
  Proof. induction l as [|k l IH]; intros acc H; cbn [fold_left] in H; [exact H|]. apply IH in H. now apply add_err in H. Qed.
  Lemma fold_near l : forall acc A SA m E, (1 <= m)%nat -> 0 <= E -> near m E (B2R acc) A SA -> is_finite (fold_left step l acc) = true ->
    near (m + length l) ((1 + u64) ^ length l * (E + INR (length l) * h64)) (B2R (fold_left step l acc))
         (fold_left (fun a k => a + B2R (x k) * B2R (y k)) l A) (fold_left (fun a k => a + Rabs (B2R (x k)) * Rabs (B2R (y k))) l SA).
  Proof.
    assert (U := u64_pos). assert (H0 := h64_pos). induction l as [|k l IH]; intros acc A SA m E Hm HE HN F; cbn [fold_left length].
    - rewrite Nat.add_0_r. cbn [pow INR]. replace (1 * (E + 0 * h64)) with E by ring. exact HN.
    - cbn [fold_left] in F. assert (Fs := fold_finite _ _ F). assert (St := sum_step acc (x k) (y k) A SA m E Hm HE HN Fs). rewrite Rabs_mult in St.
      assert (E0 : 0 <= (1 + u64) * (E + h64)) by (apply Rmult_le_pos; lra). specialize (IH _ _ _ (S m) _ ltac:(lia) E0 St F). replace (m + S (length l))%nat with (S m + length l)%nat by lia.
      eapply near_weak; [|exact IH]. rewrite S_INR. cbn [pow]. set (n := INR (length l)). assert (N0 : 0 <= n) by apply pos_INR.
      assert (P0 := pow_u_ge (length l)). set (p := (1 + u64) ^ length l) in *.
      replace ((1 + u64) * p * (E + (n + 1) * h64)) with (p * ((1 + u64) * (E + h64) + n * h64) + u64 * p * (n * h64)) by ring.
      assert (0 <= u64 * p * (n * h64)) by (repeat apply Rmult_le_pos; lra). lra.
  Qed.
  Lemma fold_fin l : forall acc n, (n + length l <= 22)%nat -> is_finite acc = true -> Rabs (B2R acc) <= 2 ^ (941 + 2 * n) ->
    (forall k, In k l -> is_finite (x k) = true /\ is_finite (y k) = true /\ Rabs (B2R (x k)) <= 2 ^ 470 /\ Rabs (B2R (y k)) <= 2 ^ 470) ->
    is_finite (fold_left step l acc) = true.
  Proof.
    assert (U := u64_pos). assert (U2 := u64_small). assert (H0 := h64_pos).
    assert (H1 : h64 <= 1) by (assert (Q := h64_big); assert (B := proj1 (proj2 big_bpow)); nra).
    induction l as [|k l IH]; intros acc n Hl Fa Ha Fxy; cbn [fold_left length] in *; [exact Fa|].
    destruct (Fxy k (or_introl eq_refl)) as (Fx & Fy & Bx & By).
    assert (P : Rabs (B2R (x k) * B2R (y k)) <= 2 ^ 940).
    { rewrite Rabs_mult. change 940%nat with (470 + 470)%nat. rewrite pow_add. apply Rmult_le_compat; auto using Rabs_pos. }
    assert (Bg : forall j, (j <= 990)%nat -> 2 ^ j <= big) by (intros j Hj; unfold big; apply Rle_pow; [lra|lia]).
    assert (B1 := proj1 (proj2 big_bpow)).
    assert (Fm : is_finite (@nmul b64 B64_ops (x k) (y k)) = true) by (apply mul_fin; [exact Fx|exact Fy|assert (Q := Bg 940%nat ltac:(lia)); lra]).
    destruct (mul_err _ _ Fm) as (_ & _ & Em). set (f := @nmul b64 B64_ops (x k) (y k)) in *.
    assert (Pf : Rabs (B2R f) <= 2 ^ 941).
    { replace (B2R f) with ((B2R f - B2R (x k) * B2R (y k)) + B2R (x k) * B2R (y k)) by ring. eapply Rle_trans; [apply Rabs_triang|].
      change 941%nat with (S 940). rewrite <- tech_pow_Rmult. assert (O : 2 <= 2 ^ 940) by (apply Rle_trans with (2 ^ 1); [lra|apply Rle_pow; [lra|lia]]).
      set (w := 2 ^ 940) in *. assert (0 <= Rabs (B2R (x k) * B2R (y k))) by apply Rabs_pos. nra. }
    assert (Le : 2 ^ 941 <= 2 ^ (941 + 2 * n)) by (apply Rle_pow; [lra|lia]).
    assert (Sm : Rabs (B2R acc + B2R f) <= 2 * 2 ^ (941 + 2 * n)) by (eapply Rle_trans; [apply Rabs_triang|lra]).
    assert (Fs : is_finite (step acc k) = true).
    { unfold step. fold f. apply add_fin; [exact Fa|exact Fm|]. assert (Q := Bg (941 + 2 * n)%nat ltac:(lia)). lra. }
    apply (IH (step acc k) (S n)); [lia|exact Fs| |intros j Hj; apply Fxy; now right].
    destruct (add_err _ _ Fs) as (_ & _ & Ea). fold f in Ea. change (@nadd b64 B64_ops acc f) with (step acc k) in Ea.
    replace (941 + 2 * S n)%nat with (S (S (941 + 2 * n))) by lia. rewrite <- !tech_pow_Rmult. set (w := 2 ^ (941 + 2 * n)) in *.
    replace (B2R (step acc k)) with ((B2R (step acc k) - (B2R acc + B2R f)) + (B2R acc + B2R f)) by ring. eapply Rle_trans; [apply Rabs_triang|].
    assert (0 <= Rabs (B2R acc + B2R f)) by apply Rabs_pos. nra.
  Qed.
End Dot.

Lemma convolve_entry_near (a b : list b64) i : is_finite (@convolve_entry b64 B64_ops a b i) = true ->
  exists n, (n <= length b)%nat /\ (n <= length a)%nat /\
    near (1 + n) ((1 + u64) ^ n * (0 + INR n * h64)) (B2R (@convolve_entry b64 B64_ops a b i))
      (@convolve_entry R R_ops (map B2R a) (map B2R b) i) (@convolve_entry R R_ops (abs_poly a) (abs_poly b) i).
Proof.
  unfold convolve_entry. unfold abs_poly. rewrite !map_length. set (di := (Z.of_nat i - Z.of_nat (length b) + 1)%Z).
  set (lo := Z.to_nat (Z.max 0 (- di))). set (up := Z.to_nat (Z.min (Z.of_nat (length b)) (Z.of_nat (length a) - di))). intros F.
  exists (up - lo)%nat. split; [unfold up; lia|]. split; [unfold up, lo; lia|].
  assert (Z0 : near 1 0 (B2R (@n0 b64 B64_ops)) 0 0).
  { replace (B2R (@n0 b64 B64_ops)) with 0 by (vm_compute; reflexivity). split; rewrite ?Rminus_0_r, Rabs_R0; lra. }
  assert (Q := fold_near (fun k => @coeff b64 B64_ops (rev b) k) (fun k => @coeff b64 B64_ops a (Z.to_nat (di + Z.of_nat k)))
              (seq lo (up - lo)) (@n0 b64 B64_ops) 0 0 1 0 (le_n _) (Rle_refl _) Z0 F). rewrite seq_length in Q.
  assert (Ef : forall (f g : R -> nat -> R) l z, (forall q k, f q k = g q k) -> fold_left f l z = fold_left g l z).
  { intros f g l. induction l as [|k l IH]; intros z H; cbn [fold_left]; [reflexivity|]. rewrite H. now apply IH. }
  match goal with |- near _ _ _ ?X ?Y =>
    replace X with (fold_left (fun q k => q + B2R (@coeff b64 B64_ops (rev b) k) * B2R (@coeff b64 B64_ops a (Z.to_nat (di + Z.of_nat k)))) (seq lo (up - lo)) 0);
    [replace Y with (fold_left (fun q k => q + Rabs (B2R (@coeff b64 B64_ops (rev b) k)) * Rabs (B2R (@coeff b64 B64_ops a (Z.to_nat (di + Z.of_nat k))))) (seq lo (up - lo)) 0); [exact Q|]|] end.
  - apply Ef. intros q k. rnum. f_equal. rewrite <- !coeff_abs. unfold coeff, abs_poly. now rewrite <- !map_rev.
  - apply Ef. intros q k. rnum. f_equal. rewrite <- !coeff_R. unfold coeff. now rewrite <- !map_rev.
Qed.
(** Operands of at most 22 coefficients: the product differs from the exact
    product of the functions by at most min(N1, N2) + 2 roundings of the product
    of the polynomials with absolute coefficients, and min(N1, N2) underflows
    for each coefficient. *)
Theorem C99_product (a b r : list b64) : (1 <= length a <= 22)%nat -> (1 <= length b <= 22)%nat ->
  @poly_mul b64 B64_ops a b = Ok r -> (forall x, In x r -> is_finite x = true) ->
  length r = (length a + length b - 1)%nat /\
  forall t, Rabs (poly_fun (map B2R r) t - poly_fun (map B2R a) t * poly_fun (map B2R b) t) <=
    INR (Nat.min (length a) (length b) + 2) * / 2 ^ 53 * (poly_fun (abs_poly a) (Rabs t) * poly_fun (abs_poly b) (Rabs t)) +
    INR (Nat.min (length a) (length b)) * / 2 ^ 1074 * rsum (length r) (fun i => Rabs t ^ i).
Proof.
  intros La Lb E F. fold u64. unfold poly_mul, convolve in E.
  set (n := Nat.min (length a) (length b)).
  destruct (Z.ltb_spec (getConvolutionLength (Z.of_nat (length a)) (Z.of_nat (length b))) 0) as [Hn|Hn]; [unfold getConvolutionLength in Hn; lia|].
  assert (En : Z.to_nat (getConvolutionLength (Z.of_nat (length a)) (Z.of_nat (length b))) = (length a + length b - 1)%nat) by (unfold getConvolutionLength; lia).
  rewrite En in E. injection E as <-. set (M := (length a + length b - 1)%nat) in *.
  rewrite map_length, seq_length. split; [reflexivity|]. intros t.
  destruct (C03_convolve_is_product (map B2R a) (map B2R b) ltac:(rewrite map_length; lia) ltac:(rewrite map_length; lia)) as (e & Ee & Le & Pe & _).
  destruct (C03_convolve_is_product (abs_poly a) (abs_poly b)) as (w & Ew & Lw & Pw & _); [unfold abs_poly; rewrite !map_length; lia..|].
  unfold convolve in Ee, Ew. unfold abs_poly in Lw, Ew. rewrite !map_length in *. fold (abs_poly a) (abs_poly b) in Ew. fold M in Le, Lw.
  destruct (Z.ltb_spec (getConvolutionLength (Z.of_nat (length a)) (Z.of_nat (length b))) 0) as [?|_]; [lia|]. rewrite En in Ee, Ew.
  injection Ee as <-. injection Ew as <-. rewrite <- Pe, <- Pw. assert (U := u64_pos). assert (H0 := h64_pos).
  replace (/ 2 ^ 1074) with (2 * h64).
  2:{ unfold h64. change 1075%nat with (S 1074). rewrite <- (tech_pow_Rmult 2 1074). generalize (pow_nonzero 2 1074 ltac:(lra)). generalize (2 ^ 1074). intros z Hz. field. exact Hz. }
  rewrite map_map. eapply Rle_trans; [apply (poly_diff _ _ (map (fun i => INR (n + 2) * u64 * @convolve_entry R R_ops (abs_poly a) (abs_poly b) i + INR n * (2 * h64)) (seq 0 M)))|].
  - now rewrite !map_length.
  - now rewrite !map_length.
  - intros i Hi. rewrite map_length, seq_length in Hi.
    rewrite !(nth_map_lt _ _ _ 0%nat) by (rewrite seq_length; exact Hi). rewrite !seq_nth by exact Hi. cbn [Nat.add].
    destruct (convolve_entry_near a b i) as (k & K1 & K2 & (_ & Q)); [apply F, in_map, in_seq; lia|].
    set (s := convolve_entry (abs_poly a) (abs_poly b) i) in *.
    assert (S0 : 0 <= s).
    { assert (G : forall l (g : nat -> R) z, (forall j, 0 <= g j) -> 0 <= z -> 0 <= fold_left (fun q j => q + g j) l z).
      { induction l as [|j l IH]; intros g z Hg Hz; cbn [fold_left]; [exact Hz|]. apply IH; [exact Hg|]. specialize (Hg j). lra. }
      unfold s, convolve_entry. rnum. change (@n0 R R_ops) with 0. apply G; [|lra]. intros j. unfold coeff. change (@n0 R R_ops) with 0. unfold abs_poly. rewrite <- !map_rev. fold (abs_poly (rev b)) (abs_poly a). 
      rewrite !coeff_abs. apply Rmult_le_pos; apply Rabs_pos. }
    eapply Rle_trans; [exact Q|]. destruct (small_power (1 + k) ltac:(lia)) as (W & _). destruct (small_power k ltac:(lia)) as (_ & W2).
    assert (Hk : (k <= n)%nat) by (unfold n; lia). apply Rplus_le_compat.
    + apply Rmult_le_compat_r; [exact S0|]. eapply Rle_trans; [exact W|]. apply Rmult_le_compat_r; [lra|]. apply le_INR. lia.
    + apply le_INR in Hk. assert (0 <= INR k) by apply pos_INR. assert (P1 := pow_u_ge k). rewrite Rplus_0_l.
      apply Rle_trans with (2 * (INR n * h64)); [apply Rmult_le_compat; try lra; [apply Rmult_le_pos; lra|apply Rmult_le_compat_r; lra]|lra].
  - rewrite !poly_map_seq, <- !rsum_scal, <- rsum_plus. right. apply rsum_ext. intros i Hi. ring.
Qed.
Print Assumptions C99_product.
Theorem C99_product_finite (a b : list b64) : (1 <= length a <= 22)%nat -> (1 <= length b <= 22)%nat ->
  (forall x, In x a \/ In x b -> is_finite x = true /\ Rabs (B2R x) <= 2 ^ 470) ->
  exists r, @poly_mul b64 B64_ops a b = Ok r /\ forall x, In x r -> is_finite x = true.
Proof.
  intros La Lb F. unfold poly_mul, convolve.
  destruct (Z.ltb_spec (getConvolutionLength (Z.of_nat (length a)) (Z.of_nat (length b))) 0) as [Hn|Hn]; [unfold getConvolutionLength in Hn; lia|].
  eexists. split; [reflexivity|]. intros x Hx. apply in_map_iff in Hx as (i & <- & _). unfold convolve_entry.
  set (di := (Z.of_nat i - Z.of_nat (length b) + 1)%Z). set (lo := Z.to_nat (Z.max 0 (- di))). set (up := Z.to_nat (Z.min (Z.of_nat (length b)) (Z.of_nat (length a) - di))).
  assert (Z0 : B2R (@n0 b64 B64_ops) = 0) by (vm_compute; reflexivity).
  assert (C : forall c k, (forall x, In x c -> is_finite x = true /\ Rabs (B2R x) <= 2 ^ 470) -> is_finite (@coeff b64 B64_ops c k) = true /\ Rabs (B2R (@coeff b64 B64_ops c k)) <= 2 ^ 470).
  { intros c k H. unfold coeff. destruct (nth_in_or_default k c (@n0 b64 B64_ops)) as [Hi|Hi]; [now apply H|]. rewrite Hi, Z0, Rabs_R0. split; [reflexivity|apply pow_le; lra]. }
  apply (fold_fin (fun k => @coeff b64 B64_ops (rev b) k) (fun k => @coeff b64 B64_ops a (Z.to_nat (di + Z.of_nat k))) (seq lo (up - lo)) (@n0 b64 B64_ops) 0).
  - rewrite seq_length. unfold up. lia.
  - reflexivity.
  - rewrite Z0, Rabs_R0. apply pow_le. lra.
  - intros k _. destruct (C (rev b) k) as (? & ?); [intros y Hy; apply F; right; now apply in_rev|].
    destruct (C a (Z.to_nat (di + Z.of_nat k))) as (? & ?); [intros y Hy; apply F; now left|]. auto.
Qed.
Print Assumptions C99_product_finite.

(** The sum: one rounding. *)
Theorem C99_sum (a b r : list b64) : @poly_add b64 B64_ops a b = Ok r -> (forall x, In x r -> is_finite x = true) ->
  length r = length a /\ forall t, Rabs (poly_fun (map B2R r) t - (poly_fun (map B2R a) t + poly_fun (map B2R b) t)) <=
    / 2 ^ 53 * (poly_fun (abs_poly a) (Rabs t) + poly_fun (abs_poly b) (Rabs t)).
Proof.
  unfold poly_add. destruct (Nat.eqb_spec (length a) (length b)) as [L|]; [|discriminate]. intros E F. injection E as <-. fold u64.
  assert (Lc : length (combine a b) = length a) by (rewrite combine_length; lia). split; [now rewrite map_length|]. intros t. assert (U := u64_pos).
  set (e := map (fun i => B2R (@coeff b64 B64_ops a i) + B2R (@coeff b64 B64_ops b i)) (seq 0 (length a))).
  set (w := map (fun i => u64 * (Rabs (B2R (@coeff b64 B64_ops a i)) + Rabs (B2R (@coeff b64 B64_ops b i)))) (seq 0 (length a))).
  assert (Ee : poly_fun (map B2R a) t + poly_fun (map B2R b) t = poly_fun e t).
  { unfold e. rewrite poly_map_seq. unfold poly_fun. rewrite !map_length, <- L, <- rsum_plus. apply rsum_ext. intros i Hi. rewrite !coeff_R. ring. }
  assert (Ew : u64 * (poly_fun (abs_poly a) (Rabs t) + poly_fun (abs_poly b) (Rabs t)) = poly_fun w (Rabs t)).
  { unfold w. rewrite poly_map_seq. unfold poly_fun. unfold abs_poly at 1 3. rewrite !map_length, <- L, <- rsum_plus, <- rsum_scal. apply rsum_ext. intros i Hi. rewrite !coeff_abs. ring. }
  rewrite Ee, Ew. apply poly_diff; [unfold e; rewrite !map_length, seq_length; exact Lc|unfold e, w; now rewrite !map_length|].
  intros i Hi. unfold e, w in *. rewrite map_length, seq_length in Hi. rewrite !(nth_map_lt _ _ _ 0%nat) by (rewrite seq_length; exact Hi). rewrite !seq_nth by exact Hi. cbn [Nat.add].
  rewrite map_map, (nth_map_lt _ _ _ (@n0 b64 B64_ops, @n0 b64 B64_ops)) by lia. rewrite combine_nth by exact L. cbn [fst snd].
  change (nth i a (@n0 b64 B64_ops)) with (@coeff b64 B64_ops a i). change (nth i b (@n0 b64 B64_ops)) with (@coeff b64 B64_ops b i).
  assert (Fi : is_finite (@nadd b64 B64_ops (@coeff b64 B64_ops a i) (@coeff b64 B64_ops b i)) = true).
  { apply F. apply in_map_iff. exists (@coeff b64 B64_ops a i, @coeff b64 B64_ops b i). split; [reflexivity|]. unfold coeff. rewrite <- combine_nth by exact L. apply nth_In. lia. }
  destruct (add_err _ _ Fi) as (_ & _ & Ea). eapply Rle_trans; [exact Ea|]. apply Rmult_le_compat_l; [lra|apply Rabs_triang].
Qed.
Print Assumptions C99_sum.

(** The product with a number: one rounding and one underflow per coefficient. *)
Theorem C99_scalar (c : list b64) (s : b64) : (forall x, In x (@poly_scalar_mul b64 B64_ops c s) -> is_finite x = true) ->
  length (@poly_scalar_mul b64 B64_ops c s) = length c /\
  forall t, Rabs (poly_fun (map B2R (@poly_scalar_mul b64 B64_ops c s)) t - B2R s * poly_fun (map B2R c) t) <=
    / 2 ^ 53 * (Rabs (B2R s) * poly_fun (abs_poly c) (Rabs t)) + / 2 ^ 1075 * rsum (length c) (fun i => Rabs t ^ i).
Proof.
  intros F. fold u64. fold h64. unfold poly_scalar_mul in *. split; [apply map_length|]. intros t.
  set (e := map (fun i => B2R s * B2R (@coeff b64 B64_ops c i)) (seq 0 (length c))).
  set (w := map (fun i => u64 * (Rabs (B2R s) * Rabs (B2R (@coeff b64 B64_ops c i))) + h64) (seq 0 (length c))).
  assert (Ee : B2R s * poly_fun (map B2R c) t = poly_fun e t).
  { unfold e. rewrite poly_map_seq. unfold poly_fun. rewrite map_length, <- rsum_scal. apply rsum_ext. intros i Hi. rewrite coeff_R. ring. }
  assert (Ew : u64 * (Rabs (B2R s) * poly_fun (abs_poly c) (Rabs t)) + h64 * rsum (length c) (fun i => Rabs t ^ i) = poly_fun w (Rabs t)).
  { unfold w. rewrite poly_map_seq. unfold poly_fun. unfold abs_poly at 1. rewrite !map_length, <- !rsum_scal, <- rsum_plus. apply rsum_ext. intros i Hi. rewrite coeff_abs. ring. }
  rewrite Ee, Ew. apply poly_diff; [unfold e; now rewrite !map_length, seq_length|unfold e, w; now rewrite !map_length|].
  intros i Hi. unfold e, w in *. rewrite map_length, seq_length in Hi. rewrite !(nth_map_lt _ _ _ 0%nat) by (rewrite seq_length; exact Hi). rewrite !seq_nth by exact Hi. cbn [Nat.add].
  rewrite map_map, (nth_map_lt _ _ _ (@n0 b64 B64_ops)) by exact Hi. change (nth i c (@n0 b64 B64_ops)) with (@coeff b64 B64_ops c i).
  assert (Fi : is_finite (@nmul b64 B64_ops (@coeff b64 B64_ops c i) s) = true) by (apply F; apply in_map_iff; exists (@coeff b64 B64_ops c i); split; [reflexivity|apply nth_In, Hi]).
  destruct (mul_err _ _ Fi) as (_ & _ & Em). rewrite (Rmult_comm (B2R (coeff c i))), Rabs_mult in Em. exact Em.
Qed.
Print Assumptions C99_scalar.

(** getCoefficients(d): the coefficients of the d-th derivative up to one rounding
    and one underflow each. *)
Theorem C99_derivative (c r : list b64) (d : nat) : (0 < d)%nat -> @poly_getCoefficients b64 B64_ops c (Z.of_nat d) = Ok r -> (forall x, In x r -> is_finite x = true) ->
  length r = length c /\ forall t, Rabs (poly_fun (map B2R r) t - Derive_n (poly_fun (map B2R c)) d t) <=
    / 2 ^ 53 * Derive_n (poly_fun (abs_poly c)) d (Rabs t) + / 2 ^ 1075 * rsum (length c - d) (fun i => Rabs t ^ i).
Proof.
  intros Hd E F. unfold poly_getCoefficients in E. set (N := length c) in *.
  destruct (Z.ltb_spec (Z.of_nat N) (Z.of_nat d)) as [|H1]; [discriminate|]. destruct (Z.eqb_spec (Z.of_nat d) 0) as [?|_]; [lia|].
  destruct (Z.ltb_spec (Z.of_nat d) 0) as [?|_]; [lia|]. change kMaxConvolutionSize with 22%nat in E.
  destruct (Nat.ltb_spec 22 N) as [|H2]; [discriminate|]. destruct (Z.leb_spec (Z.of_nat 22) (Z.of_nat d)) as [|H3]; [discriminate|]. cbn [orb] in E.
  rewrite Nat2Z.id in E. injection E as <-. fold u64. fold h64. split; [now rewrite map_length, seq_length|]. intros t.
  assert (U := u64_pos). assert (H0 := h64_pos).
  assert (Shift : forall q s, length q = N -> Derive_n (poly_fun q) d s = rsum (N - d) (fun j => bc d (d + j) * nth (d + j) q 0 * s ^ j)).
  { intros q s Lq. rewrite dpoly_ext_derive_n. unfold dpoly. rewrite Lq. replace N with (d + (N - d))%nat at 1 by lia. rewrite rsum_split, rsum_zero, Rplus_0_l.
    - apply rsum_ext. intros j Hj. replace (d + j - d)%nat with j by lia. reflexivity.
    - intros j Hj. rewrite bc_lt by exact Hj. ring. }
  rewrite !Shift by (unfold abs_poly; now rewrite ?map_length). rewrite map_map, poly_map_seq.
  replace N with ((N - d) + d)%nat at 1 by lia. rewrite rsum_split, (rsum_zero d), Rplus_0_r.
  2:{ intros j Hj. cbv beta. destruct (Nat.ltb_spec (N - d + j) (N - d)); [lia|]. change (B2R (@n0 b64 B64_ops)) with 0. apply Rmult_0_l. }
  rewrite <- rsum_minus, <- !rsum_scal, <- rsum_plus. eapply Rle_trans; [apply rsum_abs|]. apply rsum_le. intros j Hj. cbv beta.
  destruct (Nat.ltb_spec j (N - d)) as [_|?]; [|lia]. rewrite coeff_R, coeff_abs.
  assert (Fj : is_finite (@nmul b64 B64_ops (@coeff b64 B64_ops c (d + j)) (@base_coefficient b64 B64_ops d (d + j))) = true).
  { apply F. apply in_map_iff. exists j. split; [|apply in_seq; lia]. destruct (Nat.ltb_spec j (N - d)); [reflexivity|lia]. }
  destruct (mul_err _ _ Fj) as (_ & _ & Em). rewrite (proj2 (base_exact d (d + j) ltac:(lia) ltac:(lia))) in Em. change (@base_coefficient R R_ops d (d + j)) with (bc d (d + j)) in Em.
  assert (B0 := bc_pos d (d + j) ltac:(lia)). set (b := bc d (d + j)) in *. set (a := B2R (coeff c (d + j))) in *. set (y := B2R (nmul _ _)) in *.
  match goal with |- context [B2R (Bmult ?m ?p ?q)] => change (B2R (Bmult m p q)) with y end.
  replace (y * t ^ j - b * a * t ^ j) with ((y - a * b) * t ^ j) by ring. rewrite Rabs_mult, <- RPow_abs. assert (P := pow_le _ j (Rabs_pos t)).
  rewrite Rabs_mult, (Rabs_pos_eq b) in Em by lra. apply Rle_trans with ((u64 * (Rabs a * b) + h64) * Rabs t ^ j); [apply Rmult_le_compat_r; assumption|]. right. ring.
Qed.
Print Assumptions C99_derivative.

(** offsetPolynomial: one rounding of the constant coefficient. *)
Theorem C99_offset (x o : b64) (c : list b64) : is_finite (@nadd b64 B64_ops x o) = true ->
  forall t, Rabs (poly_fun (map B2R (@poly_offset b64 B64_ops (x :: c) o)) t - (poly_fun (map B2R (x :: c)) t + B2R o)) <= / 2 ^ 53 * (Rabs (B2R x) + Rabs (B2R o)).
Proof.
  intros F t. fold u64. cbn [poly_offset map]. unfold poly_fun. cbn [length]. rewrite !rsum_S_l. cbn [nth pow]. destruct (add_err _ _ F) as (_ & _ & Ea).
  assert (U := u64_pos). set (z := rsum _ _). match goal with |- Rabs ?q <= _ => replace q with (B2R (@nadd b64 B64_ops x o) - (B2R x + B2R o)) by ring end.
  eapply Rle_trans; [exact Ea|]. apply Rmult_le_compat_l; [lra|apply Rabs_triang].
Qed.
Print Assumptions C99_offset.

(** Coefficients 1/3, 2/3, 3/3 and the derivative of order 1. *)
Definition thirds : list b64 := map (fun z => @ndiv b64 B64_ops (@nofZ b64 B64_ops z) (@nofZ b64 B64_ops 3)) [1; 2; 3]%Z.
Definition all_finite (o : outcome (list b64)) : bool := match o with Ok r => forallb is_finite r | _ => false end.
Lemma all_finite_ok o : all_finite o = true -> exists r, o = Ok r /\ forall x, In x r -> is_finite x = true.
Proof. destruct o as [r| | |]; intros H; try discriminate. exists r. split; [reflexivity|]. now apply forallb_forall. Qed.
Lemma bounded_470 (x : b64) : is_finite x = true -> Bsign x = false -> @nltb b64 B64_ops (@nofZ b64 B64_ops 8) x = false -> is_finite x = true /\ Rabs (B2R x) <= 2 ^ 470.
Proof.
  intros F S L. split; [exact F|]. rewrite Rabs_pos_eq by now apply sign_pos. apply (leb_R _ _ F) in L; [|reflexivity].
  rewrite (proj2 (is_Z_spec (@nofZ b64 B64_ops 8) 8 ltac:(vm_compute; reflexivity))) in L. apply Rle_trans with (2 ^ 3); [lra|apply Rle_pow; [lra|lia]].
Qed.
Example C99_example : (1 <= length thirds <= 22)%nat /\
  (exists r, @poly_mul b64 B64_ops thirds thirds = Ok r /\ forall x, In x r -> is_finite x = true) /\
  (exists r, @poly_add b64 B64_ops thirds thirds = Ok r /\ forall x, In x r -> is_finite x = true) /\
  (exists r, @poly_getCoefficients b64 B64_ops thirds (Z.of_nat 1) = Ok r /\ forall x, In x r -> is_finite x = true) /\
  (forall x, In x (@poly_scalar_mul b64 B64_ops thirds (tenth 1)) -> is_finite x = true) /\
  is_finite (@nadd b64 B64_ops (tenth 1) (tenth 2)) = true /\
  (forall x, In x thirds \/ In x thirds -> is_finite x = true /\ Rabs (B2R x) <= 2 ^ 470).
Proof.
  split; [cbn; lia|]. split; [apply all_finite_ok; vm_compute; reflexivity|]. split; [apply all_finite_ok; vm_compute; reflexivity|].
  split; [apply all_finite_ok; vm_compute; reflexivity|]. split; [apply forallb_forall; vm_compute; reflexivity|]. split; [vm_compute; reflexivity|].
  intros x H. assert (Hx : In x thirds) by tauto. destruct Hx as [<-|[<-|[<-|[]]]]; apply bounded_470; vm_compute; reflexivity.
Qed.
