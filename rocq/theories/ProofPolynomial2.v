(** Property-level lemmas for C01-C05. *)
From Coq Require Import Reals Lra Lia List Arith ZArith Bool.
From Coquelicot Require Import Coquelicot.
From Verif Require Import Num RSum SpecPoly ModelPolynomial ProofPolynomial.
Import ListNotations.
Open Scope R_scope.

(** [is_derive_n] of a polynomial determines the value. *)
Lemma is_derive_n_poly_unique c d t v : is_derive_n (poly_fun c) d t v -> v = dpoly c d t.
Proof.
  intros H. rewrite <- dpoly_ext_derive_n. symmetry. apply (is_derive_n_unique _ _ _ _ H).
Qed.

Lemma evaluate_is_derivative (c : list R) (t : R) (d : Z) :
  (0 <= d)%Z -> (length c <= 22)%nat \/ (Z.of_nat (length c) <= d)%Z ->
  exists v, poly_evaluate c t d = Ok v /\ is_derive_n (poly_fun c) (Z.to_nat d) t v.
Proof.
  intros Hd H. exists (dpoly c (Z.to_nat d) t). split; [|apply is_derive_n_dpoly].
  rewrite <- (Z2Nat.id d) at 1 by exact Hd. apply poly_evaluate_ok.
  unfold kMaxConvolutionSize, kMaxN. lia.
Qed.

Lemma evaluate_undefined_iff (c : list R) (t : R) (d : Z) :
  (poly_evaluate c t d = UB <->
   (d < Z.of_nat (length c))%Z /\ ((d < 0)%Z \/ (22 < length c)%nat)) /\
  poly_evaluate c t d <> Abort /\ poly_evaluate c t d <> Throw.
Proof.
  unfold poly_evaluate, kMaxConvolutionSize, kMaxN.
  destruct (Z.leb_spec (Z.of_nat (length c)) d) as [H1|H1].
  - repeat split; intros; try discriminate; lia.
  - destruct (Z.ltb_spec d 0) as [H2|H2]; cbn [orb].
    + repeat split; intros; try discriminate; lia.
    + destruct (Nat.ltb_spec (2 * 12 - 2) (length c)) as [H3|H3]; repeat split; intros; try discriminate; lia.
Qed.

Lemma evaluate_vector (c : list R) (t : R) (n : nat) :
  (n <= length c <= 22)%nat ->
  exists v, poly_evaluate_vec c t n = Ok v /\ length v = n /\
    forall i, (i < n)%nat -> is_derive_n (poly_fun c) i t (nth i v 0).
Proof.
  intros H. exists (map (eval_row c t) (seq 0 n)). split; [|split].
  - unfold poly_evaluate_vec, kMaxConvolutionSize, kMaxN.
    destruct (Nat.ltb_spec (length c) n); [lia|].
    destruct (Nat.eqb_spec n 0) as [->|]; [reflexivity|].
    destruct (Nat.ltb_spec (2 * 12 - 2) (length c)); [lia|]. reflexivity.
  - rewrite map_length, seq_length. reflexivity.
  - intros i Hi. rewrite nth_map_seq by exact Hi. cbn [Nat.add].
    rewrite eval_row_dpoly by lia. apply is_derive_n_dpoly.
Qed.

Lemma evaluate_vector_abort_iff (c : list R) (t : R) (n : nat) :
  poly_evaluate_vec c t n = Abort <-> (length c < n)%nat.
Proof.
  unfold poly_evaluate_vec. destruct (Nat.ltb_spec (length c) n); [split; intros; [lia|reflexivity]|].
  destruct (Nat.eqb n 0); [split; intros; [discriminate|lia]|].
  destruct (Nat.ltb _ _); split; intros; try discriminate; lia.
Qed.

Lemma base_coefficient_values n i :
  ((i < n)%nat -> bc n i = 0) /\
  ((n <= i)%nat -> bc n i = INR (fact i) / INR (fact (i - n))).
Proof.
  split; [apply bc_lt|]. intros H. rewrite <- (bc_fact n i H). field. apply INR_fact_neq_0.
Qed.

Lemma getCoefficients_is_derivative (c cs : list R) (d : Z) :
  poly_getCoefficients c d = Ok cs ->
  length cs = length c /\
  (forall t, is_derive_n (poly_fun c) (Z.to_nat d) t (poly_fun cs t)) /\
  (forall t, poly_evaluate c t d = Ok (poly_fun cs t) \/ (22 < length c)%nat).
Proof.
  intros H. destruct (getCoefficients_ok c d cs H) as (H1 & H2 & H3).
  split; [exact H2|]. split.
  - intros t. rewrite <- dpoly_0, H3, Nat.add_0_r. apply is_derive_n_dpoly.
  - intros t. destruct (Nat.le_gt_cases (length c) 22) as [Hl|Hl]; [left|right; lia].
    rewrite <- dpoly_0, H3, Nat.add_0_r. rewrite <- (Z2Nat.id d) at 1 by lia.
    apply poly_evaluate_ok. left. exact Hl.
Qed.

Lemma getCoefficients_outcomes (c : list R) (d : Z) :
  (poly_getCoefficients c d = Abort <-> (Z.of_nat (length c) < d)%Z) /\
  ((length c <= 21)%nat -> (0 <= d <= Z.of_nat (length c))%Z ->
   exists cs, poly_getCoefficients c d = Ok cs) /\
  (length c = 22%nat -> (0 <= d < 22)%Z -> exists cs, poly_getCoefficients c d = Ok cs) /\
  ((d < 0)%Z -> poly_getCoefficients c d = UB).
Proof.
  split; [|split; [|split]].
  - pose proof (getCoefficients_cases c d) as Hc. split.
    + intros E. rewrite E in Hc. exact Hc.
    + intros Hd. unfold poly_getCoefficients.
      destruct (Z.ltb_spec (Z.of_nat (length c)) d); [reflexivity|lia].
  - intros H1 H2. apply getCoefficients_defined; unfold kMaxConvolutionSize, kMaxN; lia.
  - intros H1 H2. apply getCoefficients_defined; unfold kMaxConvolutionSize, kMaxN; lia.
  - intros H. unfold poly_getCoefficients.
    destruct (Z.ltb_spec (Z.of_nat (length c)) d); [lia|].
    destruct (Z.eqb_spec d 0); [lia|]. destruct (Z.ltb_spec d 0); [reflexivity|lia].
Qed.

Lemma convolve_is_product (a b : list R) :
  (1 <= length a)%nat -> (1 <= length b)%nat ->
  exists r, convolve a b = Ok r /\ length r = (length a + length b - 1)%nat /\
    (forall t, poly_fun r t = poly_fun a t * poly_fun b t) /\
    convolve b a = Ok r /\ poly_mul a b = Ok r /\ convolve_fixed a b = r.
Proof.
  intros Ha Hb. pose proof (convolve_fixed_eq a b Ha Hb) as E.
  exists (convolve_fixed a b). split; [exact E|]. split; [|split; [|split; [|split]]].
  - pose proof (convolve_length a b _ E). lia.
  - intros t. apply (convolve_poly_fun a b _ t Ha Hb E).
  - rewrite convolve_comm. exact E.
  - exact E.
  - reflexivity.
Qed.

Lemma convolve_coefficients (a b r : list R) (i : nat) :
  convolve a b = Ok r -> (i < length r)%nat ->
  nth i r 0 = rsum (S i) (fun k => nth k b 0 * nth (i - k) a 0).
Proof.
  intros H Hi. unfold convolve in H. destruct (_ <? 0)%Z in H; [discriminate|].
  apply Ok_inj in H. subst r. rewrite map_length, seq_length in Hi.
  rewrite nth_map_seq by exact Hi. apply convolve_entry_spec.
Qed.

Lemma convolve_undefined_iff (a b : list R) : convolve a b = UB <-> a = [] /\ b = [].
Proof.
  unfold convolve, getConvolutionLength.
  destruct (Z.ltb_spec (Z.of_nat (length a) + Z.of_nat (length b) - 1) 0) as [H|H].
  - split; [|reflexivity]. intros _. split; apply length_zero_iff_nil; lia.
  - split; [discriminate|]. intros [-> ->]. cbn [length] in H. lia.
Qed.

Lemma add_spec (c d : list R) :
  (length c = length d -> exists r, poly_add c d = Ok r /\ length r = length c /\
      forall t, poly_fun r t = poly_fun c t + poly_fun d t) /\
  (length c <> length d -> poly_add c d = UB).
Proof.
  split.
  - intros H. destruct (poly_add_defined c d H) as [r Hr]. exists r. split; [exact Hr|].
    split; [apply (poly_fun_add c d r 0 Hr)|]. intros t. apply (poly_fun_add c d r t Hr).
  - intros H. unfold poly_add. destruct (Nat.eqb_spec (length c) (length d)); [contradiction|reflexivity].
Qed.

Lemma scalar_mul_spec (c : list R) (s t : R) :
  length (poly_scalar_mul c s) = length c /\
  poly_fun (poly_scalar_mul c s) t = s * poly_fun c t.
Proof.
  split; [apply scalar_mul_length|]. rewrite <- !dpoly_0. apply dpoly_scalar_mul.
Qed.

Lemma scale_in_time_spec (c : list R) (s : R) :
  length (poly_scale_time c s) = length c /\
  forall (d : nat) (t v : R),
    is_derive_n (poly_fun c) d (s * t) v ->
    is_derive_n (poly_fun (poly_scale_time c s)) d t (s ^ d * v).
Proof.
  split; [apply scale_time_length|]. intros d t v H.
  rewrite (is_derive_n_poly_unique _ _ _ _ H), <- dpoly_scale_time. apply is_derive_n_dpoly.
Qed.

Lemma offset_spec (c : list R) (o : R) :
  length (poly_offset c o) = length c /\
  (c <> [] -> forall t, poly_fun (poly_offset c o) t = poly_fun c t + o) /\
  (c = [] -> poly_offset c o = []) /\
  forall (d : nat) (t v : R),
    is_derive_n (poly_fun c) (S d) t v ->
    is_derive_n (poly_fun (poly_offset c o)) (S d) t v.
Proof.
  split; [apply offset_length|]. split; [|split].
  - intros H t. destruct c as [|x c]; [contradiction|]. rewrite <- !dpoly_0. apply dpoly_offset_0.
  - intros ->. reflexivity.
  - intros d t v H. rewrite (is_derive_n_poly_unique _ _ _ _ H), <- (dpoly_offset_S c o).
    apply is_derive_n_dpoly.
Qed.

Lemma append_coefficients_spec (c : list R) (n : Z) :
  let '(ok, c') := poly_append c n in
  (ok = true <-> (Z.of_nat (length c) <= n)%Z) /\
  (ok = true -> Z.of_nat (length c') = n) /\
  (ok = false -> c' = c) /\
  (forall t, poly_fun c' t = poly_fun c t) /\
  (forall i, (i < length c)%nat -> nth i c' 0 = nth i c 0).
Proof.
  pose proof (poly_append_spec c n) as H1. pose proof (poly_append_length c n) as H2.
  pose proof (poly_append_false c n) as H3. pose proof (fun t => poly_append_dpoly c n 0 t) as H4.
  destruct (poly_append c n) as [ok c'] eqn:E. cbn [fst snd] in *.
  split; [exact H1|]. split; [exact H2|]. split; [exact H3|]. split.
  - intros t. rewrite <- !dpoly_0. apply H4.
  - intros i Hi. unfold poly_append in E.
    destruct (Z.eqb_spec n (Z.of_nat (length c))); [injection E as <- <-; reflexivity|].
    destruct (Z.ltb_spec n (Z.of_nat (length c))); injection E as <- <-; [reflexivity|].
    apply app_nth1. exact Hi.
Qed.

Lemma forallb_combine_eq (c d : list R) : length c = length d ->
  forallb (fun p => (fst p =? snd p)%num) (combine c d) = true <-> c = d.
Proof.
  revert d. induction c as [|x c IH]; intros [|y d] H; cbn [length] in H; try discriminate.
  - split; reflexivity.
  - cbn [combine forallb fst snd]. rewrite Bool.andb_true_iff, IH by lia. rnum.
    rewrite Reqb_true. split; [intros [-> ->]; reflexivity|]. intros E. injection E as -> ->. split; reflexivity.
Qed.

Lemma equality_spec (c d : list R) :
  (length c = length d -> (poly_eqb c d = Ok true <-> c = d) /\ (poly_eqb c d = Ok false <-> c <> d)) /\
  (length c <> length d -> poly_eqb c d = UB).
Proof.
  unfold poly_eqb. split.
  - intros H. rewrite H, Nat.eqb_refl. pose proof (forallb_combine_eq c d H) as E.
    destruct (forallb _ _); split; split; intros Hx; try discriminate; try reflexivity.
    + apply E; reflexivity.
    + exfalso. apply Hx, E. reflexivity.
    + apply E in Hx. discriminate.
    + intros Hc. apply E in Hc. discriminate.
  - intros H. destruct (Nat.eqb_spec (length c) (length d)); [contradiction|reflexivity].
Qed.

Lemma set_coefficients_spec (c d : list R) :
  (length c = length d -> poly_setCoefficients c d = Ok d) /\
  (length c <> length d -> poly_setCoefficients c d = Abort).
Proof.
  unfold poly_setCoefficients. destruct (Nat.eqb_spec (length c) (length d)); split; intros; try contradiction; reflexivity.
Qed.

Lemma dbl_epsilon_val : @dbl_epsilon R R_ops = / 2 ^ 52.
Proof.
  unfold dbl_epsilon, nlit. rnum. unfold Rdiv. rewrite Rmult_1_l. f_equal.
  change (IZR (2 ^ Z.of_nat 52) = 2 ^ 52). rewrite <- pow_IZR. reflexivity.
Qed.

Lemma baseCoeffsWithTime_exact (N d : Z) (t : R) (v c : list R) :
  baseCoeffsWithTime N d t = Ok v -> Z.of_nat (length c) = N ->
  t = 0 \/ / 2 ^ 52 <= Rabs t ->
  is_derive_n (poly_fun c) (Z.to_nat d) t (rsum (length v) (fun i => nth i v 0 * nth i c 0)).
Proof.
  intros H Hl Ht. change (rsum (length v) _) with (dot v c). rewrite (baseCoeffs_dot N d t v c H Hl).
  rewrite dbl_epsilon_val. destruct (Rlt_dec (Rabs t) (/ 2 ^ 52)) as [Hs|Hs].
  - destruct Ht as [->|Ht]; [apply is_derive_n_dpoly|lra].
  - apply is_derive_n_dpoly.
Qed.

Lemma baseCoeffsWithTime_small (N d : Z) (t : R) (v c : list R) :
  baseCoeffsWithTime N d t = Ok v -> Z.of_nat (length c) = N ->
  Rabs t < / 2 ^ 52 ->
  is_derive_n (poly_fun c) (Z.to_nat d) 0 (rsum (length v) (fun i => nth i v 0 * nth i c 0)).
Proof.
  intros H Hl Ht. change (rsum (length v) _) with (dot v c). rewrite (baseCoeffs_dot N d t v c H Hl).
  rewrite dbl_epsilon_val. destruct (Rlt_dec (Rabs t) (/ 2 ^ 52)) as [Hs|Hs]; [|lra].
  apply is_derive_n_dpoly.
Qed.

Lemma baseCoeffsWithTime_outcomes (N d : Z) (t : R) :
  (baseCoeffsWithTime N d t = Abort <-> (d < 0 \/ N <= d)%Z) /\
  ((0 <= d < N)%Z -> (N <= 22)%Z -> exists v, baseCoeffsWithTime N d t = Ok v /\ Z.of_nat (length v) = N).
Proof.
  split.
  - pose proof (baseCoeffs_cases N d t) as Hc. split.
    + intros E. rewrite E in Hc. exact Hc.
    + intros Hd. unfold baseCoeffsWithTime. destruct (Z.leb_spec N d); [reflexivity|].
      destruct (Z.ltb_spec d 0); [reflexivity|lia].
  - intros H1 H2. pose proof (baseCoeffs_cases N d t) as Hc.
    pose proof (baseCoeffs_ok N d t) as Hk.
    destruct (baseCoeffsWithTime N d t) as [v| | |] eqn:E.
    + exists v. split; [reflexivity|]. destruct (Hk v eq_refl) as (_ & _ & Hl & _). lia.
    + lia.
    + unfold kMaxConvolutionSize, kMaxN in Hc. lia.
    + tauto.
Qed.

Lemma half_eps_small : 0 < / 2 ^ 53 < / 2 ^ 52.
Proof.
  split; [apply Rinv_0_lt_compat, pow_lt; lra|].
  apply Rinv_lt_contravar; [apply Rmult_lt_0_compat; apply pow_lt; lra|].
  apply Rlt_pow; [lra|lia].
Qed.

Lemma baseCoeffsWithTime_inexact :
  exists (N d : Z) (t : R) (v c : list R),
    baseCoeffsWithTime N d t = Ok v /\ Z.of_nat (length c) = N /\
    ~ is_derive_n (poly_fun c) (Z.to_nat d) t (rsum (length v) (fun i => nth i v 0 * nth i c 0)).
Proof.
  pose proof half_eps_small as Hh.
  destruct (proj2 (baseCoeffsWithTime_outcomes 2 0 (/ 2 ^ 53))) as [v [Hv _]]; [lia|lia|].
  exists 2%Z, 0%Z, (/ 2 ^ 53), v, [0; 1]. split; [exact Hv|]. split; [reflexivity|].
  intros Hd.
  pose proof (baseCoeffsWithTime_small 2 0 _ v [0; 1] Hv eq_refl) as H0.
  rewrite Rabs_pos_eq in H0 by lra. specialize (H0 (proj2 Hh)).
  apply is_derive_n_poly_unique in Hd. apply is_derive_n_poly_unique in H0.
  rewrite H0 in Hd. change (Z.to_nat 0) with 0%nat in Hd. rewrite !dpoly_0 in Hd.
  unfold poly_fun in Hd. cbn [length rsum nth pow] in Hd. lra.
Qed.

Lemma evaluate_example :
  (0 <= 1)%Z /\ ((length [1; 2; 3] <= 22)%nat \/ (Z.of_nat (length [1; 2; 3]) <= 1)%Z) /\
  poly_evaluate [1; 2; 3] 2 1 = Ok 14.
Proof.
  split; [lia|]. split; [left; cbn; lia|].
  rcompute. f_equal; lra.
Qed.

Lemma getCoefficients_example : poly_getCoefficients [1; 2; 3] 1 = Ok [2; 6; 0].
Proof.
  rcompute. repeat f_equal; lra.
Qed.

Lemma convolve_example : convolve [1; 2] [3; 4; 5] = Ok [3; 10; 13; 10].
Proof.
  rcompute. repeat f_equal; lra.
Qed.

Lemma baseCoeffs_example :
  baseCoeffsWithTime 3 1 2 = Ok [0; 1; 4] /\ (2 = 0 \/ / 2 ^ 52 <= Rabs 2).
Proof.
  assert (Hb : / 2 ^ 52 <= 1).
  { rewrite <- Rinv_1. apply Rinv_le_contravar; [lra|]. apply pow_R1_Rle. lra. }
  assert (Hn : Rltb (Rabs 2) (@dbl_epsilon R R_ops) = false).
  { apply Rltb_false. rewrite dbl_epsilon_val, Rabs_pos_eq by lra. lra. }
  split.
  - unfold baseCoeffsWithTime. cbn [nltb nabs R_ops]. rewrite Hn.
    rcompute. repeat f_equal; lra.
  - right. rewrite Rabs_pos_eq by lra. lra.
Qed.
