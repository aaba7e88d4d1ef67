(** Rounding errors of binary64 operations, and of the Horner loop. *)
From Coq Require Import ZArith Reals List Bool Lia Lra.
From Flocq Require Import IEEE754.BinarySingleNaN Core Relative Plus_error.
From Verif Require Import Num RSum ModelPolynomial SpecPoly ProofPolynomial.
Import ListNotations.
Open Scope R_scope.
Local Arguments bpow : simpl never.

(** The unit roundoff and half of the smallest positive double. *)
Definition u64 : R := / 2 ^ 53.
Definition h64 : R := / 2 ^ 1075.
Lemma bpow_inv_pow n : bpow radix2 (Z.opp (Z.of_nat n)) = / 2 ^ n.
Proof. rewrite bpow_opp, bpow_powerRZ, <- pow_powerRZ. reflexivity. Qed.
Lemma u64_bpow : / 2 * bpow radix2 (- 53 + 1) = u64.
Proof.
  unfold u64. change (- 53 + 1)%Z with (Z.opp (Z.of_nat 52)). rewrite bpow_inv_pow. change 53%nat with (S 52).
  rewrite <- (tech_pow_Rmult 2 52). field.
Qed.
Lemma h64_bpow : / 2 * bpow radix2 (3 - 1024 - 53) = h64.
Proof.
  unfold h64. change (3 - 1024 - 53)%Z with (Z.opp (Z.of_nat 1074)). rewrite bpow_inv_pow. change 1075%nat with (S 1074).
  rewrite <- (tech_pow_Rmult 2 1074). generalize (pow_nonzero 2 1074 ltac:(lra)). generalize (2 ^ 1074). intros. field. assumption.
Qed.
Lemma u64_pos : 0 < u64. Proof. unfold u64. apply Rinv_0_lt_compat, pow_lt. lra. Qed.
Lemma h64_pos : 0 < h64. Proof. unfold h64. apply Rinv_0_lt_compat, pow_lt. lra. Qed.

Lemma finite_overflow (x : b64) s : B2SF x = binary_overflow 53 1024 mode_NE s -> is_finite x = false.
Proof. destruct x; cbn; intros H; try reflexivity; discriminate. Qed.
Lemma mul_finite (x y : b64) : is_finite (@nmul b64 B64_ops x y) = true -> is_finite x = true /\ is_finite y = true /\
  B2R (@nmul b64 B64_ops x y) = round radix2 (FLT_exp (3 - 1024 - 53) 53) ZnearestE (B2R x * B2R y).
Proof.
  intros H. cbn [nmul B64_ops] in *. assert (C := Bmult_correct 53 1024 b64_prec_gt_0 b64_prec_lt_emax mode_NE x y).
  destruct (Rlt_bool _ _).
  - destruct C as (C1 & C2 & _). rewrite H in C2. symmetry in C2. apply andb_true_iff in C2 as (F1 & F2). split; [exact F1|]. split; [exact F2|]. exact C1.
  - apply finite_overflow in C. congruence.
Qed.
Lemma add_finite (x y : b64) : is_finite (@nadd b64 B64_ops x y) = true -> is_finite x = true /\ is_finite y = true /\
  B2R (@nadd b64 B64_ops x y) = round radix2 (FLT_exp (3 - 1024 - 53) 53) ZnearestE (B2R x + B2R y).
Proof.
  intros H. assert (F : is_finite x = true /\ is_finite y = true).
  { cbn [nadd B64_ops] in H. destruct x as [|[]| |], y as [|[]| |]; cbn in H |- *; try discriminate; auto. }
  destruct F as (F1 & F2). split; [exact F1|]. split; [exact F2|]. cbn [nadd B64_ops] in *.
  assert (C := Bplus_correct 53 1024 b64_prec_gt_0 b64_prec_lt_emax mode_NE x y F1 F2).
  destruct (Rlt_bool _ _); [apply C|]. destruct C as (C & _). apply finite_overflow in C. congruence.
Qed.
Lemma mul_err (x y : b64) : is_finite (@nmul b64 B64_ops x y) = true ->
  is_finite x = true /\ is_finite y = true /\
  Rabs (B2R (@nmul b64 B64_ops x y) - B2R x * B2R y) <= u64 * Rabs (B2R x * B2R y) + h64.
Proof.
  intros H. destruct (mul_finite x y H) as (F1 & F2 & E). split; [exact F1|]. split; [exact F2|].
  rewrite E. assert (P : Prec_gt_0 53) by reflexivity.
  destruct (error_N_FLT radix2 (3 - 1024 - 53) 53 P (fun z => negb (Z.even z)) (B2R x * B2R y)) as (e & h & He & Hh & _ & ->).
  assert (He' : Rabs e <= u64) by (rewrite <- u64_bpow; exact He). assert (Hh' : Rabs h <= h64) by (rewrite <- h64_bpow; exact Hh). set (z := B2R x * B2R y).
  replace (z * (1 + e) + h - z) with (z * e + h) by ring. eapply Rle_trans; [apply Rabs_triang|]. rewrite Rabs_mult.
  assert (Q := Rabs_pos z). nra.
Qed.
Lemma add_err (x y : b64) : is_finite (@nadd b64 B64_ops x y) = true ->
  is_finite x = true /\ is_finite y = true /\
  Rabs (B2R (@nadd b64 B64_ops x y) - (B2R x + B2R y)) <= u64 * Rabs (B2R x + B2R y).
Proof.
  intros H. destruct (add_finite x y H) as (F1 & F2 & E). split; [exact F1|]. split; [exact F2|].
  rewrite E. assert (P : Prec_gt_0 53) by reflexivity.
  destruct (FLT_plus_error_N_ex radix2 (3 - 1024 - 53) 53 (fun z => negb (Z.even z)) (B2R x) (B2R y)) as (e & He & ->);
    [apply (generic_format_B2R 53 1024)|apply (generic_format_B2R 53 1024)|].
  assert (U : u_ro radix2 53 = u64) by (unfold u_ro; apply u64_bpow). rewrite U in He. assert (U0 := u64_pos).
  assert (He' : Rabs e <= u64).
  { eapply Rle_trans; [exact He|]. apply Rmult_le_reg_r with (1 + u64); [lra|]. unfold Rdiv. rewrite Rmult_assoc, Rinv_l by lra. nra. }
  set (z := B2R x + B2R y). replace (z * (1 + e) - z) with (z * e) by ring. rewrite Rabs_mult. assert (Q := Rabs_pos z). nra.
Qed.

(** The Horner loop: if the result is finite, so is everything before it, and the
    error is bounded by the loop over the absolute values. *)
Definition near (m : nat) (E : R) (x a s : R) : Prop := Rabs a <= s /\ Rabs (x - a) <= ((1 + u64) ^ m - 1) * s + E.
Lemma pow_u_ge m : 1 <= (1 + u64) ^ m. Proof. apply pow_R1_Rle. assert (U := u64_pos). lra. Qed.
Lemma horner_step (acc f t : b64) (A SA g G : R) m E : 0 <= E ->
  near m E (B2R acc) A SA -> near m h64 (B2R f) g G ->
  is_finite (@nadd b64 B64_ops (@nmul b64 B64_ops acc t) f) = true ->
  is_finite acc = true /\ is_finite t = true /\ is_finite f = true /\
  near (S (S m)) ((1 + u64) ^ 2 * E * Rabs (B2R t) + 2 * h64 * (1 + u64))
    (B2R (@nadd b64 B64_ops (@nmul b64 B64_ops acc t) f)) (A * B2R t + g) (SA * Rabs (B2R t) + G).
Proof.
  intros HE (A1 & A2) (G1 & G2) H. destruct (add_err _ _ H) as (F1 & Ff & Ea). destruct (mul_err _ _ F1) as (Fa & Ft & Em).
  split; [exact Fa|]. split; [exact Ft|]. split; [exact Ff|].
  set (x := B2R t) in *. set (p := B2R (@nmul b64 B64_ops acc t)) in *. set (r := B2R (@nadd b64 B64_ops _ f)) in *.
  set (a := B2R acc) in *. set (b := B2R f) in *. clearbody x p r a b. clear H F1 Ff Fa Ft.
  assert (U := u64_pos). assert (Hh := h64_pos). assert (P := pow_u_ge m). unfold near. cbn [pow]. set (q := (1 + u64) ^ m) in *. clearbody q.
  assert (X := Rabs_pos x).
  (* product *)
  assert (D1 : Rabs (p - A * x) <= ((1 + u64) * q - 1) * (SA * Rabs x) + (1 + u64) * E * Rabs x + h64).
  { assert (T1 : Rabs (a * x - A * x) <= ((q - 1) * SA + E) * Rabs x).
    { replace (a * x - A * x) with ((a - A) * x) by ring. rewrite Rabs_mult. apply Rmult_le_compat_r; assumption. }
    assert (T2 : Rabs (a * x) <= Rabs (a * x - A * x) + SA * Rabs x).
    { replace (a * x) with ((a * x - A * x) + A * x) at 1 by ring. eapply Rle_trans; [apply Rabs_triang|]. rewrite (Rabs_mult A).
      apply Rplus_le_compat_l, Rmult_le_compat_r; assumption. }
    replace (p - A * x) with ((p - a * x) + (a * x - A * x)) by ring. eapply Rle_trans; [apply Rabs_triang|].
    apply Rle_trans with (u64 * (((q - 1) * SA + E) * Rabs x + SA * Rabs x) + h64 + ((q - 1) * SA + E) * Rabs x); [|right; ring].
    assert (u64 * Rabs (a * x) <= u64 * (((q - 1) * SA + E) * Rabs x + SA * Rabs x)) by (apply Rmult_le_compat_l; lra). lra. }
  (* sum *)
  assert (D2 : Rabs (p + b - (A * x + g)) <= ((1 + u64) * q - 1) * (SA * Rabs x + G) + (1 + u64) * E * Rabs x + 2 * h64).
  { replace (p + b - (A * x + g)) with ((p - A * x) + (b - g)) by ring. eapply Rle_trans; [apply Rabs_triang|].
    assert (Gp : 0 <= G) by (eapply Rle_trans; [apply Rabs_pos|exact G1]).
    assert ((q - 1) * G <= ((1 + u64) * q - 1) * G) by (apply Rmult_le_compat_r; [exact Gp|nra]). lra. }
  assert (D3 : Rabs (A * x + g) <= SA * Rabs x + G).
  { eapply Rle_trans; [apply Rabs_triang|]. rewrite Rabs_mult. assert (Rabs A * Rabs x <= SA * Rabs x) by (apply Rmult_le_compat_r; assumption). lra. }
  split; [exact D3|].
  assert (D4 : Rabs (p + b) <= Rabs (p + b - (A * x + g)) + (SA * Rabs x + G)).
  { replace (p + b) with ((p + b - (A * x + g)) + (A * x + g)) at 1 by ring. eapply Rle_trans; [apply Rabs_triang|]. lra. }
  replace (r - (A * x + g)) with ((r - (p + b)) + (p + b - (A * x + g))) by ring. eapply Rle_trans; [apply Rabs_triang|].
  set (W := ((1 + u64) * q - 1) * (SA * Rabs x + G) + (1 + u64) * E * Rabs x + 2 * h64) in *.
  apply Rle_trans with (u64 * (W + (SA * Rabs x + G)) + W); [|unfold W; right; ring].
  assert (u64 * Rabs (p + b) <= u64 * (W + (SA * Rabs x + G))) by (apply Rmult_le_compat_l; lra). lra.
Qed.

Lemma near_more m m' E x a s : (m <= m')%nat -> near m E x a s -> near m' E x a s.
Proof.
  intros Hm (H1 & H2). split; [exact H1|]. eapply Rle_trans; [exact H2|]. assert (0 <= s) by (eapply Rle_trans; [apply Rabs_pos|exact H1]).
  assert (U := u64_pos). apply Rplus_le_compat_r, Rmult_le_compat_r; [assumption|]. assert (Q := Rle_pow (1 + u64) m m' ltac:(lra) Hm). lra.
Qed.
Lemma near_weak m E E' x a s : E <= E' -> near m E x a s -> near m E' x a s.
Proof. intros HE (H1 & H2). split; [exact H1|lra]. Qed.
Lemma horner_finite (f : nat -> b64) (t : b64) d k : forall acc, is_finite (@horner b64 B64_ops f t d k acc) = true -> is_finite acc = true.
Proof.
  induction k as [|k IH]; intros acc H; cbn [horner] in H; [exact H|]. apply IH in H. apply add_err in H as (H & _ & _). now apply mul_err in H as (H & _ & _).
Qed.
Definition pows (k : nat) (x : R) : R := rsum (S k) (fun i => x ^ i).
Lemma pows_S k x : pows (S k) x = 1 + x * pows k x.
Proof. unfold pows. rewrite rsum_S_l. cbn [pow]. f_equal. rewrite <- rsum_scal. apply rsum_ext. intros. cbn [pow]. ring. Qed.
Lemma horner_near (f : nat -> b64) (g G : nat -> R) (t : b64) d k : forall acc A SA j,
  (forall i, (d <= i < d + k)%nat -> is_finite (f i) = true -> near 1 h64 (B2R (f i)) (g i) (G i)) ->
  near (2 * j + 1) (2 * h64 * (1 + u64) ^ (2 * j) * pows j (Rabs (B2R t))) (B2R acc) A SA ->
  is_finite (@horner b64 B64_ops f t d k acc) = true ->
  near (2 * (j + k) + 1) (2 * h64 * (1 + u64) ^ (2 * (j + k)) * pows (j + k) (Rabs (B2R t)))
    (B2R (@horner b64 B64_ops f t d k acc)) (@horner R R_ops g (B2R t) d k A) (@horner R R_ops G (Rabs (B2R t)) d k SA).
Proof.
  assert (U := u64_pos). assert (Hh := h64_pos).
  induction k as [|k IH]; intros acc A SA j Hf Ha H; cbn [horner] in *; [rewrite Nat.add_0_r; exact Ha|].
  assert (P0 : 0 <= pows j (Rabs (B2R t))).
  { unfold pows. apply rsum_nonneg. intros. apply pow_le, Rabs_pos. }
  assert (Q := pow_u_ge (2 * j)).
  assert (Fs := horner_finite _ _ _ _ _ H).
  assert (Ff : is_finite (f (d + k)%nat) = true) by (apply add_err in Fs; tauto).
  assert (HE : 0 <= 2 * h64 * (1 + u64) ^ (2 * j) * pows j (Rabs (B2R t))) by (apply Rmult_le_pos; [apply Rmult_le_pos; lra|exact P0]).
  assert (Hg : near (2 * j + 1) h64 (B2R (f (d + k)%nat)) (g (d + k)%nat) (G (d + k)%nat)) by (apply (near_more 1); [lia|]; apply Hf; [lia|exact Ff]).
  destruct (horner_step acc (f (d + k)%nat) t A SA (g (d + k)%nat) (G (d + k)%nat) (2 * j + 1) _ HE Ha Hg Fs) as (_ & _ & _ & Hn).
  replace (j + S k)%nat with (S j + k)%nat by lia. apply IH; [intros; apply Hf; [lia|assumption]| |exact H].
  rnum. replace (2 * S j + 1)%nat with (S (S (2 * j + 1))) by lia. eapply near_weak; [|exact Hn].
  rewrite pows_S. replace (2 * S j)%nat with (2 + 2 * j)%nat by lia. rewrite pow_add.
  set (w := (1 + u64) ^ (2 * j)) in *. set (x := Rabs (B2R t)) in *. set (s := pows j x) in *.
  replace (2 * h64 * ((1 + u64) ^ 2 * w) * (1 + x * s)) with ((1 + u64) ^ 2 * (2 * h64 * w * s) * x + 2 * h64 * ((1 + u64) ^ 2 * w)) by ring.
  apply Rplus_le_compat_l, Rmult_le_compat_l; [lra|]. nra.
Qed.

(** Sufficient conditions for a finite result. *)
Definition big : R := 2 ^ 1000.
Lemma big_bpow : 16 * big <= bpow radix2 1023 /\ 1 <= big /\ bpow radix2 1023 < bpow radix2 1024.
Proof.
  unfold big. split; [|split; [apply pow_R1_Rle; lra|apply bpow_lt; lia]].
  replace (16 * 2 ^ 1000) with (bpow radix2 1004); [apply bpow_le; lia|].
  change 1004%Z with (Z.of_nat 1000 + 4)%Z. rewrite bpow_plus, bpow_powerRZ, <- pow_powerRZ. change (bpow radix2 4) with 16. cbn [radix_val radix2]. ring.
Qed.
Lemma round_big z : Rabs z <= 16 * big -> Rabs (round radix2 (FLT_exp (3 - 1024 - 53) 53) ZnearestE z) < bpow radix2 1024.
Proof.
  intros H. destruct big_bpow as (B1 & _ & B2). eapply Rle_lt_trans; [|exact B2].
  apply abs_round_le_generic; [apply FLT_exp_valid; reflexivity|apply valid_rnd_N| |lra].
  apply generic_format_bpow. unfold FLT_exp. lia.
Qed.
Lemma mul_fin (x y : b64) : is_finite x = true -> is_finite y = true -> Rabs (B2R x * B2R y) <= 16 * big -> is_finite (@nmul b64 B64_ops x y) = true.
Proof.
  intros Fx Fy H. assert (C := Bmult_correct 53 1024 b64_prec_gt_0 b64_prec_lt_emax mode_NE x y).
  rewrite Rlt_bool_true in C by (apply round_big, H). cbn [nmul B64_ops]. rewrite (proj1 (proj2 C)), Fx, Fy. reflexivity.
Qed.
Lemma add_fin (x y : b64) : is_finite x = true -> is_finite y = true -> Rabs (B2R x + B2R y) <= 16 * big -> is_finite (@nadd b64 B64_ops x y) = true.
Proof.
  intros Fx Fy H. assert (C := Bplus_correct 53 1024 b64_prec_gt_0 b64_prec_lt_emax mode_NE x y Fx Fy).
  rewrite Rlt_bool_true in C by (apply round_big, H). cbn [nadd B64_ops]. apply C.
Qed.
Lemma u64_small : u64 <= / 1000000.
Proof. unfold u64. apply Rinv_le_contravar; [lra|]. apply Rle_trans with (2 ^ 20); [lra|]. apply Rle_pow; [lra|lia]. Qed.
Lemma h64_big : 8 * h64 * big <= 1.
Proof.
  unfold h64, big. apply Rmult_le_reg_l with (2 ^ 1075); [apply pow_lt; lra|]. rewrite Rmult_1_r.
  replace (2 ^ 1075 * (8 * / 2 ^ 1075 * 2 ^ 1000)) with (2 ^ 3 * 2 ^ 1000 * (2 ^ 1075 * / 2 ^ 1075)) by (change (2 ^ 3) with (2 * (2 * (2 * 1))); generalize (2 ^ 1075); generalize (2 ^ 1000); intros; ring).
  rewrite Rinv_r by (apply pow_nonzero; lra). rewrite Rmult_1_r, <- pow_add. apply Rle_pow; [lra|lia].
Qed.
Lemma small_power n : (n <= 43)%nat -> (1 + u64) ^ n - 1 <= INR (S n) * u64 /\ (1 + u64) ^ n <= 2.
Proof.
  intros Hn. assert (U := u64_pos). assert (U2 := u64_small).
  assert (N : forall k, (k <= 43)%nat -> 0 <= INR k <= 43) by (intros k Hk; split; [apply pos_INR|]; apply le_INR in Hk; cbn [INR] in Hk; lra).
  assert (B : (1 + u64) ^ n <= 1 + INR n * u64 + INR n * INR n * u64 * u64).
  { induction n as [|n IH]; [cbn; lra|]. rewrite <- tech_pow_Rmult, S_INR. specialize (IH ltac:(lia)). assert (Q := N n ltac:(lia)).
    apply Rle_trans with ((1 + u64) * (1 + INR n * u64 + INR n * INR n * u64 * u64)); [apply Rmult_le_compat_l; lra|].
    assert (u64 * (INR n * INR n) <= 1) by nra. assert (0 <= u64 * u64) by nra. nra. }
  assert (Q := N n Hn). assert (INR n * INR n * u64 <= 1) by nra. rewrite S_INR. split; nra.
Qed.
Lemma horner_ge (G : nat -> R) M d k : 1 <= M -> (forall i, 0 <= G i) -> forall s, 0 <= s -> s <= @horner R R_ops G M d k s.
Proof.
  intros HM HG. induction k as [|k IH]; intros s Hs; cbn [horner]; [lra|]. rnum. assert (P := HG (d + k)%nat).
  eapply Rle_trans; [|apply IH; nra]. nra.
Qed.
Lemma pows_le j k M : 0 <= M -> (j <= k)%nat -> 0 <= pows j M <= pows k M.
Proof.
  intros HM Hj. unfold pows. replace (S k) with (S j + (k - j))%nat by lia. rewrite rsum_split.
  assert (0 <= rsum (S j) (fun i => M ^ i)) by (apply rsum_nonneg; intros; now apply pow_le).
  assert (0 <= rsum (k - j) (fun i => M ^ (S j + i))) by (apply rsum_nonneg; intros; now apply pow_le). lra.
Qed.
Lemma horner_fin (f : nat -> b64) (g G : nat -> R) (t : b64) (M : R) d k : forall acc A SA SM j,
  is_finite t = true -> Rabs (B2R t) <= M -> 1 <= M -> (forall i, 0 <= G i) ->
  (forall i, (d <= i < d + k)%nat -> is_finite (f i) = true /\ near 1 h64 (B2R (f i)) (g i) (G i)) ->
  is_finite acc = true ->
  near (2 * j + 1) (2 * h64 * (1 + u64) ^ (2 * j) * pows j (Rabs (B2R t))) (B2R acc) A SA -> SA <= SM ->
  (j + k <= 21)%nat -> @horner R R_ops G M d k SM <= big -> pows (j + k) M <= big ->
  is_finite (@horner b64 B64_ops f t d k acc) = true.
Proof.
  intros acc A SA SM j Ft Ht HM HG. assert (U := u64_pos). assert (U2 := u64_small). assert (Hh := h64_pos). assert (HB := h64_big). destruct big_bpow as (_ & B1 & _).
  revert acc A SA SM j. induction k as [|k IH]; intros acc A SA SM j Hf Fa Ha HS Hj HH HP; cbn [horner] in *; [exact Fa|].
  assert (SA0 : 0 <= SA) by (eapply Rle_trans; [apply Rabs_pos|exact (proj1 Ha)]).
  assert (X := Rabs_pos (B2R t)). set (x := Rabs (B2R t)) in *.
  assert (G0 := HG (d + k)%nat).
  assert (L1 : SM * M + G (d + k)%nat <= big).
  { eapply Rle_trans; [|exact HH]. rnum. apply horner_ge; [exact HM|exact HG|]. nra. }
  assert (L2 : SA * x <= SM * M) by nra.
  destruct (Hf (d + k)%nat ltac:(lia)) as (Ff & Nf).
  set (E := 2 * h64 * (1 + u64) ^ (2 * j) * pows j x) in *.
  assert (PX : 0 <= pows j x) by (unfold pows; apply rsum_nonneg; intros; apply pow_le; exact X).
  destruct (small_power (2 * j) ltac:(lia)) as (_ & W1). destruct (small_power (2 * j + 1) ltac:(lia)) as (_ & W2).
  assert (Q1 := pow_u_ge (2 * j)).
  assert (EM : 0 <= E /\ E * x <= 1).
  { split; [unfold E; apply Rmult_le_pos; [apply Rmult_le_pos; lra|exact PX]|].
    assert (T1 : x * pows j x <= pows (S j) x) by (rewrite pows_S; lra).
    assert (T2 : pows (S j) x <= pows (S j) M) by (unfold pows; apply rsum_le; intros; apply pow_incr; split; assumption).
    assert (T3 : pows (S j) M <= big) by (eapply Rle_trans; [apply (pows_le (S j) (j + S k)); [lra|lia]|exact HP]).
    unfold E. replace (2 * h64 * (1 + u64) ^ (2 * j) * pows j x * x) with (2 * h64 * (1 + u64) ^ (2 * j) * (x * pows j x)) by ring.
    apply Rle_trans with (2 * h64 * 2 * big); [|lra]. apply Rmult_le_compat; try lra.
    - apply Rmult_le_pos; lra.
    - apply Rmult_le_pos; lra.
    - apply Rmult_le_compat_l; lra. }
  assert (Ax : Rabs (B2R acc * B2R t) <= 2 * big + 1).
  { rewrite Rabs_mult. fold x. destruct Ha as (Ha1 & Ha2). assert (T : Rabs (B2R acc) <= 2 * SA + E).
    { replace (B2R acc) with ((B2R acc - A) + A) by ring. eapply Rle_trans; [apply Rabs_triang|]. nra. }
    apply Rle_trans with ((2 * SA + E) * x); [apply Rmult_le_compat_r; assumption|]. nra. }
  assert (Fp : is_finite (@nmul b64 B64_ops acc t) = true) by (apply mul_fin; [exact Fa|exact Ft|lra]).
  assert (Fs : is_finite (@nadd b64 B64_ops (@nmul b64 B64_ops acc t) (f (d + k)%nat)) = true).
  { apply add_fin; [exact Fp|exact Ff|]. destruct (mul_err _ _ Fp) as (_ & _ & Em). destruct Nf as (Nf1 & Nf2). rewrite pow_1 in Nf2.
    assert (h64 <= 1) by nra.
    assert (T1 : Rabs (B2R (@nmul b64 B64_ops acc t)) <= 2 * (2 * big + 1) + 1).
    { replace (B2R (@nmul b64 B64_ops acc t)) with ((B2R (@nmul b64 B64_ops acc t) - B2R acc * B2R t) + B2R acc * B2R t) by ring.
      eapply Rle_trans; [apply Rabs_triang|]. nra. }
    assert (T2 : Rabs (B2R (f (d + k)%nat)) <= 2 * big + 1).
    { replace (B2R (f (d + k)%nat)) with ((B2R (f (d + k)%nat) - g (d + k)%nat) + g (d + k)%nat) by ring.
      eapply Rle_trans; [apply Rabs_triang|]. assert (0 <= SM * M) by nra. nra. }
    eapply Rle_trans; [apply Rabs_triang|]. lra. }
  assert (Hg : near (2 * j + 1) h64 (B2R (f (d + k)%nat)) (g (d + k)%nat) (G (d + k)%nat)) by (apply (near_more 1); [lia|exact Nf]).
  destruct (horner_step acc (f (d + k)%nat) t A SA (g (d + k)%nat) (G (d + k)%nat) (2 * j + 1) E (proj1 EM) Ha Hg Fs) as (_ & _ & _ & Hn).
  apply (IH _ (A * B2R t + g (d + k)%nat) (SA * x + G (d + k)%nat) (SM * M + G (d + k)%nat) (S j)); [intros; apply Hf; lia|exact Fs| |lra|lia|exact HH|].
  - replace (2 * S j + 1)%nat with (S (S (2 * j + 1))) by lia. eapply near_weak; [|exact Hn]. fold x.
    rewrite pows_S. replace (2 * S j)%nat with (2 + 2 * j)%nat by lia. rewrite pow_add. unfold E.
    set (w := (1 + u64) ^ (2 * j)) in *. set (s := pows j x) in *.
    replace (2 * h64 * ((1 + u64) ^ 2 * w) * (1 + x * s)) with ((1 + u64) ^ 2 * (2 * h64 * w * s) * x + 2 * h64 * ((1 + u64) ^ 2 * w)) by ring.
    apply Rplus_le_compat_l, Rmult_le_compat_l; [lra|]. nra.
  - replace (S j + k)%nat with (j + S k)%nat by lia. exact HP.
Qed.
