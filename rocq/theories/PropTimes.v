(** C102: the estimated segment times in doubles (estimateSegmentTimes,
    estimateSegmentTimesVelocityRamp). *)
From Coq Require Import ZArith Reals List Bool Lia Lra.
From Flocq Require Import IEEE754.BinarySingleNaN Core Relative Mult_error.
From Verif Require Import Num ModelVertex ProofNsec ProofRound.
Import ListNotations.
Open Scope R_scope.
Local Arguments bpow : simpl never.

Local Notation rnd := (round radix2 (FLT_exp (3 - 1024 - 53) 53) ZnearestE).
(** A finite double between two powers of two. *)
Definition within (lo hi : Z) (x : b64) : Prop := is_finite x = true /\ bpow radix2 lo <= B2R x <= bpow radix2 hi.

Lemma rnd_within z lo hi : (-1074 <= lo)%Z -> (-1074 <= hi <= 1023)%Z -> bpow radix2 lo <= z <= bpow radix2 hi ->
  bpow radix2 lo <= rnd z <= bpow radix2 hi /\ Rabs (rnd z) < bpow radix2 1024.
Proof.
  intros Hl Hh Hz. assert (H : bpow radix2 lo <= rnd z <= bpow radix2 hi).
  { split.
    - apply round_ge_generic; [apply FLT_exp_valid; reflexivity|apply valid_rnd_N| |apply Hz]. apply generic_format_bpow. unfold FLT_exp. lia.
    - apply round_le_generic; [apply FLT_exp_valid; reflexivity|apply valid_rnd_N| |apply Hz]. apply generic_format_bpow. unfold FLT_exp. lia. }
  split; [exact H|]. assert (P := bpow_gt_0 radix2 lo). rewrite Rabs_pos_eq by lra. eapply Rle_lt_trans; [apply H|]. apply bpow_lt. lia.
Qed.
Lemma mul_within a b c d (x y : b64) : within a b x -> within c d y -> (-1074 <= a + c)%Z -> (-1074 <= b + d <= 1023)%Z ->
  within (a + c) (b + d) (@nmul b64 B64_ops x y).
Proof.
  intros (Fx & Hx) (Fy & Hy) H1 H2. assert (A := bpow_gt_0 radix2 a). assert (C := bpow_gt_0 radix2 c).
  assert (Hz : bpow radix2 (a + c) <= B2R x * B2R y <= bpow radix2 (b + d)) by (rewrite !bpow_plus; split; apply Rmult_le_compat; lra).
  destruct (rnd_within _ _ _ H1 H2 Hz) as (R1 & R2). assert (K := Bmult_correct 53 1024 b64_prec_gt_0 b64_prec_lt_emax mode_NE x y).
  rewrite Rlt_bool_true in K by exact R2. destruct K as (K1 & K2 & _). split; cbn [nmul B64_ops]; [rewrite K2, Fx, Fy; reflexivity|].
  rewrite K1. exact R1.
Qed.
Lemma div_round (x y : b64) : B2R y <> 0 -> Rabs (rnd (B2R x / B2R y)) < bpow radix2 1024 ->
  B2R (@ndiv b64 B64_ops x y) = rnd (B2R x / B2R y) /\ is_finite (@ndiv b64 B64_ops x y) = is_finite x.
Proof.
  intros Hy H. assert (K := Bdiv_correct 53 1024 b64_prec_gt_0 b64_prec_lt_emax mode_NE x y Hy). rewrite Rlt_bool_true in K by exact H. split; apply K.
Qed.
Lemma quotient_within a b c d (x y : R) : bpow radix2 a <= x <= bpow radix2 b -> bpow radix2 c <= y <= bpow radix2 d ->
  bpow radix2 (a - d) <= x / y <= bpow radix2 (b - c).
Proof.
  intros Hx Hy. assert (A := bpow_gt_0 radix2 a). assert (C := bpow_gt_0 radix2 c). unfold Zminus. rewrite !bpow_plus, !bpow_opp. unfold Rdiv.
  assert (0 < / bpow radix2 d) by (apply Rinv_0_lt_compat, bpow_gt_0). assert (0 < / y) by (apply Rinv_0_lt_compat; lra).
  split; apply Rmult_le_compat; try lra; apply Rinv_le_contravar; lra.
Qed.
Lemma div_within a b c d (x y : b64) : within a b x -> within c d y -> (-1074 <= a - d)%Z -> (-1074 <= b - c <= 1023)%Z ->
  within (a - d) (b - c) (@ndiv b64 B64_ops x y).
Proof.
  intros (Fx & Hx) (Fy & Hy) H1 H2. destruct (rnd_within _ _ _ H1 H2 (quotient_within _ _ _ _ _ _ Hx Hy)) as (R1 & R2).
  assert (C := bpow_gt_0 radix2 c). destruct (div_round x y ltac:(lra) R2) as (E & F). split; [rewrite F; exact Fx|rewrite E; exact R1].
Qed.
Lemma two_within : within 1 1 (@nofZ b64 B64_ops 2).
Proof. destruct (ofZ_exact 2 ltac:(lia)) as (E & F). split; [exact F|]. rewrite E. change (bpow radix2 1) with 2. lra. Qed.
(** A product with a factor between 0 and 1, or a sum with a nonnegative number. *)
Lemma mul_fraction (x e : b64) hi : is_finite x = true -> 0 <= B2R x <= bpow radix2 hi -> is_finite e = true -> 0 <= B2R e <= 1 -> (-1074 <= hi <= 1000)%Z ->
  is_finite (@nmul b64 B64_ops x e) = true /\ 0 <= B2R (@nmul b64 B64_ops x e) <= bpow radix2 hi.
Proof.
  intros Fx Hx Fe He Hh. assert (Hz : 0 <= B2R x * B2R e <= bpow radix2 hi) by (split; [apply Rmult_le_pos; lra|]; replace (bpow radix2 hi) with (bpow radix2 hi * 1) by ring; apply Rmult_le_compat; lra).
  assert (H : 0 <= rnd (B2R x * B2R e) <= bpow radix2 hi).
  { split.
    - apply round_ge_generic; [apply FLT_exp_valid; reflexivity|apply valid_rnd_N|apply generic_format_0|apply Hz].
    - apply round_le_generic; [apply FLT_exp_valid; reflexivity|apply valid_rnd_N| |apply Hz]. apply generic_format_bpow. unfold FLT_exp. lia. }
  assert (K := Bmult_correct 53 1024 b64_prec_gt_0 b64_prec_lt_emax mode_NE x e). rewrite Rlt_bool_true in K.
  - destruct K as (K1 & K2 & _). cbn [nmul B64_ops]. split; [rewrite K2, Fx, Fe; reflexivity|]. rewrite K1. exact H.
  - rewrite Rabs_pos_eq by apply H. eapply Rle_lt_trans; [apply H|]. apply bpow_lt. lia.
Qed.
Lemma add_nonneg (x y : b64) hi : is_finite x = true -> is_finite y = true -> 0 <= B2R x <= bpow radix2 hi -> 0 <= B2R y <= bpow radix2 hi -> (-1074 <= hi <= 1000)%Z ->
  is_finite (@nadd b64 B64_ops x y) = true /\ B2R x <= B2R (@nadd b64 B64_ops x y) <= bpow radix2 (hi + 1) /\ B2R y <= B2R (@nadd b64 B64_ops x y).
Proof.
  intros Fx Fy Hx Hy Hh. assert (B : bpow radix2 (hi + 1) = bpow radix2 hi + bpow radix2 hi) by (rewrite bpow_plus; change (bpow radix2 1) with 2; ring).
  assert (U : rnd (B2R x + B2R y) <= bpow radix2 (hi + 1)).
  { apply round_le_generic; [apply FLT_exp_valid; reflexivity|apply valid_rnd_N| |rewrite B; lra]. apply generic_format_bpow. unfold FLT_exp. lia. }
  assert (L : forall z : b64, B2R z <= B2R x + B2R y -> B2R z <= rnd (B2R x + B2R y)).
  { intros z Hz. apply round_ge_generic; [apply FLT_exp_valid; reflexivity|apply valid_rnd_N|apply (generic_format_B2R 53 1024)|exact Hz]. }
  assert (L1 := L x ltac:(lra)). assert (L2 := L y ltac:(lra)).
  assert (K := Bplus_correct 53 1024 b64_prec_gt_0 b64_prec_lt_emax mode_NE x y Fx Fy). rewrite Rlt_bool_true in K.
  - destruct K as (K1 & K2 & _). cbn [nadd B64_ops]. split; [exact K2|]. rewrite K1. split; [split; assumption|exact L2].
  - rewrite Rabs_pos_eq by (apply Rle_trans with (B2R x); [apply Hx|exact L1]). eapply Rle_lt_trans; [exact U|]. apply bpow_lt. lia.
Qed.

(** What the C library guarantees of exp for arguments that are not positive. *)
Definition exp_of_nonpositive (fexp : b64 -> b64) : Prop :=
  forall x, is_finite x = true -> B2R x <= 0 -> is_finite (fexp x) = true /\ 0 <= B2R (fexp x) <= 1.

(** The nfabian time of one segment: a positive finite number, at least twice
    the time needed at v_max up to one rounding of the quotient. *)
Theorem C102_nfabian_time (fexp : b64 -> b64) (d v a m : b64) :
  exp_of_nonpositive fexp -> within (-200) 300 d -> within (-100) 100 v -> within (-100) 100 a -> within (-100) 100 m ->
  let t := @nfabian_time b64 B64_ops fexp d v a m in
  is_finite t = true /\ 0 < B2R t /\ (1 - u64) * (2 * (B2R d / B2R v)) <= B2R t.
Proof.
  intros He Hd Hv Ha Hm t. assert (Hq := div_within _ _ _ _ _ _ Hd Hv ltac:(lia) ltac:(lia)).
  assert (HX := mul_within _ _ _ _ _ _ Hq two_within ltac:(lia) ltac:(lia)).
  assert (Hmv := mul_within _ _ _ _ _ _ Hm Hv ltac:(lia) ltac:(lia)). assert (Hc := div_within _ _ _ _ _ _ Hmv Ha ltac:(lia) ltac:(lia)).
  change (within (-299) 401 (@nmul b64 B64_ops (@ndiv b64 B64_ops d v) (@nofZ b64 B64_ops 2))) in HX.
  change (within (-300) 400 (@ndiv b64 B64_ops d v)) in Hq. change (within (-300) 300 (@ndiv b64 B64_ops (@nmul b64 B64_ops m v) a)) in Hc.
  set (q := @ndiv b64 B64_ops d v) in *. set (X := @nmul b64 B64_ops q (@nofZ b64 B64_ops 2)) in *.
  set (c := @ndiv b64 B64_ops (@nmul b64 B64_ops m v) a) in *.
  set (y := @nmul b64 B64_ops (@ndiv b64 B64_ops (@nopp b64 B64_ops d) v) (@nofZ b64 B64_ops 2)).
  assert (Pv : 0 < B2R v) by (eapply Rlt_le_trans; [apply (bpow_gt_0 radix2 (-100))|apply Hv]).
  assert (Qr : B2R q = rnd (B2R d / B2R v) /\ Rabs (rnd (B2R d / B2R v)) < bpow radix2 1024).
  { assert (R := rnd_within _ (-300) 400 ltac:(lia) ltac:(lia) (quotient_within _ _ _ _ _ _ (proj2 Hd) (proj2 Hv))). split; [|apply R].
    apply div_round; [lra|apply R]. }
  destruct Qr as (Qr & Qb).
  assert (Hy : is_finite y = true /\ B2R y <= 0).
  { assert (On : B2R (@nopp b64 B64_ops d) = - B2R d) by apply B2R_Bopp.
    assert (E : B2R (@ndiv b64 B64_ops (@nopp b64 B64_ops d) v) = - B2R q /\ is_finite (@ndiv b64 B64_ops (@nopp b64 B64_ops d) v) = true).
    { assert (Z : rnd (B2R (@nopp b64 B64_ops d) / B2R v) = - rnd (B2R d / B2R v)).
      { rewrite On. replace (- B2R d / B2R v) with (- (B2R d / B2R v)) by (field; lra). apply round_NE_opp. }
      destruct (div_round (@nopp b64 B64_ops d) v) as (E1 & E2); [lra|rewrite Z, Rabs_Ropp; exact Qb|].
      split; [rewrite E1, Z, Qr; reflexivity|]. rewrite E2. cbn [nopp B64_ops]. rewrite is_finite_Bopp. apply Hd. }
    destruct E as (E & F). destruct two_within as (F2 & B2). change (bpow radix2 1) with 2 in B2.
    assert (Hbig : bpow radix2 400 * 2 <= bpow radix2 401) by (replace (bpow radix2 401) with (bpow radix2 400 * bpow radix2 1) by (rewrite <- bpow_plus; reflexivity); change (bpow radix2 1) with 2; lra).
    assert (Pq : 0 <= B2R q <= bpow radix2 400) by (split; [left; eapply Rlt_le_trans; [apply bpow_gt_0|apply Hq]|apply Hq]).
    assert (Fy : is_finite y = true).
    { apply mul_fin; [exact F|exact F2|]. rewrite E. replace (- B2R q * B2R (@nofZ b64 B64_ops 2)) with (- (B2R q * 2)) by nra. rewrite Rabs_Ropp, Rabs_pos_eq by lra.
      apply Rle_trans with (bpow radix2 401); [nra|]. apply Rle_trans with (bpow radix2 1000); [apply bpow_le; lia|].
      unfold big. change 1000%Z with (Z.of_nat 1000). rewrite bpow_powerRZ, <- pow_powerRZ. change (IZR radix2) with 2. assert (0 < 2 ^ 1000) by (apply pow_lt; lra). lra. }
    split; [exact Fy|]. destruct (mul_finite _ _ Fy) as (_ & _ & Ey). unfold y at 1. rewrite Ey.
    apply round_le_generic; [apply FLT_exp_valid; reflexivity|apply valid_rnd_N|apply generic_format_0|]. rewrite E. nra. }
  destruct (He y (proj1 Hy) (proj2 Hy)) as (Fe & Be).
  assert (C0 : 0 <= B2R c) by (left; eapply Rlt_le_trans; [apply bpow_gt_0|apply Hc]).
  destruct (mul_fraction c (fexp y) 300 (proj1 Hc) ltac:(split; [exact C0|apply Hc]) Fe Be ltac:(lia)) as (Fp & Bp).
  set (pr := @nmul b64 B64_ops c (fexp y)) in *. destruct (ofZ_exact 1 ltac:(lia)) as (E1 & F1).
  destruct (add_nonneg (@n1 b64 B64_ops) pr 300) as (Fs & Bs & _); [exact F1|exact Fp| |exact Bp|lia|].
  { unfold n1. rewrite E1. split; [lra|]. change 1 with (bpow radix2 0). apply bpow_le. lia. }
  set (sm := @nadd b64 B64_ops (@n1 b64 B64_ops) pr) in *.
  assert (Hs : within 0 301 sm). { split; [exact Fs|]. change (bpow radix2 0) with 1. unfold n1 in Bs at 1. rewrite E1 in Bs. exact Bs. }
  assert (Ht := mul_within _ _ _ _ _ _ HX Hs ltac:(lia) ltac:(lia)). change (@nmul b64 B64_ops X sm) with t in Ht.
  split; [apply Ht|]. assert (Pt : 0 < B2R t) by (eapply Rlt_le_trans; [apply bpow_gt_0|apply Ht]). split; [exact Pt|].
  assert (X0 : 0 < B2R X) by (eapply Rlt_le_trans; [apply bpow_gt_0|apply HX]).
  assert (tX : B2R X <= B2R t).
  { destruct (mul_finite X sm (proj1 Ht)) as (_ & _ & Et). change t with (@nmul b64 B64_ops X sm). rewrite Et.
    apply round_ge_generic; [apply FLT_exp_valid; reflexivity|apply valid_rnd_N|apply (generic_format_B2R 53 1024)|].
    destruct Hs as (_ & Hs). change (bpow radix2 0) with 1 in Hs. nra. }
  eapply Rle_trans; [|exact tX]. destruct (mul_finite q _ (proj1 HX)) as (_ & _ & EX). fold X in EX.
  destruct (ofZ_exact 2 ltac:(lia)) as (E2 & _). rewrite E2 in EX.
  assert (Xe : B2R X = B2R q * 2).
  { rewrite EX. apply round_generic; [apply valid_rnd_N|]. replace (B2R q * 2) with (B2R q * bpow radix2 1) by reflexivity.
    apply mult_bpow_exact_FLT; [apply (generic_format_B2R 53 1024)|]. 
    assert (Mq : (-299 <= mag radix2 (B2R q))%Z); [|lia]. apply mag_ge_bpow. rewrite Rabs_pos_eq; [apply Hq|]. left. eapply Rlt_le_trans; [apply bpow_gt_0|apply Hq]. }
  rewrite Xe, Qr. assert (Rq := quotient_within _ _ _ _ _ _ (proj2 Hd) (proj2 Hv)). set (z := B2R d / B2R v) in *.
  assert (Z0 : 0 < z) by (eapply Rlt_le_trans; [apply bpow_gt_0|apply Rq]).
  assert (Er : Rabs (rnd z - z) <= u64 * Rabs z).
  { rewrite <- u64_bpow. apply relative_error_N_FLT; [reflexivity|]. rewrite Rabs_pos_eq by lra. eapply Rle_trans; [|apply Rq]. apply bpow_le. lia. }
  rewrite (Rabs_pos_eq z) in Er by lra. assert (A := Rle_abs (z - rnd z)). rewrite Rabs_minus_sym in A. lra.
Qed.
Print Assumptions C102_nfabian_time.

(** ** The distance between two positions *)
Lemma sub_within (x y : b64) : is_finite x = true -> is_finite y = true ->
  Rabs (B2R x) <= bpow radix2 200 -> Rabs (B2R y) <= bpow radix2 200 ->
  let z := @nsub b64 B64_ops x y in is_finite z = true /\ Rabs (B2R z) <= bpow radix2 201 /\
  (bpow radix2 (-200) <= Rabs (B2R x - B2R y) -> bpow radix2 (-200) <= Rabs (B2R z)).
Proof.
  intros Fx Fy Hx Hy z. assert (K := Bminus_correct 53 1024 b64_prec_gt_0 b64_prec_lt_emax mode_NE x y Fx Fy).
  assert (B : bpow radix2 201 = bpow radix2 200 + bpow radix2 200) by (change 201%Z with (200 + 1)%Z; rewrite bpow_plus; change (bpow radix2 1) with 2; ring).
  assert (D : Rabs (B2R x - B2R y) <= bpow radix2 201) by (unfold Rminus; eapply Rle_trans; [apply Rabs_triang|]; rewrite Rabs_Ropp; lra).
  assert (U : Rabs (rnd (B2R x - B2R y)) <= bpow radix2 201).
  { apply abs_round_le_generic; [apply FLT_exp_valid; reflexivity|apply valid_rnd_N| |exact D]. apply generic_format_bpow. unfold FLT_exp. lia. }
  assert (W : bpow radix2 (-200) <= Rabs (B2R x - B2R y) -> bpow radix2 (-200) <= Rabs (rnd (B2R x - B2R y))).
  { intros L. apply abs_round_ge_generic; [apply FLT_exp_valid; reflexivity|apply valid_rnd_N| |exact L]. apply generic_format_bpow. unfold FLT_exp. lia. }
  rewrite Rlt_bool_true in K by (eapply Rle_lt_trans; [exact U|apply bpow_lt; lia]).
  destruct K as (K1 & K2 & _). unfold z. cbn [nsub B64_ops]. split; [exact K2|]. rewrite K1. split; [exact U|exact W].
Qed.
Lemma square_bounds (x : b64) : is_finite x = true -> Rabs (B2R x) <= bpow radix2 201 ->
  let z := @nmul b64 B64_ops x x in is_finite z = true /\ 0 <= B2R z <= bpow radix2 402 /\
  (bpow radix2 (-200) <= Rabs (B2R x) -> bpow radix2 (-400) <= B2R z).
Proof.
  intros Fx Hx z. assert (A0 := Rabs_pos (B2R x)). assert (Q : B2R x * B2R x = Rabs (B2R x) * Rabs (B2R x)) by (rewrite <- Rabs_mult, Rabs_pos_eq; [reflexivity|apply Rle_0_sqr]).
  assert (B : bpow radix2 402 = bpow radix2 201 * bpow radix2 201) by (rewrite <- bpow_plus; reflexivity).
  assert (B' : bpow radix2 (-400) = bpow radix2 (-200) * bpow radix2 (-200)) by (rewrite <- bpow_plus; reflexivity).
  assert (P := bpow_gt_0 radix2 (-200)). assert (H : 0 <= B2R x * B2R x <= bpow radix2 402) by (rewrite Q, B; split; [apply Rmult_le_pos; lra|apply Rmult_le_compat; lra]).
  assert (K := Bmult_correct 53 1024 b64_prec_gt_0 b64_prec_lt_emax mode_NE x x).
  assert (H' : 0 <= rnd (B2R x * B2R x) <= bpow radix2 402).
  { split.
    - apply round_ge_generic; [apply FLT_exp_valid; reflexivity|apply valid_rnd_N|apply generic_format_0|apply H].
    - apply round_le_generic; [apply FLT_exp_valid; reflexivity|apply valid_rnd_N| |apply H]. apply generic_format_bpow. unfold FLT_exp. lia. }
  assert (W : bpow radix2 (-200) <= Rabs (B2R x) -> bpow radix2 (-400) <= rnd (B2R x * B2R x)).
  { intros L. apply round_ge_generic; [apply FLT_exp_valid; reflexivity|apply valid_rnd_N| |rewrite Q, B'; apply Rmult_le_compat; lra].
    apply generic_format_bpow. unfold FLT_exp. lia. }
  rewrite Rlt_bool_true in K by (rewrite Rabs_pos_eq by apply H'; eapply Rle_lt_trans; [apply H'|apply bpow_lt; lia]).
  destruct K as (K1 & K2 & _). unfold z. cbn [nmul B64_ops]. split; [rewrite K2, Fx; reflexivity|]. rewrite K1. split; [exact H'|exact W].
Qed.
Lemma sum_squares (l : list b64) : forall (acc : b64) (k : nat), is_finite acc = true -> 0 <= B2R acc <= bpow radix2 (402 + Z.of_nat k) ->
  (k + length l <= 100)%nat -> List.Forall (fun x => is_finite x = true /\ Rabs (B2R x) <= bpow radix2 201) l ->
  let z := fold_left (fun acc a => @nadd b64 B64_ops acc (@nmul b64 B64_ops a a)) l acc in
  is_finite z = true /\ B2R acc <= B2R z <= bpow radix2 502 /\
  (List.Exists (fun x => bpow radix2 (-200) <= Rabs (B2R x)) l -> bpow radix2 (-400) <= B2R z).
Proof.
  induction l as [|x l IH]; intros acc k Fa Ba Hk Hl; cbn [fold_left length] in *.
  - split; [exact Fa|]. split; [|intros E; inversion E]. split; [lra|]. eapply Rle_trans; [apply Ba|]. apply bpow_le. lia.
  - inversion Hl as [|? ? (Fx & Hx) Hl']; subst. destruct (square_bounds x Fx Hx) as (Fz & Bz & Lz).
    destruct (add_nonneg acc (@nmul b64 B64_ops x x) (402 + Z.of_nat k) Fa Fz Ba) as (Fs & Bs & Ls); [split; [apply Bz|]; eapply Rle_trans; [apply Bz|]; apply bpow_le; lia|lia|].
    destruct (IH _ (S k) Fs) as (F & B & L); [|lia|exact Hl'|].
    { split; [lra|]. replace (402 + Z.of_nat (S k))%Z with (402 + Z.of_nat k + 1)%Z by lia. apply Bs. }
    split; [exact F|]. split; [lra|]. intros E. inversion E as [? ? E1|? ? E1]; subst; [|apply L, E1]. specialize (Lz E1). lra.
Qed.
Lemma sqrt_within (x : b64) : within (-400) 502 x -> within (-200) 251 (@nsqrt b64 B64_ops x).
Proof.
  intros (Fx & Hx). destruct (Bsqrt_correct 53 1024 b64_prec_gt_0 b64_prec_lt_emax mode_NE x) as (E & F & _).
  assert (P := bpow_gt_0 radix2 (-400)).
  assert (S : bpow radix2 (-200) <= sqrt (B2R x) <= bpow radix2 251).
  { split.
    - rewrite <- (sqrt_square (bpow radix2 (-200))) by apply bpow_ge_0. apply sqrt_le_1_alt. rewrite <- bpow_plus. apply Hx.
    - rewrite <- (sqrt_square (bpow radix2 251)) by apply bpow_ge_0. apply sqrt_le_1_alt. rewrite <- bpow_plus. apply Hx. }
  destruct (rnd_within _ (-200) 251 ltac:(lia) ltac:(lia) S) as (R1 & _). split; cbn [nsqrt B64_ops].
  - rewrite F. destruct x as [| | |[] m e H]; try reflexivity; try discriminate. exfalso.
    assert (0 <= B2R (B754_finite true m e H : b64)) by lra. assert (Q : B2R (B754_finite true m e H : b64) < 0) by (apply F2R_lt_0; reflexivity). lra.
  - rewrite E. exact R1.
Qed.

Lemma ok_inj {A} (x y : A) : Ok x = Ok y -> x = y.
Proof. now intros [= ->]. Qed.
Lemma omap_forall {A B} (f : A -> outcome B) (P : B -> Prop) l : (forall x, In x l -> exists y, f x = Ok y /\ P y) ->
  exists ys, omap f l = Ok ys /\ length ys = length l /\ List.Forall P ys.
Proof.
  induction l as [|x l IH]; intros H; cbn [omap].
  - exists []. repeat split. constructor.
  - destruct (H x (or_introl eq_refl)) as (y & E & Py). destruct IH as (ys & E' & L & F); [intros z Hz; apply H; now right|].
    exists (y :: ys). rewrite E. cbn [obind]. rewrite E'. cbn [obind length]. split; [reflexivity|]. split; [lia|]. now constructor.
Qed.
Lemma pairs_at {A} (d : A) l : length (pairs l) = (length l - 1)%nat /\
  forall p, In p (pairs l) -> exists i, (S i < length l)%nat /\ p = (nth i l d, nth (S i) l d).
Proof.
  induction l as [|x [|y l] IH]; [split; [reflexivity|intros p []]|split; [reflexivity|intros p []]|]. change (pairs (x :: y :: l)) with ((x, y) :: pairs (y :: l)).
  destruct IH as (L & IH). split; [cbn [length] in *; lia|]. intros p [<-|Hp]; [exists 0%nat; cbn [length]; split; [lia|reflexivity]|].
  destruct (IH p Hp) as (i & Hi & ->). exists (S i). cbn [length nth] in *. split; [lia|reflexivity].
Qed.

(** The position of vertex i. *)
Definition at_position (vs : list (vertex b64)) (i : nat) (x : list b64) : Prop := vertex_get (nth i vs (vertex_new 0)) 0 = Some x.
Lemma at_position_or_empty vs i x : at_position vs i x -> position_or_empty (nth i vs (vertex_new 0)) = x.
Proof. unfold at_position, position_or_empty, kPosition. now intros ->. Qed.
Lemma distance_within (x y : list b64) : length x = length y -> (length x <= 100)%nat ->
  List.Forall (fun c => is_finite c = true /\ Rabs (B2R c) <= bpow radix2 200) x ->
  List.Forall (fun c => is_finite c = true /\ Rabs (B2R c) <= bpow radix2 200) y ->
  (exists k, (k < length x)%nat /\ bpow radix2 (-200) <= Rabs (B2R (nth k y (@n0 b64 B64_ops)) - B2R (nth k x (@n0 b64 B64_ops)))) ->
  exists z, @vec_sub b64 B64_ops y x = Ok z /\ within (-200) 251 (@vec_norm b64 B64_ops z).
Proof.
  intros Hl Hn Fx Fy Hk. unfold vec_sub. rewrite Hl, Nat.eqb_refl. eexists. split; [reflexivity|]. apply sqrt_within.
  set (z := map _ (combine y x)).
  assert (Lz : length z = length x) by (unfold z; rewrite map_length, combine_length; lia).
  assert (Nz : forall k, (k < length x)%nat -> nth k z (@n0 b64 B64_ops) = @nsub b64 B64_ops (nth k y (@n0 b64 B64_ops)) (nth k x (@n0 b64 B64_ops))).
  { intros k Hk'. unfold z. set (f := fun p : b64 * b64 => @nsub b64 B64_ops (fst p) (snd p)).
    rewrite (nth_indep _ _ (f (@n0 b64 B64_ops, @n0 b64 B64_ops))) by (rewrite map_length, combine_length; lia).
    rewrite (map_nth f), combine_nth by lia. reflexivity. }
  assert (Bz : forall k, (k < length x)%nat -> is_finite (nth k z (@n0 b64 B64_ops)) = true /\ Rabs (B2R (nth k z (@n0 b64 B64_ops))) <= bpow radix2 201 /\
    (bpow radix2 (-200) <= Rabs (B2R (nth k y (@n0 b64 B64_ops)) - B2R (nth k x (@n0 b64 B64_ops))) -> bpow radix2 (-200) <= Rabs (B2R (nth k z (@n0 b64 B64_ops))))).
  { intros k Hk'. rewrite Nz by exact Hk'. rewrite List.Forall_forall in Fx, Fy.
    destruct (Fx (nth k x (@n0 b64 B64_ops))) as (F1 & B1); [apply nth_In; lia|]. destruct (Fy (nth k y (@n0 b64 B64_ops))) as (F2 & B2); [apply nth_In; lia|].
    apply sub_within; assumption. }
  destruct (sum_squares z (@n0 b64 B64_ops) 0) as (F & B & L).
  - reflexivity.
  - split; [right; reflexivity|apply bpow_ge_0].
  - lia.
  - apply List.Forall_forall. intros c Hc. destruct (In_nth _ _ (@n0 b64 B64_ops) Hc) as (k & Hk' & <-). destruct (Bz k) as (A1 & A2 & _); [lia|]. split; assumption.
  - split; [exact F|]. split; [|apply B]. apply L. destruct Hk as (k & Hk' & D). apply List.Exists_exists. exists (nth k z (@n0 b64 B64_ops)).
    split; [apply nth_In; lia|]. apply Bz; assumption.
Qed.
Lemma magic_within : within (-100) 100 (@nlit b64 B64_ops 65 10).
Proof.
  assert (H : within 2 7 (@nofZ b64 B64_ops 65) /\ within 2 7 (@nofZ b64 B64_ops 10)).
  { destruct (ofZ_exact 65 ltac:(lia)) as (E1 & F1). destruct (ofZ_exact 10 ltac:(lia)) as (E2 & F2). unfold within. rewrite E1, E2.
    change (bpow radix2 2) with 4. change (bpow radix2 7) with 128. repeat split; try assumption; lra. }
  destruct H as (H1 & H2). destruct (div_within _ _ _ _ _ _ H1 H2 ltac:(lia) ltac:(lia)) as (F & B). split; [exact F|].
  split; [eapply Rle_trans; [|apply B]|eapply Rle_trans; [apply B|]]; apply bpow_le; lia.
Qed.

(** estimateSegmentTimes in doubles: a positive finite time for every segment. *)
Theorem C102_estimate (fexp : b64 -> b64) (vs : list (vertex b64)) (pos : nat -> list b64) (n : nat) (v a : b64) :
  exp_of_nonpositive fexp -> (2 <= length vs)%nat -> (n <= 100)%nat ->
  (forall i, (i < length vs)%nat -> at_position vs i (pos i) /\ length (pos i) = n /\
     List.Forall (fun c => is_finite c = true /\ Rabs (B2R c) <= bpow radix2 200) (pos i)) ->
  (forall i, (S i < length vs)%nat -> exists k, (k < n)%nat /\
     bpow radix2 (-200) <= Rabs (B2R (nth k (pos (S i)) (@n0 b64 B64_ops)) - B2R (nth k (pos i) (@n0 b64 B64_ops)))) ->
  within (-100) 100 v -> within (-100) 100 a ->
  exists ts, @estimateSegmentTimes b64 B64_ops fexp vs v a = Ok ts /\ length ts = (length vs - 1)%nat /\
    List.Forall (fun t => is_finite t = true /\ 0 < B2R t) ts.
Proof.
  intros He H2 Hn Hpos Hne Hv Ha. unfold estimateSegmentTimes, estimateSegmentTimesNfabian. destruct (Nat.ltb_spec (length vs) 2); [lia|].
  destruct (pairs_at (vertex_new 0) vs) as (Lp & Ip). rewrite <- Lp. apply omap_forall. intros p Hp. destruct (Ip p Hp) as (i & Hi & ->). cbn [fst snd].
  destruct (Hpos i ltac:(lia)) as (P1 & L1 & F1). destruct (Hpos (S i) ltac:(lia)) as (P2 & L2 & F2).
  rewrite (at_position_or_empty _ _ _ P1), (at_position_or_empty _ _ _ P2).
  destruct (distance_within (pos i) (pos (S i))) as (z & -> & W); [lia|lia|exact F1|exact F2|rewrite L1; apply Hne, Hi|]. cbn [obind].
  assert (W' : within (-200) 300 (@vec_norm b64 B64_ops z)).
  { destruct W as (W1 & W2). split; [exact W1|]. split; [apply W2|]. eapply Rle_trans; [apply W2|apply bpow_le; lia]. }
  destruct (C102_nfabian_time fexp _ v a _ He W' Hv Ha magic_within) as (T1 & T2 & _). eexists. split; [reflexivity|]. split; assumption.
Qed.
Print Assumptions C102_estimate.

(** Two distinct positions so close that the square of their distance is no
    longer a double: the estimated time is zero. *)
Definition tiny_apart (k : Z) : list (vertex b64) :=
  [mkVertex 1 [(0%Z, [@n0 b64 B64_ops])]; mkVertex 1 [(0%Z, [@ndiv b64 B64_ops (@n1 b64 B64_ops) (@nofZ b64 B64_ops (2 ^ k))])]].
Theorem C102_distinct_positions_zero_time_refuted : exists (fexp : b64 -> b64) (vs : list (vertex b64)) (x y v a t : b64),
  exp_of_nonpositive fexp /\ length vs = 2%nat /\ at_position vs 0 [x] /\ at_position vs 1 [y] /\ is_finite x = true /\ is_finite y = true /\ B2R x <> B2R y /\
  within (-100) 100 v /\ within (-100) 100 a /\ @estimateSegmentTimes b64 B64_ops fexp vs v a = Ok [t] /\ B2R t = 0.
Proof.
  destruct (ofZ_exact 1 ltac:(lia)) as (E1 & F1).
  assert (W1 : within (-100) 100 (@n1 b64 B64_ops)).
  { split; [exact F1|]. unfold n1. rewrite E1. change 1 with (bpow radix2 0). split; apply bpow_le; lia. }
  exists (fun _ => @n1 b64 B64_ops), (tiny_apart 600), (@n0 b64 B64_ops), (@ndiv b64 B64_ops (@n1 b64 B64_ops) (@nofZ b64 B64_ops (2 ^ 600))), (@n1 b64 B64_ops), (@n1 b64 B64_ops), (@n0 b64 B64_ops).
  split; [intros z _ _; split; [exact F1|]; unfold n1; rewrite E1; lra|]. split; [reflexivity|]. split; [reflexivity|]. split; [reflexivity|].
  split; [reflexivity|]. split; [vm_compute; reflexivity|]. split.
  { change (B2R (@n0 b64 B64_ops)) with 0. apply not_eq_sym, Rgt_not_eq.
    assert (S : exists m e, B2SF (@ndiv b64 B64_ops (@n1 b64 B64_ops) (@nofZ b64 B64_ops (2 ^ 600))) = SpecFloat.S754_finite false m e) by (eexists; eexists; vm_compute; reflexivity).
    destruct S as (m & e & S). rewrite <- (SF2R_B2SF 53 1024), S. apply F2R_gt_0. reflexivity. }
  split; [exact W1|]. split; [exact W1|]. split; [|reflexivity].
  assert (S : match @estimateSegmentTimes b64 B64_ops (fun _ => @n1 b64 B64_ops) (tiny_apart 600) (@n1 b64 B64_ops) (@n1 b64 B64_ops) with
              | Ok [t] => B2SF t = B2SF (@n0 b64 B64_ops) | _ => False end) by (vm_compute; reflexivity).
  destruct (estimateSegmentTimes _ _ _ _) as [[|t [|]]| | |]; try contradiction. apply B2SF_inj in S. rewrite S. reflexivity.
Qed.
Print Assumptions C102_distinct_positions_zero_time_refuted.

(** ** The velocity ramp *)
Lemma tenth_within : within (-4) (-3) (@nlit b64 B64_ops 1 10).
Proof.
  assert (H : within 0 0 (@nofZ b64 B64_ops 1) /\ within 3 4 (@nofZ b64 B64_ops 10)).
  { destruct (ofZ_exact 1 ltac:(lia)) as (E1 & F1). destruct (ofZ_exact 10 ltac:(lia)) as (E2 & F2). unfold within. rewrite E1, E2.
    change (bpow radix2 0) with 1. change (bpow radix2 3) with 8. change (bpow radix2 4) with 16. repeat split; try assumption; lra. }
  destruct H as (H1 & H2). exact (div_within _ _ _ _ _ _ H1 H2 ltac:(lia) ltac:(lia)).
Qed.
Lemma max_tenth (t : b64) : let m := @nmax b64 B64_ops (@nlit b64 B64_ops 1 10) t in
  is_nan m = false /\ @nleb b64 B64_ops (@nlit b64 B64_ops 1 10) m = true /\ @nltb b64 B64_ops (@n0 b64 B64_ops) m = true.
Proof.
  intros m. unfold m, nmax. destruct (@nltb b64 B64_ops (@nlit b64 B64_ops 1 10) t) eqn:E; [|repeat split; vm_compute; reflexivity].
  assert (N : is_nan t = false). { destruct t; try reflexivity. exfalso. revert E. cbn [nltb B64_ops]. unfold b64_cmp. vm_compute. discriminate. }
  split; [exact N|]. split; [revert E; cbn [nltb nleb B64_ops]; destruct (b64_cmp _ t) as [[]|]; intros; (reflexivity || discriminate)|].
  destruct (is_finite t) eqn:F.
  - assert (Ft : is_finite (@nlit b64 B64_ops 1 10) = true) by (vm_compute; reflexivity). revert E. cbn [nltb B64_ops]. unfold b64_cmp.
    rewrite !Bcompare_correct by (assumption || reflexivity). destruct (Rcompare_spec (B2R (@nlit b64 B64_ops 1 10)) (B2R t)); intros; try discriminate.
    rewrite Rcompare_Lt; [reflexivity|]. change (B2R (@n0 b64 B64_ops)) with 0. eapply Rlt_trans; [|eassumption].
    eapply Rlt_le_trans; [apply bpow_gt_0|apply tenth_within].
  - destruct t as [|s| |]; try discriminate. destruct s; [exfalso; revert E; vm_compute; discriminate|vm_compute; reflexivity].
Qed.

Lemma omap_result {A B} (f : A -> outcome B) (P : B -> Prop) l ys : (forall x y, f x = Ok y -> P y) -> omap f l = Ok ys ->
  length ys = length l /\ List.Forall P ys.
Proof.
  intros H. revert ys. induction l as [|x l IH]; intros ys E; cbn [omap] in E.
  - injection E as <-. split; [reflexivity|constructor].
  - destruct (f x) as [y| | |] eqn:Ey; try discriminate. cbn [obind] in E. destruct (omap f l) as [ys'| | |]; try discriminate. cbn [obind] in E. injection E as <-.
    destruct (IH ys' eq_refl) as (L & F). split; [cbn [length]; lia|]. constructor; [eapply H, Ey|exact F].
Qed.

(** estimateSegmentTimesVelocityRamp in doubles, whatever the positions and
    limits (NaN and infinities included): every time passes the check t > 0, is
    not below 0.1 and is not a NaN. *)
Theorem C102_ramp (vs : list (vertex b64)) (v a f : b64) (ts : list b64) :
  @estimateSegmentTimesVelocityRamp b64 B64_ops vs v a f = Ok ts ->
  length ts = (length vs - 1)%nat /\
  List.Forall (fun t => is_nan t = false /\ @nleb b64 B64_ops (@nlit b64 B64_ops 1 10) t = true /\ @nltb b64 B64_ops (@n0 b64 B64_ops) t = true) ts.
Proof.
  unfold estimateSegmentTimesVelocityRamp. destruct (Nat.ltb_spec (length vs) 2); [discriminate|]. intros E.
  rewrite <- (proj1 (pairs_at (vertex_new 0) vs)). eapply omap_result; [|exact E]. intros p t Et. cbv beta in Et.
  destruct (computeTimeVelocityRamp _ _ _ _) as [t'| | |]; try discriminate. cbn [obind] in Et. apply ok_inj in Et. subst t. apply max_tenth.
Qed.
Print Assumptions C102_ramp.

(** A limit that is not a number is not noticed: all times are 0.1. *)
Theorem C102_nan_limit_finding (vs : list (vertex b64)) (v a f : b64) (ts : list b64) : is_nan v = true \/ is_nan a = true ->
  @estimateSegmentTimesVelocityRamp b64 B64_ops vs v a f = Ok ts -> List.Forall (fun t => t = @nlit b64 B64_ops 1 10) ts.
Proof.
  intros Hn. unfold estimateSegmentTimesVelocityRamp. destruct (Nat.ltb_spec (length vs) 2); [discriminate|]. intros E.
  eapply (omap_result _ (fun t => t = @nlit b64 B64_ops 1 10)); [|exact E]. intros p t Et. cbv beta in Et. unfold computeTimeVelocityRamp in Et.
  destruct (vec_sub _ _) as [z| | |]; try discriminate. cbn [obind] in Et. apply ok_inj in Et. subst t. set (d := @vec_norm b64 B64_ops z). clearbody d.
  assert (Q : @ndiv b64 B64_ops v a = B754_nan). { destruct Hn; [destruct v|destruct a]; try discriminate; [destruct a|destruct v]; reflexivity. }
  unfold ramp_time. rewrite Q. set (h := @nmul b64 B64_ops (@nlit b64 B64_ops 5 10) v).
  assert (N1 : forall x, @nmul b64 B64_ops x B754_nan = B754_nan) by (intros []; reflexivity).
  assert (N2 : @nltb b64 B64_ops d B754_nan = false) by (destruct d; reflexivity).
  rewrite !N1, N2. assert (N3 : forall x, @nadd b64 B64_ops B754_nan x = B754_nan) by (intros []; reflexivity). rewrite N3.
  unfold nmax. assert (N4 : forall x, @nltb b64 B64_ops x B754_nan = false) by (intros []; reflexivity). rewrite N4. reflexivity.
Qed.
Print Assumptions C102_nan_limit_finding.

Definition apart_one : list (vertex b64) := [mkVertex 1 [(0%Z, [@n0 b64 B64_ops])]; mkVertex 1 [(0%Z, [@n1 b64 B64_ops])]].
(** With a zero acceleration limit the estimate is infinite, and it still passes the test t > 0 of the optimisers. *)
Theorem C102_infinite_time_finding :
  exists t : b64, @estimateSegmentTimesVelocityRamp b64 B64_ops apart_one (@n1 b64 B64_ops) (@n0 b64 B64_ops) (@n1 b64 B64_ops) = Ok [t] /\
    t = B754_infinity false /\ @nltb b64 B64_ops (@n0 b64 B64_ops) t = true.
Proof.
  exists (B754_infinity false). split; [|split; reflexivity].
  assert (S : match @estimateSegmentTimesVelocityRamp b64 B64_ops apart_one (@n1 b64 B64_ops) (@n0 b64 B64_ops) (@n1 b64 B64_ops) with
              | Ok [t] => B2SF t = SpecFloat.S754_infinity false | _ => False end) by (vm_compute; reflexivity).
  destruct (estimateSegmentTimesVelocityRamp _ _ _ _) as [[|t [|]]| | |]; try contradiction. do 2 f_equal. apply B2SF_inj. exact S.
Qed.
Print Assumptions C102_infinite_time_finding.

Example C102_example : exp_of_nonpositive (fun _ => @n1 b64 B64_ops) /\
  (forall i, (i < 2)%nat -> let pos := fun i => [@nofZ b64 B64_ops (Z.of_nat i)] in at_position apart_one i (pos i) /\ length (pos i) = 1%nat /\
     List.Forall (fun c => is_finite c = true /\ Rabs (B2R c) <= bpow radix2 200) (pos i)) /\
  (forall i, (S i < 2)%nat -> bpow radix2 (-200) <= Rabs (B2R (@nofZ b64 B64_ops (Z.of_nat (S i))) - B2R (@nofZ b64 B64_ops (Z.of_nat i)))) /\
  within (-100) 100 (@n1 b64 B64_ops) /\
  (exists ts, @estimateSegmentTimesVelocityRamp b64 B64_ops apart_one (@n1 b64 B64_ops) (@n1 b64 B64_ops) (@n1 b64 B64_ops) = Ok ts) /\
  exists ts, @estimateSegmentTimesVelocityRamp b64 B64_ops apart_one B754_nan (@n1 b64 B64_ops) (@n1 b64 B64_ops) = Ok ts.
Proof.
  assert (E : forall i, (i <= 1)%nat -> B2R (@nofZ b64 B64_ops (Z.of_nat i)) = INR i /\ is_finite (@nofZ b64 B64_ops (Z.of_nat i)) = true).
  { intros i Hi. rewrite INR_IZR_INZ. apply ofZ_exact. lia. }
  destruct (E 1%nat ltac:(lia)) as (E1 & F1). change (Z.of_nat 1) with 1%Z in *. cbn [INR] in E1.
  assert (B1 : bpow radix2 (-100) <= 1 <= bpow radix2 100) by (change 1 with (bpow radix2 0); split; apply bpow_le; lia).
  assert (B2 : bpow radix2 (-200) <= 1 <= bpow radix2 200) by (change 1 with (bpow radix2 0); split; apply bpow_le; lia).
  split; [intros z _ _; split; [exact F1|]; unfold n1; rewrite E1; lra|]. split; [|split; [|split; [|split]]].
  - intros i Hi. cbv zeta. split; [destruct i as [|[|i]]; [reflexivity|reflexivity|lia]|]. split; [reflexivity|]. destruct (E i ltac:(lia)) as (Ei & Fi).
    constructor; [|constructor]. split; [exact Fi|]. rewrite Ei. destruct i as [|[|i]]; [| |lia]; cbn [INR]; rewrite ?Rabs_R0, ?Rabs_R1; lra.
  - intros i Hi. assert (i = 0%nat) by lia. subst i. rewrite (proj1 (E 1%nat ltac:(lia))), (proj1 (E 0%nat ltac:(lia))). cbn [INR]. rewrite Rminus_0_r, Rabs_R1. lra.
  - split; [exact F1|]. unfold n1. rewrite E1. exact B1.
  - unfold estimateSegmentTimesVelocityRamp. cbn [length apart_one Nat.ltb Nat.leb pairs omap]. unfold computeTimeVelocityRamp.
    eexists. cbn [obind]. reflexivity.
  - unfold estimateSegmentTimesVelocityRamp. cbn [length apart_one Nat.ltb Nat.leb pairs omap]. unfold computeTimeVelocityRamp. eexists. cbn [obind]. reflexivity.
Qed.
