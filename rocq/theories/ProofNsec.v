(** Nanosecond conversions in binary64. *)
From Coq Require Import ZArith Reals List Bool Lia Lra Psatz.
From Flocq Require Import IEEE754.BinarySingleNaN Core.
From Verif Require Import Num RSum ModelPolynomial ModelSegment ModelTrajectory ModelYaml ModelIO.
Open Scope R_scope.
Local Arguments bpow : simpl never.

Local Notation fexp := (SpecFloat.fexp 53 1024).
Local Notation rnd := (round radix2 fexp ZnearestE).
Local Notation F := (generic_format radix2 fexp).
Local Notation b := (bpow radix2).

Lemma fexp_FLT e : fexp e = FLT_exp (-1074) 53 e.
Proof. reflexivity. Qed.
Lemma prec53 : Prec_gt_0 53. Proof. reflexivity. Qed.
#[local] Existing Instance prec53.
Lemma vfexp : Valid_exp fexp.
Proof. apply (FLT_exp_valid (-1074) 53). Qed.
#[local] Existing Instance vfexp.
Lemma mfexp : Monotone_exp fexp.
Proof. apply (FLT_exp_monotone (-1074) 53). Qed.
#[local] Existing Instance mfexp.

(** Exact results of the operations. *)
Lemma ofZ_exact (z : Z) : (Z.abs z <= 2 ^ 53)%Z -> B2R (@nofZ b64 B64_ops z) = IZR z /\ is_finite (@nofZ b64 B64_ops z) = true.
Proof.
  intros H. cbn [nofZ B64_ops]. unfold b64_of_Z.
  assert (Q := binary_normalize_correct 53 1024 b64_prec_gt_0 b64_prec_lt_emax mode_NE z 0 false).
  assert (Fz : F (IZR z)).
  { destruct (Z.eq_dec (Z.abs z) (2 ^ 53)) as [E|E].
    - apply generic_format_abs_inv. rewrite <- abs_IZR, E. change (2 ^ 53)%Z with (Zpower radix2 53). rewrite IZR_Zpower by lia.
      apply generic_format_bpow. cbv. discriminate.
    - apply (generic_format_FLT radix2 (-1074) 53 (IZR z)). exists (Float radix2 z 0); [unfold F2R; cbn [Fnum Fexp]; change (b 0) with 1; ring|cbn; lia|cbn; lia]. }
  assert (E1 : F2R (Float radix2 z 0) = IZR z) by (unfold F2R; cbn [Fnum Fexp]; change (b 0) with 1; ring).
  cbv zeta in Q. rewrite E1 in Q. change (BinarySingleNaN.round_mode mode_NE) with ZnearestE in Q. rewrite (round_generic radix2 fexp ZnearestE (IZR z) Fz) in Q.
  rewrite Rlt_bool_true in Q.
  - destruct Q as (Q1 & Q2 & _). auto.
  - rewrite <- abs_IZR. apply Rle_lt_trans with (IZR (2 ^ 53)); [apply IZR_le, H|]. change (2 ^ 53)%Z with (Zpower radix2 53).
    rewrite IZR_Zpower by lia. apply bpow_lt. lia.
Qed.
Lemma mul_exact (x y : b64) : is_finite x = true -> is_finite y = true -> Rabs (B2R x * B2R y) < b 1000 ->
  B2R (@nmul b64 B64_ops x y) = rnd (B2R x * B2R y) /\ is_finite (@nmul b64 B64_ops x y) = true.
Proof.
  intros Fx Fy H. cbn [nmul B64_ops]. assert (Q := Bmult_correct 53 1024 b64_prec_gt_0 b64_prec_lt_emax mode_NE x y).
  change (BinarySingleNaN.round_mode mode_NE) with ZnearestE in Q. rewrite Rlt_bool_true in Q.
  - destruct Q as (Q1 & Q2 & _). rewrite Fx, Fy in Q2. auto.
  - apply Rle_lt_trans with (b 1000); [|apply bpow_lt; lia]. apply (abs_round_le_generic radix2 fexp ZnearestE); [apply generic_format_bpow; cbv; discriminate|apply Rlt_le, H].
Qed.
Lemma toZ_trunc (x : b64) : is_finite x = true -> @ntoZ b64 B64_ops x = Some (Ztrunc (B2R x)).
Proof.
  intros H. cbn [ntoZ B64_ops]. rewrite H. f_equal. apply eq_IZR.
  assert (Q := Btrunc_correct 53 1024 b64_prec_lt_emax x). rewrite Q. apply round_FIX_IZR.
Qed.

(** The constants. *)
Definition cns : R := IZR 4835703278458517 * b (-82).
Lemma sec_value : B2R (@kNumSecPerNsec b64 B64_ops) = cns /\ is_finite (@kNumSecPerNsec b64 B64_ops) = true.
Proof.
  assert (E : B2SF (@kNumSecPerNsec b64 B64_ops) = SpecFloat.S754_finite false 4835703278458517 (-82)) by (vm_compute; reflexivity).
  destruct (@kNumSecPerNsec b64 B64_ops) as [| | |s m e Hb]; cbn [B2SF] in E; try discriminate. injection E as -> -> ->. split; reflexivity.
Qed.
Lemma nsec_value : B2R (@kNumNSecPerSec b64 B64_ops) = 1000000000 /\ is_finite (@kNumNSecPerSec b64 B64_ops) = true.
Proof. apply (ofZ_exact (10 ^ 9)). cbv. discriminate. Qed.
Lemma b_mul e f : b (e + f) = b e * b f. Proof. apply bpow_plus. Qed.
Lemma b_neg82 : b (-82) = / IZR (2 ^ 82).
Proof. change (-82)%Z with (- (82))%Z. rewrite bpow_opp. change (2 ^ 82)%Z with (Zpower radix2 82). rewrite IZR_Zpower by lia. reflexivity. Qed.
(** 1e9 * c = 1 + eps with 0.28 * 2^-52 < eps < 0.2806 * 2^-52. *)
Lemma eps_bounds : 1 + 280 / 1000 * / IZR (2 ^ 52) <= 1000000000 * cns <= 1 + 2806 / 10000 * / IZR (2 ^ 52).
Proof. unfold cns. rewrite b_neg82. split; lra. Qed.

Lemma fexp_big e : (-1021 <= e)%Z -> fexp e = (e - 53)%Z.
Proof. intros H. rewrite fexp_FLT. unfold FLT_exp. lia. Qed.
Lemma ulp_below v k : (-1021 <= k)%Z -> Rabs v < b k -> ulp radix2 fexp v <= b (k - 53).
Proof.
  intros Hk Hv. destruct (Req_dec v 0) as [->|Hn].
  - change (ulp radix2 (FLT_exp (-1074) 53) 0 <= b (k - 53)). rewrite (ulp_FLT_0 radix2 (-1074) 53). apply bpow_le. lia.
  - rewrite ulp_neq_0 by exact Hn. apply bpow_le. unfold cexp.
    apply Z.le_trans with (fexp k); [apply mfexp, mag_le_bpow; assumption|rewrite fexp_big by exact Hk; lia].
Qed.
Lemma round_err v : Rabs (rnd v - v) <= / 2 * ulp radix2 fexp v.
Proof. apply error_le_half_ulp. exact vfexp. Qed.
Lemma round_err_below v k : (-1021 <= k)%Z -> Rabs v < b k -> Rabs (rnd v - v) <= b (k - 54).
Proof.
  intros Hk Hv. assert (Q1 := round_err v). assert (Q2 := ulp_below v k Hk Hv).
  replace (k - 54)%Z with (-1 + (k - 53))%Z by lia. rewrite bpow_plus. change (b (-1)) with (/ 2). lra.
Qed.
(** Rounding to nearest does not pass a representable number that is nearer
    than half the gap below it. *)
Lemma round_not_below N g v : F N -> (forall y, F y -> y < N -> y <= N - g) -> N - g / 2 < v -> N <= rnd v.
Proof.
  intros FN Hg Hv. destruct (Rle_or_lt N v) as [H|H].
  - apply (round_ge_generic radix2 fexp ZnearestE); assumption.
  - apply Rnot_lt_le. intros Hlt. assert (Fy : F (rnd v)) by (apply generic_format_round; [exact vfexp|apply valid_rnd_N]).
    assert (Q := Hg (rnd v) Fy Hlt). destruct (round_N_pt radix2 fexp (fun x => negb (Z.even x)) v) as (_ & M).
    specialize (M N FN). unfold Rabs in M. destruct (Rcase_abs (rnd v - v)); destruct (Rcase_abs (N - v)); lra.
Qed.
Lemma gap_below N e : b (e - 1) <= N < b e -> (-1020 <= e)%Z -> F N ->
  forall y, F y -> y < N -> y <= N - b (e - 54) /\ (b (e - 1) < N -> y <= N - b (e - 53)).
Proof.
  intros (H1 & H2) He FN y Fy Hy. assert (Hm : mag radix2 N = e :> Z).
  { apply mag_unique. rewrite Rabs_pos_eq; [split; assumption|]. assert (Q := bpow_ge_0 radix2 (e - 1)). lra. }
  assert (Hp := pred_ge_gt radix2 fexp y N Fy FN Hy).
  assert (P0 : 0 <= N) by (assert (Q := bpow_ge_0 radix2 (e - 1)); lra).
  rewrite pred_eq_pos in Hp by exact P0. unfold pred_pos in Hp. rewrite Hm in Hp.
  assert (Hu : ulp radix2 fexp N = b (e - 53)).
  { rewrite ulp_neq_0; [|assert (Q := bpow_gt_0 radix2 (e - 1)); lra]. unfold cexp. rewrite Hm, fexp_big by lia. reflexivity. }
  rewrite Hu, fexp_big in Hp by lia. replace (e - 1 - 53)%Z with (e - 54)%Z in Hp by lia.
  assert (Hb : b (e - 54) <= b (e - 53)) by (apply bpow_le; lia).
  destruct (Req_bool_spec N (b (e - 1))); split; intros; lra.
Qed.

Definition xns (n : Z) : R := rnd (IZR n * cns).
Definition yns (n : Z) : R := rnd (1000000000 * xns n).

Lemma int_format n : (Z.abs n < 2 ^ 53)%Z -> F (IZR n).
Proof.
  intros H. apply (generic_format_FLT radix2 (-1074) 53 (IZR n)).
  exists (Float radix2 n 0); [unfold F2R; cbn [Fnum Fexp]; change (b 0) with 1; ring|cbn; lia|cbn; lia].
Qed.

Lemma cns_range : b (-30) < cns < b (-29).
Proof.
  unfold cns. replace (-30)%Z with (52 + -82)%Z by lia. replace (-29)%Z with (53 + -82)%Z by lia. rewrite !bpow_plus.
  change (b 52) with (IZR (2 ^ 52)). change (b 53) with (IZR (2 ^ 53)). assert (Q := bpow_gt_0 radix2 (-82)).
  split; apply Rmult_lt_compat_r; try exact Q; apply IZR_lt; reflexivity.
Qed.

Lemma xns_bounds n e : (1 <= n < 2 ^ 53)%Z -> (0 <= e)%Z -> b (e - 1) <= IZR n < b e ->
  IZR n - 41 / 100 * b (e - 53) <= 1000000000 * xns n <= IZR n + 1493 / 1000 * b (e - 53) /\
  (IZR n = b (e - 1) -> IZR n - 19 / 100 * b (e - 53) <= 1000000000 * xns n).
Proof.
  intros Hn He0. set (N := IZR n). intros He. assert (HN : 1 <= N) by (apply IZR_le; lia).
  assert (U0 := bpow_gt_0 radix2 (e - 53)). set (u := b (e - 53)) in *.
  assert (E1 : b (e - 1) = IZR (2 ^ 52) * u). { unfold u. replace (e - 1)%Z with (52 + (e - 53))%Z by lia. rewrite bpow_plus. reflexivity. }
  assert (E0 : b e = IZR (2 ^ 53) * u). { unfold u. replace e with (53 + (e - 53))%Z at 1 by lia. rewrite bpow_plus. reflexivity. }
  destruct cns_range as (C1 & C2). destruct eps_bounds as (P1 & P2).
  assert (Hnc : Rabs (N * cns) < b (e - 29)).
  { rewrite Rabs_pos_eq by (apply Rmult_le_pos; [lra|assert (Q := bpow_gt_0 radix2 (-30)); lra]).
    replace (e - 29)%Z with (e + -29)%Z by lia. rewrite bpow_plus. assert (Q := bpow_gt_0 radix2 (-30)). apply Rmult_le_0_lt_compat; lra. }
  assert (Big : N * (1000000000 * cns) >= N + N * (280 / 1000 * / IZR (2 ^ 52))).
  { apply Rle_ge. replace (N + N * (280 / 1000 * / IZR (2 ^ 52))) with (N * (1 + 280 / 1000 * / IZR (2 ^ 52))) by ring. apply Rmult_le_compat_l; [lra|exact P1]. }
  assert (Small : N * (1000000000 * cns) <= N + N * (2806 / 10000 * / IZR (2 ^ 52))).
  { replace (N + N * (2806 / 10000 * / IZR (2 ^ 52))) with (N * (1 + 2806 / 10000 * / IZR (2 ^ 52))) by ring. apply Rmult_le_compat_l; [lra|exact P2]. }
  unfold xns. fold N. set (x := rnd (N * cns)) in *.
  assert (I52 : IZR (2 ^ 52) * / IZR (2 ^ 52) = 1) by (apply Rinv_r, IZR_neq; discriminate).
  assert (Q2 : N * / IZR (2 ^ 52) <= 2 * u). { apply Rmult_le_reg_l with (IZR (2 ^ 52)); [apply IZR_lt; reflexivity|]. rewrite <- (Rmult_assoc _ N), (Rmult_comm _ N), (Rmult_assoc N), I52. change (2 ^ 53)%Z with (2 * 2 ^ 52)%Z in E0. rewrite mult_IZR in E0. lra. }
  assert (Q : N * / IZR (2 ^ 52) >= u). { apply Rle_ge. apply Rmult_le_reg_l with (IZR (2 ^ 52)); [apply IZR_lt; reflexivity|]. rewrite <- (Rmult_assoc _ N), (Rmult_comm _ N), (Rmult_assoc N), I52. lra. }
  destruct (Rlt_or_le (N * cns) (b (e - 30))) as [A|B].
  - assert (Er : Rabs (x - N * cns) <= b (e - 84)).
    { unfold x. replace (e - 84)%Z with ((e - 30) - 54)%Z by lia. apply round_err_below; [lia|].
      rewrite Rabs_pos_eq; [exact A|apply Rmult_le_pos; [lra|assert (Qq := bpow_gt_0 radix2 (-30)); lra]]. }
    replace (b (e - 84)) with (/ IZR (2 ^ 31) * u) in Er.
    2:{ unfold u. replace (e - 84)%Z with (-31 + (e - 53))%Z by lia. rewrite bpow_plus. reflexivity. }
    apply Rabs_le_inv in Er. change (2 ^ 31)%Z with 2147483648%Z in Er. lra.
  - assert (Er : Rabs (x - N * cns) <= b (e - 83)).
    { unfold x. replace (e - 83)%Z with ((e - 29) - 54)%Z by lia. apply round_err_below; [lia|exact Hnc]. }
    replace (b (e - 83)) with (/ IZR (2 ^ 30) * u) in Er.
    2:{ unfold u. replace (e - 83)%Z with (-30 + (e - 53))%Z by lia. rewrite bpow_plus. reflexivity. }
    assert (E30 : b (e - 30) = IZR (2 ^ 23) * u). { unfold u. replace (e - 30)%Z with (23 + (e - 53))%Z by lia. rewrite bpow_plus. reflexivity. }
    assert (Hlow : 1862 / 1000 * (IZR (2 ^ 52) * u) <= N).
    { apply Rmult_le_reg_r with cns; [assert (Qq := bpow_gt_0 radix2 (-30)); lra|]. apply Rle_trans with (b (e - 30)); [|exact B]. rewrite E30.
      unfold cns. rewrite b_neg82. lra. }
    assert (Q3 : N * / IZR (2 ^ 52) >= 1862 / 1000 * u). { apply Rle_ge. apply Rmult_le_reg_l with (IZR (2 ^ 52)); [apply IZR_lt; reflexivity|]. rewrite <- (Rmult_assoc _ N), (Rmult_comm _ N), (Rmult_assoc N), I52. lra. }
    apply Rabs_le_inv in Er. change (2 ^ 30)%Z with 1073741824%Z in Er. lra.
Qed.

Lemma mag_int n : (1 <= n)%Z -> exists e, (0 <= e)%Z /\ b (e - 1) <= IZR n < b e.
Proof.
  intros Hn. assert (HN : 1 <= IZR n) by (apply IZR_le; lia). destruct (mag radix2 (IZR n)) as (e & He). specialize (He ltac:(lra)). rewrite Rabs_pos_eq in He by lra.
  exists e. split; [|exact He]. destruct (Z_lt_le_dec e 0) as [Hl|]; [|assumption]. exfalso. assert (Q : b e <= b 0) by (apply bpow_le; lia). change (b 0) with 1 in Q. lra.
Qed.

Lemma half_bpow e : b (e - 54) = b (e - 53) / 2.
Proof. replace (e - 54)%Z with (-1 + (e - 53))%Z by lia. rewrite bpow_plus. change (b (-1)) with (/ 2). lra. Qed.

Lemma yns_lower n : (1 <= n < 2 ^ 53)%Z -> IZR n <= yns n.
Proof.
  intros Hn. destruct (mag_int n ltac:(lia)) as (e & He0 & He). assert (FN : F (IZR n)) by (apply int_format; lia).
  destruct (xns_bounds n e Hn He0 He) as ((L & _) & LA). assert (Gap := gap_below (IZR n) e He ltac:(lia) FN).
  assert (U0 := bpow_gt_0 radix2 (e - 53)). assert (H54 := half_bpow e). unfold yns. destruct (Req_dec (IZR n) (b (e - 1))) as [E|E].
  - apply (round_not_below (IZR n) (b (e - 54))); [exact FN|intros y Fy Hy; apply (Gap y Fy Hy)|]. specialize (LA E). lra.
  - apply (round_not_below (IZR n) (b (e - 53))); [exact FN|intros y Fy Hy; apply (Gap y Fy Hy); lra|]. lra.
Qed.

Lemma yns_upper n : (1 <= n < 2 ^ 52)%Z -> yns n < IZR n + 1.
Proof.
  intros Hn. set (N := IZR n). assert (HN : 1 <= N) by (apply IZR_le; lia).
  assert (HN1 : N <= IZR (2 ^ 52) - 1) by (rewrite <- minus_IZR; apply IZR_le; lia).
  destruct cns_range as (C1 & C2). destruct eps_bounds as (_ & P2). assert (C0 := bpow_gt_0 radix2 (-30)).
  unfold yns, xns. fold N. set (x := rnd (N * cns)).
  assert (Er : Rabs (x - N * cns) <= b (-31)).
  { unfold x. change (-31)%Z with (23 - 54)%Z. apply round_err_below; [lia|]. rewrite Rabs_pos_eq by (apply Rmult_le_pos; lra).
    change 23%Z with (52 + -29)%Z. rewrite bpow_plus. change (b 52) with (IZR (2 ^ 52)). apply Rmult_le_0_lt_compat; lra. }
  change (b (-31)) with (/ 2147483648) in Er. apply Rabs_le_inv in Er.
  assert (Z1 : 1000000000 * x < N + 3 / 4).
  { assert (Q : N * (1000000000 * cns) <= N + N * (2806 / 10000 * / IZR (2 ^ 52))).
    { replace (N + N * (2806 / 10000 * / IZR (2 ^ 52))) with (N * (1 + 2806 / 10000 * / IZR (2 ^ 52))) by ring. apply Rmult_le_compat_l; [lra|exact P2]. }
    assert (Q2 : N * / IZR (2 ^ 52) < 1). { apply Rmult_lt_reg_r with (IZR (2 ^ 52)); [apply IZR_lt; reflexivity|]. rewrite Rmult_assoc, Rinv_l by (apply IZR_neq; discriminate). lra. }
    lra. }
  assert (Z0 : 0 <= 1000000000 * x).
  { apply Rmult_le_pos; [lra|]. unfold x. apply (round_ge_generic radix2 fexp ZnearestE); [apply generic_format_0|]. apply Rmult_le_pos; lra. }
  assert (Er2 : Rabs (rnd (1000000000 * x) - 1000000000 * x) <= b (-2)).
  { change (-2)%Z with (52 - 54)%Z. apply round_err_below; [lia|]. rewrite Rabs_pos_eq by exact Z0. change (b 52) with (IZR (2 ^ 52)). lra. }
  change (b (-2)) with (/ 4) in Er2. apply Rabs_le_inv in Er2. lra.
Qed.

Lemma nsec_roundtrip (s : segment b64) (n : Z) : (0 <= n < 2 ^ 52)%Z ->
  @seg_getTimeNSec b64 B64_ops (@seg_setTimeNSec b64 B64_ops s n) = Ok n.
Proof.
  intros Hn. destruct (Z.eq_dec n 0) as [->|H0]; [vm_compute; reflexivity|].
  unfold seg_getTimeNSec, seg_setTimeNSec, nsec_time, to_uint64. cbn [seg_setTime seg_time].
  destruct sec_value as (Ec & Fc). destruct nsec_value as (Ek & Fk). destruct (ofZ_exact n ltac:(lia)) as (En & Fn).
  assert (HN : 1 <= IZR n <= IZR (2 ^ 52)) by (split; apply IZR_le; lia).
  destruct cns_range as (C1 & C2). assert (C0 := bpow_gt_0 radix2 (-30)).
  assert (B100 : b 53 <= b 1000) by (apply bpow_le; lia). change (b 53) with (IZR (2 ^ 53)) in B100.
  assert (C3 : b (-29) < 1) by (change 1 with (b 0); apply bpow_lt; lia).
  destruct (mul_exact (@nofZ b64 B64_ops n) (@kNumSecPerNsec b64 B64_ops) Fn Fc) as (E1 & F1).
  { rewrite En, Ec, Rabs_pos_eq by (apply Rmult_le_pos; lra). apply Rlt_le_trans with (IZR (2 ^ 53)); [|exact B100].
    apply Rle_lt_trans with (IZR n * 1); [apply Rmult_le_compat_l; lra|]. rewrite Rmult_1_r. apply Rle_lt_trans with (IZR (2 ^ 52)); [lra|apply IZR_lt; reflexivity]. }
  rewrite En, Ec in E1. fold (xns n) in E1.
  assert (X : 0 <= xns n <= IZR (2 ^ 52)).
  { unfold xns. split.
    - apply (round_ge_generic radix2 fexp ZnearestE); [apply generic_format_0|apply Rmult_le_pos; lra].
    - apply (round_le_generic radix2 fexp ZnearestE); [apply int_format; reflexivity|]. replace (IZR (2 ^ 52)) with (IZR (2 ^ 52) * 1) by ring. apply Rmult_le_compat; lra. }
  destruct (mul_exact (@kNumNSecPerSec b64 B64_ops) (@nmul b64 B64_ops (@nofZ b64 B64_ops n) (@kNumSecPerNsec b64 B64_ops)) Fk F1) as (E2 & F2).
  { rewrite E1, Ek, Rabs_pos_eq by lra. apply Rlt_le_trans with (b 100); [|apply bpow_le; lia]. change (b 100) with (IZR (2 ^ 100)). lra. }
  rewrite E1, Ek in E2. fold (yns n) in E2. rewrite toZ_trunc by exact F2. rewrite E2.
  assert (L := yns_lower n ltac:(lia)). assert (U := yns_upper n ltac:(lia)).
  replace (Ztrunc (yns n)) with n.
  - rewrite (proj2 (Z.leb_le 0 n)), (proj2 (Z.ltb_lt n (2 ^ 64))) by lia. reflexivity.
  - symmetry. rewrite Ztrunc_floor by lra. apply Zfloor_imp. rewrite plus_IZR. lra.
Qed.

(** One cycle of storing and restoring a time. *)
Lemma ulp_ns_le1 n e : (0 <= e)%Z -> b (e - 1) <= IZR n < b e -> (n < 2 ^ 52)%Z -> b (e - 53) <= / 2.
Proof.
  intros He0 (H1 & _) Hn. change (/ 2) with (b (-1)). apply bpow_le. apply Znot_gt_le. intros Hg.
  assert (Q : b 52 <= b (e - 1)) by (apply bpow_le; lia). change (b 52) with (IZR (2 ^ 52)) in Q. apply IZR_lt in Hn. lra.
Qed.

(** A double t, its product y with 1e9 rounded, and the whole part n of y. *)
Lemma cycle_bounds (t : R) (n : Z) : F t -> 0 <= t -> (0 <= n < 2 ^ 52)%Z -> IZR n <= rnd (1000000000 * t) < IZR n + 1 ->
  Rabs (xns n - t) <= / 1000000000.
Proof.
  intros Ft Ht Hn (Y1 & Y2). set (z := 1000000000 * t) in *. assert (Hz : 0 <= z) by (unfold z; lra).
  destruct (Z.eq_dec n 0) as [->|H0].
  - assert (X0 : xns 0 = 0). { unfold xns. rewrite Rmult_0_l. apply round_0. apply valid_rnd_N. }
    rewrite X0. replace (0 - t) with (- t) by ring. rewrite Rabs_Ropp, Rabs_pos_eq by exact Ht.
    assert (Q : z <= 1). { apply Rnot_lt_le. intros H. assert (Q : IZR 1 <= rnd z) by (apply (round_ge_generic radix2 fexp ZnearestE); [apply int_format; reflexivity|lra]). lra. }
    unfold z in Q. lra.
  - destruct (mag_int n ltac:(lia)) as (e & He0 & He). destruct (xns_bounds n e ltac:(lia) He0 He) as ((L & U) & _).
    assert (Hu := ulp_ns_le1 n e He0 He ltac:(lia)). assert (U0 := bpow_gt_0 radix2 (e - 53)). set (u := b (e - 53)) in *.
    (* from above: z <= n + 1 - u / 2 *)
    assert (Up : z <= IZR n + 1 - u / 2).
    { apply Rnot_lt_le. intros H. assert (Q : IZR (n + 1) <= rnd z); [|rewrite plus_IZR in Q; lra].
      apply (round_not_below (IZR (n + 1)) u); [apply int_format; lia| |rewrite plus_IZR; lra]. intros y Fy Hy.
      assert (FN1 : F (IZR (n + 1))) by (apply int_format; lia).
      destruct (Rle_or_lt (b e) (IZR (n + 1))) as [Hb|Hb].
      - (* n + 1 = 2^e *)
        assert (Hub : IZR (n + 1) < b (e + 1)).
        { replace (e + 1)%Z with (1 + e)%Z by lia. rewrite bpow_plus. change (b 1) with 2. rewrite plus_IZR. assert (1 <= IZR n) by (apply IZR_le; lia). lra. }
        assert (Hlo : b (e + 1 - 1) <= IZR (n + 1)) by (replace (e + 1 - 1)%Z with e by lia; exact Hb).
        destruct (gap_below (IZR (n + 1)) (e + 1) (conj Hlo Hub) ltac:(lia) FN1 y Fy Hy) as (G & _).
        replace (e + 1 - 54)%Z with (e - 53)%Z in G by lia. fold u in G. exact G.
      - assert (Hlo : b (e - 1) <= IZR (n + 1)) by (rewrite plus_IZR; lra). destruct (gap_below (IZR (n + 1)) e (conj Hlo Hb) ltac:(lia) FN1 y Fy Hy) as (_ & G).
        apply G. rewrite plus_IZR. lra. }
    (* from below: n - u / 2 <= z *)
    assert (Lo : IZR n - u / 2 <= z).
    { destruct (Rle_or_lt (IZR n) z) as [|Hlt]; [lra|].
      assert (Er : Rabs (rnd z - z) <= b (e - 54)) by (apply round_err_below; [lia|rewrite Rabs_pos_eq by exact Hz; lra]).
      rewrite half_bpow in Er. fold u in Er. apply Rabs_le_inv in Er. lra. }
    apply Rabs_le. unfold z in Up, Lo. lra.
Qed.

(** A product that is finite is the rounded product of finite factors. *)
Lemma mul_finite (x y : b64) : is_finite (@nmul b64 B64_ops x y) = true ->
  is_finite x = true /\ is_finite y = true /\ B2R (@nmul b64 B64_ops x y) = rnd (B2R x * B2R y).
Proof.
  intros H. cbn [nmul B64_ops] in *.
  assert (Fx : is_finite x = true) by (destruct x, y; cbn in H |- *; congruence).
  assert (Fy : is_finite y = true) by (destruct x, y; cbn in H |- *; congruence).
  split; [exact Fx|]. split; [exact Fy|].
  assert (Q := Bmult_correct 53 1024 b64_prec_gt_0 b64_prec_lt_emax mode_NE x y).
  change (BinarySingleNaN.round_mode mode_NE) with ZnearestE in Q.
  destruct (Rlt_bool _ _) in Q; [destruct Q as (Q & _); exact Q|]. exfalso.
  match type of H with is_finite ?m = true => destruct m end; cbn in H, Q; try discriminate H; discriminate Q.
Qed.

Lemma set_value (s : segment b64) n : (0 <= n < 2 ^ 53)%Z -> B2R (seg_time (@seg_setTimeNSec b64 B64_ops s n)) = xns n.
Proof.
  intros Hn. unfold seg_setTimeNSec, nsec_time. cbn [seg_setTime seg_time]. destruct sec_value as (Ec & Fc). destruct (ofZ_exact n ltac:(lia)) as (En & Fn).
  destruct (mul_exact (@nofZ b64 B64_ops n) (@kNumSecPerNsec b64 B64_ops) Fn Fc) as (E1 & F1); [|rewrite E1, En, Ec; reflexivity].
  rewrite En, Ec. destruct cns_range as (C1 & C2). assert (C0 := bpow_gt_0 radix2 (-30)). assert (HN : 0 <= IZR n < IZR (2 ^ 53)) by (split; [apply IZR_le|apply IZR_lt]; lia).
  assert (C3 : b (-29) < 1) by (change 1 with (b 0); apply bpow_lt; lia).
  rewrite Rabs_pos_eq by (apply Rmult_le_pos; lra). apply Rlt_le_trans with (b 53); [|apply bpow_le; lia]. change (b 53) with (IZR (2 ^ 53)).
  apply Rle_lt_trans with (IZR n * 1); [apply Rmult_le_compat_l; lra|lra].
Qed.

Lemma get_value (s : segment b64) n : @seg_getTimeNSec b64 B64_ops s = Ok n ->
  (0 <= n)%Z /\ n = Ztrunc (rnd (1000000000 * B2R (seg_time s))) /\ is_finite (seg_time s) = true.
Proof.
  unfold seg_getTimeNSec, to_uint64. destruct (is_finite (@nmul b64 B64_ops (@kNumNSecPerSec b64 B64_ops) (seg_time s))) eqn:Ef.
  - rewrite toZ_trunc by exact Ef. destruct (mul_finite _ _ Ef) as (_ & Ft & E). rewrite E, (proj1 nsec_value).
    destruct (Z.leb_spec 0 (Ztrunc (rnd (1000000000 * B2R (seg_time s))))) as [H0|]; cbn [andb]; [|discriminate].
    destruct (Z.ltb_spec (Ztrunc (rnd (1000000000 * B2R (seg_time s)))) (2 ^ 64)); [|discriminate]. intros Q. apply Ok_inj in Q. subst n. auto.
  - cbn [ntoZ B64_ops] in *. rewrite Ef. discriminate.
Qed.

Lemma nsec_cycle (s : segment b64) n : @seg_getTimeNSec b64 B64_ops s = Ok n -> (n < 2 ^ 52)%Z ->
  Rabs (B2R (seg_time (@seg_setTimeNSec b64 B64_ops s n)) - B2R (seg_time s)) <= / 1000000000.
Proof.
  intros H Hn. destruct (get_value s n H) as (H0 & E & Fs). rewrite set_value by lia. set (t := B2R (seg_time s)) in *.
  destruct (Rle_or_lt 0 t) as [Ht|Ht].
  - apply cycle_bounds; [apply generic_format_B2R|exact Ht|lia|].
    assert (Y0 : 0 <= rnd (1000000000 * t)) by (apply (round_ge_generic radix2 fexp ZnearestE); [apply generic_format_0|lra]).
    rewrite Ztrunc_floor in E by exact Y0. subst n. split; [apply Zfloor_lb|apply Zfloor_ub].
  - assert (Y0 : rnd (1000000000 * t) <= 0) by (apply (round_le_generic radix2 fexp ZnearestE); [apply generic_format_0|lra]).
    rewrite Ztrunc_ceil in E by exact Y0. assert (n = 0)%Z.
    { assert (Zceil (rnd (1000000000 * t)) <= 0)%Z by (apply Zceil_glb; exact Y0). lia. }
    subst n. assert (X0 : xns 0 = 0) by (unfold xns; rewrite Rmult_0_l; apply round_0, valid_rnd_N). rewrite H1, X0.
    assert (Q : -1 <= 1000000000 * t).
    { apply Rnot_lt_le. intros Hl. assert (Q : rnd (1000000000 * t) <= IZR (-1)) by (apply (round_le_generic radix2 fexp ZnearestE); [apply int_format; reflexivity|lra]).
      assert (Zceil (rnd (1000000000 * t)) <= -1)%Z by (apply Zceil_glb; exact Q). lia. }
    rewrite Rabs_pos_eq by lra. lra.
Qed.

Lemma yns_upper2 n : (1 <= n < 2 ^ 53 - 2)%Z -> yns n < IZR n + 2.
Proof.
  intros Hn. destruct (mag_int n ltac:(lia)) as (e & He0 & He). destruct (xns_bounds n e ltac:(lia) He0 He) as ((L & U) & _).
  assert (U0 := bpow_gt_0 radix2 (e - 53)).
  assert (Hu : b (e - 53) <= 1).
  { change 1 with (b 0). apply bpow_le. apply Znot_gt_le. intros Hg. assert (Q : b 53 <= b (e - 1)) by (apply bpow_le; lia).
    change (b 53) with (IZR (2 ^ 53)) in Q. assert (IZR n < IZR (2 ^ 53)) by (apply IZR_lt; lia). lra. }
  assert (HN : 1 <= IZR n <= IZR (2 ^ 53 - 3)) by (split; apply IZR_le; lia). change (2 ^ 53 - 3)%Z with 9007199254740989%Z in HN.
  assert (Er : Rabs (yns n - 1000000000 * xns n) <= b (-1)).
  { unfold yns. change (-1)%Z with (53 - 54)%Z. apply round_err_below; [lia|]. change (b 53) with 9007199254740992. rewrite Rabs_pos_eq; lra. }
  change (b (-1)) with (/ 2) in Er. apply Rabs_le_inv in Er. lra.
Qed.

Lemma nsec_near (s : segment b64) (n : Z) : (0 <= n < 2 ^ 53 - 2)%Z -> exists m,
  @seg_getTimeNSec b64 B64_ops (@seg_setTimeNSec b64 B64_ops s n) = Ok m /\ (n <= m <= n + 1)%Z.
Proof.
  intros Hn. destruct (Z.eq_dec n 0) as [->|H0]; [exists 0%Z; split; [vm_compute; reflexivity|lia]|].
  exists (Ztrunc (yns n)). assert (L := yns_lower n ltac:(lia)). assert (U := yns_upper2 n ltac:(lia)).
  assert (HN : 1 <= IZR n <= IZR (2 ^ 53)) by (split; apply IZR_le; lia).
  assert (Rg : (n <= Ztrunc (yns n) <= n + 1)%Z).
  { rewrite Ztrunc_floor by lra. split; [apply Zfloor_lub; exact L|]. apply Zlt_succ_le. apply lt_IZR. unfold Z.succ. rewrite !plus_IZR.
    apply Rle_lt_trans with (yns n); [apply Zfloor_lb|]. lra. }
  split; [|exact Rg].
  assert (X := set_value s n ltac:(lia)). unfold seg_getTimeNSec, to_uint64.
  destruct nsec_value as (Ek & Fk). destruct sec_value as (Ec & Fc). destruct (ofZ_exact n ltac:(lia)) as (En & Fn).
  destruct cns_range as (C1 & C2). assert (C0 := bpow_gt_0 radix2 (-30)). assert (C3 : b (-29) < 1) by (change 1 with (b 0); apply bpow_lt; lia).
  assert (B100 : IZR (2 ^ 53) < b 1000) by (change (IZR (2 ^ 53)) with (b 53); apply bpow_lt; lia).
  assert (F1 : is_finite (seg_time (@seg_setTimeNSec b64 B64_ops s n)) = true).
  { unfold seg_setTimeNSec, nsec_time. cbn [seg_setTime seg_time]. apply mul_exact; [exact Fn|exact Fc|]. rewrite En, Ec, Rabs_pos_eq by (apply Rmult_le_pos; lra).
    apply Rle_lt_trans with (IZR (2 ^ 53) * 1); [apply Rmult_le_compat; lra|lra]. }
  assert (X1 : 0 <= xns n <= IZR (2 ^ 53)).
  { unfold xns. split.
    - apply (round_ge_generic radix2 fexp ZnearestE); [apply generic_format_0|apply Rmult_le_pos; lra].
    - apply (round_le_generic radix2 fexp ZnearestE); [change (IZR (2 ^ 53)) with (b 53); apply generic_format_bpow; cbv; discriminate|].
      replace (IZR (2 ^ 53)) with (IZR (2 ^ 53) * 1) by ring. apply Rmult_le_compat; lra. }
  destruct (mul_exact (@kNumNSecPerSec b64 B64_ops) (seg_time (@seg_setTimeNSec b64 B64_ops s n)) Fk F1) as (E2 & F2).
  { rewrite X, Ek, Rabs_pos_eq by lra. apply Rlt_le_trans with (b 100); [|apply bpow_le; lia]. change (b 100) with (IZR (2 ^ 100)). lra. }
  rewrite X, Ek in E2. fold (yns n) in E2. rewrite toZ_trunc by exact F2. rewrite E2.
  rewrite (proj2 (Z.leb_le 0 _)), (proj2 (Z.ltb_lt _ (2 ^ 64))) by lia. reflexivity.
Qed.
