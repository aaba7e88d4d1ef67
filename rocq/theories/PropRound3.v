(** C98: scaleSegmentTimes in doubles: the path is kept up to rounding. *)
From Coq Require Import ZArith Reals List Bool Lia Lra.
From Coquelicot Require Import Coquelicot.
From Flocq Require Import IEEE754.BinarySingleNaN Core Relative.
From Verif Require Import Num RSum ModelPolynomial ModelSegment ModelTrajectory SpecPoly SpecSegment SpecTrajectory ProofPolynomial ProofTrajectory ProofRound PropRound PropRound2.
Import ListNotations.
Open Scope R_scope.
Local Arguments bpow : simpl never.

Lemma near_one_mul a b A B : Rabs (a - 1) <= A - 1 -> Rabs (b - 1) <= B - 1 -> Rabs (a * b - 1) <= A * B - 1.
Proof.
  intros Ha Hb. replace (a * b - 1) with ((a - 1) * (b - 1) + ((a - 1) + (b - 1))) by ring.
  replace (A * B - 1) with ((A - 1) * (B - 1) + ((A - 1) + (B - 1))) by ring.
  eapply Rle_trans; [apply Rabs_triang|]. apply Rplus_le_compat.
  - rewrite Rabs_mult. apply Rmult_le_compat; auto using Rabs_pos.
  - eapply Rle_trans; [apply Rabs_triang|]. lra.
Qed.
Lemma tiny_bpow : bpow radix2 (3 - 1024 - 53 + 53 - 1) = / 2 ^ 1022.
Proof. change (3 - 1024 - 53 + 53 - 1)%Z with (Z.opp (Z.of_nat 1022)). apply bpow_inv_pow. Qed.
Lemma round_rel z : / 2 ^ 1022 <= Rabs z -> Rabs (round radix2 (FLT_exp (3 - 1024 - 53) 53) ZnearestE z - z) <= u64 * Rabs z.
Proof.
  intros H. rewrite <- u64_bpow. apply relative_error_N_FLT; [reflexivity|]. rewrite tiny_bpow. exact H.
Qed.
Lemma B2R_n1 : B2R (@n1 b64 B64_ops) = 1.
Proof. assert (H : is_Z (@n1 b64 B64_ops) 1 = true) by (vm_compute; reflexivity). apply is_Z_spec in H. apply H. Qed.

Section Factor.
  Context (s : b64) (Fs : is_finite s = true) (Ls : / 2 ^ 20 <= B2R s) (Us : B2R s <= 2 ^ 40).
  Let S := B2R s.
  Let f : b64 := @ndiv b64 B64_ops (@n1 b64 B64_ops) s.
  Let P20 : 0 < / 2 ^ 20. Proof. apply Rinv_0_lt_compat, pow_lt. lra. Qed.
  Let S0 : 0 < S. Proof. unfold S. lra. Qed.
  Lemma S_pow n : (n <= 22)%nat -> / 2 ^ 440 <= S ^ n <= 2 ^ 880.
  Proof.
    intros Hn. split.
    - apply Rle_trans with ((/ 2 ^ 20) ^ n); [|apply pow_incr; split; [lra|exact Ls]].
      rewrite pow_inv, <- pow_mult. apply Rinv_le_contravar; [apply pow_lt; lra|]. apply Rle_pow; [lra|lia].
    - apply Rle_trans with ((2 ^ 40) ^ n); [apply pow_incr; split; [lra|exact Us]|]. rewrite <- pow_mult. apply Rle_pow; [lra|lia].
  Qed.
  (** A number x with x S^n near 1 is neither too small nor too large. *)
  Lemma mid_range n x : (n <= 22)%nat -> / 4 <= x * S ^ n <= 4 -> / 2 ^ 1022 <= Rabs x /\ Rabs x <= 2 ^ 442.
  Proof.
    intros Hn (H1 & H2). destruct (S_pow n Hn) as (L & U). assert (Q : 0 < S ^ n) by (apply pow_lt, S0).
    assert (X0 : 0 < x) by (apply Rmult_lt_reg_r with (S ^ n); lra). rewrite Rabs_pos_eq by lra. split.
    - apply Rle_trans with (/ 2 ^ 882); [apply Rinv_le_contravar; [apply pow_lt; lra|apply Rle_pow; [lra|lia]]|].
      apply Rmult_le_reg_r with (S ^ n); [exact Q|]. apply Rle_trans with (/ 2 ^ 882 * 2 ^ 880).
      + apply Rmult_le_compat_l; [left; apply Rinv_0_lt_compat, pow_lt; lra|exact U].
      + replace (2 ^ 882) with (2 ^ 880 * 4) by (change 882%nat with (880 + 2)%nat; rewrite pow_add; ring).
        assert (Z : 2 ^ 880 <> 0) by (apply pow_nonzero; lra). revert Z. generalize (2 ^ 880). intros y Z. replace (/ (y * 4) * y) with (/ 4) by (field; exact Z). exact H1.
    - apply Rmult_le_reg_r with (S ^ n); [exact Q|]. apply Rle_trans with 4; [exact H2|].
      apply Rle_trans with (2 ^ 442 * / 2 ^ 440).
      + replace (2 ^ 442) with (2 ^ 440 * 4) by (change 442%nat with (440 + 2)%nat; rewrite pow_add; ring).
        assert (Z : 2 ^ 440 <> 0) by (apply pow_nonzero; lra). revert Z. generalize (2 ^ 440). intros y Z. right. field. exact Z.
      + apply Rmult_le_compat_l; [apply pow_le; lra|exact L].
  Qed.
  Lemma big_442 x : Rabs x <= 2 ^ 442 -> Rabs x <= 16 * big.
  Proof.
    intros H. eapply Rle_trans; [exact H|]. assert (2 ^ 442 <= big) by (unfold big; apply Rle_pow; [lra|lia]).
    assert (B := proj1 (proj2 big_bpow)). lra.
  Qed.
  Lemma inverse_rel : is_finite f = true /\ Rabs (B2R f * S - 1) <= (1 + u64) - 1.
  Proof.
    assert (R1 : / 4 <= 1 / S * S ^ 1 <= 4) by (replace (1 / S * S ^ 1) with 1 by (field; lra); lra).
    destruct (mid_range 1 (1 / S) ltac:(lia) R1) as (R2 & R3).
    assert (C := Bdiv_correct 53 1024 b64_prec_gt_0 b64_prec_lt_emax mode_NE (@n1 b64 B64_ops) s ltac:(fold S; lra)).
    rewrite B2R_n1 in C. fold S in C. rewrite Rlt_bool_true in C by (apply round_big, big_442, R3).
    destruct C as (E & F & _). assert (Ef : f = Bdiv mode_NE (@n1 b64 B64_ops) s) by reflexivity. rewrite <- Ef in E, F.
    split; [rewrite F; vm_compute; reflexivity|]. rewrite E. cbn [round_mode].
    change (SpecFloat.fexp 53 1024) with (FLT_exp (3 - 1024 - 53) 53). assert (Q := round_rel (1 / S) R2).
    set (r := round _ _ _ _) in *. replace (r * S - 1) with ((r - 1 / S) * S) by (field; lra). rewrite Rabs_mult.
    apply Rle_trans with (u64 * Rabs (1 / S) * Rabs S); [apply Rmult_le_compat_r; [apply Rabs_pos|exact Q]|].
    rewrite Rmult_assoc, <- Rabs_mult. replace (1 / S * S) with 1 by (field; lra). rewrite Rabs_R1. lra.
  Qed.
  Fixpoint pw (n : nat) : b64 := match n with O => @n1 b64 B64_ops | Datatypes.S k => @nmul b64 B64_ops (pw k) f end.
  Lemma pw_rel n : (n <= 21)%nat -> is_finite (pw n) = true /\ Rabs (B2R (pw n) * S ^ n - 1) <= (1 + u64) ^ (2 * n) - 1.
  Proof.
    assert (U := u64_pos). assert (U2 := u64_small). induction n as [|n IH]; intros Hn.
    - cbn [pw]. rewrite B2R_n1. split; [vm_compute; reflexivity|]. change (2 * 0)%nat with 0%nat. rewrite !pow_O. replace (1 * 1 - 1) with 0 by ring. rewrite Rabs_R0. lra.
    - destruct (IH ltac:(lia)) as (Fp & Hp). destruct inverse_rel as (Ff & Hf). cbn [pw].
      set (p := B2R (pw n)) in *. set (q := B2R f) in *.
      assert (H1 : Rabs (p * q * S ^ Datatypes.S n - 1) <= (1 + u64) ^ (2 * n) * (1 + u64) - 1).
      { replace (p * q * S ^ Datatypes.S n) with ((p * S ^ n) * (q * S)) by (cbn [pow]; ring). now apply near_one_mul. }
      assert (W : (1 + u64) ^ (2 * n) * (1 + u64) - 1 <= / 2).
      { replace ((1 + u64) ^ (2 * n) * (1 + u64)) with ((1 + u64) ^ (Datatypes.S (2 * n))) by (cbn [pow]; ring).
        destruct (small_power (Datatypes.S (2 * n)) ltac:(lia)) as (W & _). eapply Rle_trans; [exact W|].
        apply Rle_trans with (INR 44 * u64); [apply Rmult_le_compat_r; [lra|apply le_INR; lia]|]. cbn [INR]. lra. }
      assert (Rg : / 4 <= p * q * S ^ Datatypes.S n <= 4) by (apply Rabs_le_between in H1; lra).
      destruct (mid_range (Datatypes.S n) (p * q) ltac:(lia) Rg) as (R2 & R3).
      assert (Fm := mul_fin (pw n) f Fp Ff (big_442 _ R3)). split; [exact Fm|].
      rewrite (proj2 (proj2 (mul_finite (pw n) f Fm))). fold p q. assert (Q := round_rel (p * q) R2).
      set (r := round _ _ _ _) in *. set (k := S ^ Datatypes.S n) in *. assert (K0 : 0 < k) by (apply pow_lt, S0).
      assert (PQ : 0 < p * q) by (apply Rmult_lt_reg_r with k; lra).
      replace (r * k) with (p * q * k * (r / (p * q))) by (field; split; [|]; intros Z; rewrite Z in PQ; lra).
      replace ((1 + u64) ^ (2 * Datatypes.S n)) with ((1 + u64) ^ (2 * n) * (1 + u64) * (1 + u64)) by (replace (2 * Datatypes.S n)%nat with (Datatypes.S (Datatypes.S (2 * n))) by lia; cbn [pow]; ring).
      apply near_one_mul; [exact H1|]. rewrite (Rabs_pos_eq (p * q)) in Q by lra.
      replace (r / (p * q) - 1) with ((r - p * q) * / (p * q)) by (field; split; intros Z; rewrite Z in PQ; lra).
      rewrite Rabs_mult, (Rabs_pos_eq (/ (p * q))) by (left; now apply Rinv_0_lt_compat).
      apply Rmult_le_reg_r with (p * q); [exact PQ|]. rewrite Rmult_assoc, Rinv_l by lra. lra.
  Qed.

  Lemma scale_loop_b64 (c : list b64) : forall n, @scale_loop b64 B64_ops c (pw n) f = map (fun i => @nmul b64 B64_ops (nth i c (@n0 b64 B64_ops)) (pw (n + i))) (seq 0 (length c)).
  Proof.
    induction c as [|x c IH]; intros n; [reflexivity|]. cbn [scale_loop length seq map nth]. rewrite Nat.add_0_r. f_equal.
    change (@nmul b64 B64_ops (pw n) f) with (pw (Datatypes.S n)). rewrite IH. rewrite <- seq_shift, map_map. apply map_ext. intros i. cbn [nth]. do 2 f_equal. lia.
  Qed.
  Lemma scale_time_b64 (c : list b64) : @poly_scale_time b64 B64_ops c f = map (fun i => @nmul b64 B64_ops (nth i c (@n0 b64 B64_ops)) (pw i)) (seq 0 (length c)).
  Proof. exact (scale_loop_b64 c 0). Qed.
  Lemma scaled_coefficient (x : b64) n : (n <= 21)%nat -> is_finite (@nmul b64 B64_ops x (pw n)) = true ->
    Rabs (B2R (@nmul b64 B64_ops x (pw n)) * S ^ n - B2R x) <= ((1 + u64) ^ (2 * n + 1) - 1) * Rabs (B2R x) + h64 * S ^ n.
  Proof.
    intros Hn F. destruct (pw_rel n Hn) as (_ & Hp). destruct (mul_err _ _ F) as (_ & _ & Em).
    set (y := B2R (nmul _ _)) in *. set (p := B2R (pw n)) in *. set (a := B2R x) in *. set (k := S ^ n) in *.
    assert (K0 : 0 < k) by (apply pow_lt, S0). assert (U := u64_pos).
    replace (y * k - a) with ((y - a * p) * k + a * (p * k - 1)) by ring. eapply Rle_trans; [apply Rabs_triang|].
    rewrite !Rabs_mult, (Rabs_pos_eq k) by lra. rewrite Rabs_mult in Em.
    set (A := Rabs a) in *. assert (A0 : 0 <= A) by apply Rabs_pos. set (W := (1 + u64) ^ (2 * n)) in *.
    replace ((1 + u64) ^ (2 * n + 1)) with (W * (1 + u64)) by (unfold W; rewrite pow_add; ring).
    assert (Pk : Rabs p * k <= W).
    { replace (Rabs p * k) with (Rabs (p * k)) by (rewrite Rabs_mult, (Rabs_pos_eq k) by lra; reflexivity).
      replace (p * k) with ((p * k - 1) + 1) by ring. eapply Rle_trans; [apply Rabs_triang|]. rewrite Rabs_R1. lra. }
    apply Rle_trans with ((u64 * (A * Rabs p) + h64) * k + A * (W - 1)).
    - apply Rplus_le_compat; [apply Rmult_le_compat_r; lra|apply Rmult_le_compat_l; assumption].
    - replace ((u64 * (A * Rabs p) + h64) * k + A * (W - 1)) with (u64 * A * (Rabs p * k) + h64 * k + A * (W - 1)) by ring.
      assert (u64 * A * (Rabs p * k) <= u64 * A * W) by (apply Rmult_le_compat_l; [nra|exact Pk]). lra.
  Qed.
  Lemma scaled_derivative (c : list b64) d tau : (length c <= 22)%nat ->
    (forall x, In x (@poly_scale_time b64 B64_ops c f) -> is_finite x = true) ->
    Rabs (S ^ d * Derive_n (poly_fun (map B2R (@poly_scale_time b64 B64_ops c f))) d (S * tau) - Derive_n (poly_fun (map B2R c)) d tau) <=
    2 * INR (length c) * / 2 ^ 53 * Derive_n (poly_fun (map Rabs (map B2R c))) d (Rabs tau) +
    / 2 ^ 1075 * (S ^ d * Derive_n (poly_fun (repeat 1 (length c))) d (Rabs (S * tau))).
  Proof.
    intros HN F. rewrite !dpoly_ext_derive_n. fold u64. fold h64. rewrite scale_time_b64 in *. unfold dpoly. rewrite !map_length, seq_length, repeat_length. set (N := length c) in *.
    rewrite <- !rsum_scal, <- rsum_minus, <- rsum_plus. assert (U := u64_pos). assert (H0 := h64_pos).
    assert (Tri : forall n g, Rabs (rsum n g) <= rsum n (fun i => Rabs (g i))).
    { induction n as [|n IH]; intros g; cbn [rsum]; [rewrite Rabs_R0; lra|]. eapply Rle_trans; [apply Rabs_triang|]. specialize (IH g). lra. }
    eapply Rle_trans; [apply Tri|]. apply rsum_le. intros i Hi.
    destruct (Nat.lt_ge_cases i d) as [L|L]; [rewrite bc_lt by exact L; rewrite !Rmult_0_l, !Rmult_0_r, Rminus_0_r, Rabs_R0; lra|].
    set (y := @nmul b64 B64_ops (nth i c (@n0 b64 B64_ops)) (pw i)).
    assert (Ey : nth i (map B2R (map (fun i0 => @nmul b64 B64_ops (nth i0 c (@n0 b64 B64_ops)) (pw i0)) (seq 0 N))) 0 = B2R y).
    { rewrite map_map. rewrite (nth_map_lt _ _ _ 0%nat) by (rewrite seq_length; exact Hi). rewrite seq_nth by exact Hi. reflexivity. }
    rewrite Ey. assert (Fy : is_finite y = true). { apply F. apply in_map_iff. exists i. split; [reflexivity|apply in_seq; lia]. }
    rewrite (nth_map_lt _ _ _ 0) by (rewrite map_length; exact Hi). rewrite (nth_map_lt _ _ _ (@n0 b64 B64_ops)) by exact Hi.
    replace (nth i (repeat 1 N) 0) with 1 by (clear - Hi; revert i Hi; induction N as [|n IH]; intros [|i] Hi; cbn; try lia; auto; apply IH; lia).
    assert (Q := scaled_coefficient (nth i c (@n0 b64 B64_ops)) i ltac:(lia) Fy). fold y in Q.
    set (a := B2R (nth i c _)) in *. set (z := B2R y) in *. rewrite Rabs_mult, (Rabs_pos_eq S), !Rpow_mult_distr by lra.
    assert (E : S ^ i = S ^ d * S ^ (i - d)) by (rewrite <- pow_add; f_equal; lia).
    assert (B0 := bc_pos d i L). set (b := bc d i) in *.
    replace (S ^ d * (b * z * (S ^ (i - d) * tau ^ (i - d))) - b * a * tau ^ (i - d)) with (b * tau ^ (i - d) * (z * S ^ i - a)) by (rewrite E; ring).
    rewrite !Rabs_mult, (Rabs_pos_eq b) by lra. rewrite <- RPow_abs. set (T := Rabs tau ^ (i - d)). assert (T0 : 0 <= T) by (apply pow_le, Rabs_pos).
    assert (W : (1 + u64) ^ (2 * i + 1) - 1 <= 2 * INR N * u64).
    { destruct (small_power (2 * i + 1) ltac:(lia)) as (W & _). eapply Rle_trans; [exact W|]. apply Rmult_le_compat_r; [lra|].
      replace 2 with (INR 2) by (cbn; lra). rewrite <- mult_INR. apply le_INR. lia. }
    apply Rle_trans with (b * T * (2 * INR N * u64 * Rabs a + h64 * S ^ i)).
    - apply Rmult_le_compat_l; [apply Rmult_le_pos; lra|]. eapply Rle_trans; [exact Q|]. apply Rplus_le_compat_r, Rmult_le_compat_r; [apply Rabs_pos|exact W].
    - rewrite E. right. fold T. ring.
  Qed.
  Lemma scaled_finite (c : list b64) : (length c <= 22)%nat -> (forall x, In x c -> is_finite x = true /\ Rabs (B2R x) <= 2 ^ 500) ->
    forall x, In x (@poly_scale_time b64 B64_ops c f) -> is_finite x = true.
  Proof.
    intros HN F x Hx. rewrite scale_time_b64 in Hx.
    apply in_map_iff in Hx as (i & <- & Hi). apply in_seq in Hi. destruct (pw_rel i ltac:(lia)) as (Fp & Hp).
    destruct (F (nth i c (@n0 b64 B64_ops))) as (Fx & Hx); [apply nth_In; lia|]. apply mul_fin; [exact Fx|exact Fp|]. rewrite Rabs_mult.
    assert (W : (1 + u64) ^ (2 * i) <= 3 / 2).
    { destruct (small_power (2 * i) ltac:(lia)) as (W & _). assert (U := u64_pos). assert (U2 := u64_small).
      assert (INR (Datatypes.S (2 * i)) * u64 <= INR 44 * u64) by (apply Rmult_le_compat_r; [lra|apply le_INR; lia]). cbn [INR] in *. lra. }
    destruct (mid_range i (B2R (pw i)) ltac:(lia)) as (_ & R3); [apply Rabs_le_between in Hp; lra|].
    apply Rle_trans with (2 ^ 500 * 2 ^ 442); [apply Rmult_le_compat; auto using Rabs_pos|]. rewrite <- pow_add.
    assert (2 ^ (500 + 442) <= big) by (unfold big; apply Rle_pow; [lra|lia]). assert (B := proj1 (proj2 big_bpow)). lra.
  Qed.
End Factor.

(** The check of scaleSegmentTimes keeps the scaling above 2^-20. *)
Lemma scaling_range (tr tr' : trajectory b64) (s : b64) : is_finite s = true -> @traj_scale b64 B64_ops tr s = (true, tr') ->
  / 2 ^ 20 <= B2R s /\ tr' = @traj_stretch b64 B64_ops tr s.
Proof.
  intros Fs. unfold traj_scale. destruct (@nltb b64 B64_ops s (@nlit b64 B64_ops 1 1000000)) eqn:C; intros E; [discriminate|]. injection E as <-. split; [|reflexivity].
  assert (F : is_finite (@nlit b64 B64_ops 1 1000000) = true) by (vm_compute; reflexivity).
  apply (leb_R _ _ F Fs) in C. eapply Rle_trans; [|exact C].
  assert (F2 : is_finite (@nlit b64 B64_ops 1 (2 ^ 20)) = true) by (vm_compute; reflexivity).
  assert (L : B2R (@nlit b64 B64_ops 1 (2 ^ 20)) <= B2R (@nlit b64 B64_ops 1 1000000)) by (apply leb_R; [exact F2|exact F|vm_compute; reflexivity]).
  eapply Rle_trans; [|exact L]. right.
  replace (B2R (@nlit b64 B64_ops 1 (2 ^ 20))) with (bpow radix2 (-20)); [|vm_compute; lra].
  change (-20)%Z with (Z.opp (Z.of_nat 20)). now rewrite bpow_inv_pow.
Qed.

(** scaleSegmentTimes(scaling) with a scaling of at most 2^40 that succeeds: each
    segment keeps its number of polynomials; its time is the product up to one
    rounding; and the d-th derivative of the new polynomials at the stretched
    time, times scaling^d, is the d-th derivative of the old ones up to 2 N
    roundings relative to the polynomial with absolute coefficients, and one
    underflow for each coefficient. *)
Theorem C98_scaled_path (tr tr' : trajectory b64) (s : b64) :
  is_finite s = true -> B2R s <= 2 ^ 40 -> @traj_scale b64 B64_ops tr s = (true, tr') ->
  tr_K tr' = tr_K tr /\ tr_D tr' = tr_D tr /\ tr_N tr' = tr_N tr /\
  forall i sg, nth_error (tr_segments tr) i = Some sg -> exists sg', nth_error (tr_segments tr') i = Some sg' /\
    seg_N sg' = seg_N sg /\ seg_D sg' = seg_D sg /\
    (is_finite (seg_time sg') = true -> Rabs (B2R (seg_time sg') - B2R s * B2R (seg_time sg)) <= / 2 ^ 53 * Rabs (B2R s * B2R (seg_time sg)) + / 2 ^ 1075) /\
    forall k c, nth_error (seg_polys sg) k = Some c -> (length c <= 22)%nat -> exists c', nth_error (seg_polys sg') k = Some c' /\
      length c' = length c /\
      ((forall x, In x c' -> is_finite x = true) -> forall d tau,
         Rabs (B2R s ^ d * Derive_n (poly_fun (map B2R c')) d (B2R s * tau) - Derive_n (poly_fun (map B2R c)) d tau) <=
         2 * INR (length c) * / 2 ^ 53 * Derive_n (poly_fun (map Rabs (map B2R c))) d (Rabs tau) +
         / 2 ^ 1075 * (B2R s ^ d * Derive_n (poly_fun (repeat 1 (length c))) d (Rabs (B2R s * tau)))).
Proof.
  intros Fs Us E. destruct (scaling_range _ _ _ Fs E) as (Ls & ->). unfold traj_stretch, tr_K. cbn [tr_segments tr_D tr_N].
  rewrite map_length. repeat (split; [reflexivity|]). intros i sg Hi. eexists. split; [rewrite nth_error_map, Hi; reflexivity|].
  split; [reflexivity|]. split; [unfold seg_D, seg_stretch; cbn [seg_polys]; apply map_length|]. cbn [seg_stretch seg_polys seg_time]. split.
  - intros F. destruct (mul_err _ _ F) as (_ & _ & Q). rewrite (Rmult_comm (B2R s)). exact Q.
  - intros k c Hk HN. eexists. split; [rewrite nth_error_map, Hk; reflexivity|]. split.
    + rewrite scale_time_b64, map_length, seq_length. reflexivity.
    + intros F d tau. now apply scaled_derivative.
Qed.
Print Assumptions C98_scaled_path.

(** No overflow for coefficients of at most 2^500 and times of at most 2^900. *)
Theorem C98_no_overflow (tr tr' : trajectory b64) (s : b64) :
  is_finite s = true -> B2R s <= 2 ^ 40 -> @traj_scale b64 B64_ops tr s = (true, tr') ->
  (forall sg, In sg (tr_segments tr) -> is_finite (seg_time sg) = true /\ Rabs (B2R (seg_time sg)) <= 2 ^ 900 /\
     forall c, In c (seg_polys sg) -> (length c <= 22)%nat /\ forall x, In x c -> is_finite x = true /\ Rabs (B2R x) <= 2 ^ 500) ->
  forall sg', In sg' (tr_segments tr') -> is_finite (seg_time sg') = true /\
    forall c x, In c (seg_polys sg') -> In x c -> is_finite x = true.
Proof.
  intros Fs Us E H sg' Hs. destruct (scaling_range _ _ _ Fs E) as (Ls & ->). unfold traj_stretch in Hs. cbn [tr_segments] in Hs.
  apply in_map_iff in Hs as (sg & <- & Hs). destruct (H sg Hs) as (Ft & Ht & Hc). cbn [seg_stretch seg_polys seg_time]. split.
  - apply mul_fin; [exact Ft|exact Fs|]. rewrite Rabs_mult. assert (P : 0 < / 2 ^ 20) by (apply Rinv_0_lt_compat, pow_lt; lra).
    apply Rle_trans with (2 ^ 900 * 2 ^ 40); [apply Rmult_le_compat; auto using Rabs_pos; rewrite Rabs_pos_eq by lra; exact Us|].
    rewrite <- pow_add. assert (2 ^ (900 + 40) <= big) by (unfold big; apply Rle_pow; [lra|lia]). assert (B := proj1 (proj2 big_bpow)). lra.
  - intros c' x Hc' Hx. apply in_map_iff in Hc' as (c & <- & Hc'). destruct (Hc c Hc') as (HN & HF). eapply scaled_finite; eassumption.
Qed.
Print Assumptions C98_no_overflow.

Lemma rsum_abs n g : Rabs (rsum n g) <= rsum n (fun i => Rabs (g i)).
Proof. induction n as [|n IH]; cbn [rsum]; [rewrite Rabs_R0; lra|]. eapply Rle_trans; [apply Rabs_triang|]. lra. Qed.
(** getMaxTime() afterwards: the exact total time times the scaling, up to one
    rounding per segment and one more. *)
Theorem C98_max_time (tr tr' : trajectory b64) (s : b64) :
  is_finite s = true -> @traj_scale b64 B64_ops tr s = (true, tr') ->
  (forall sg, In sg (tr_segments tr) -> 0 <= B2R (seg_time sg)) -> is_finite (tr_max_time tr') = true ->
  Rabs (B2R (tr_max_time tr') - B2R s * exact_start tr (tr_K tr)) <=
  ((1 + / 2 ^ 53) ^ S (tr_K tr) - 1) * (B2R s * exact_start tr (tr_K tr)) + (1 + / 2 ^ 53) ^ tr_K tr * (INR (tr_K tr) * / 2 ^ 1075).
Proof.
  intros Fs E Pos F. destruct (scaling_range _ _ _ Fs E) as (Ls & E'). fold u64. fold h64.
  assert (P : 0 < / 2 ^ 20) by (apply Rinv_0_lt_compat, pow_lt; lra). set (S0 := B2R s) in *.
  assert (K : tr_K tr' = tr_K tr) by (subst tr'; unfold tr_K, traj_stretch; cbn [tr_segments]; now rewrite map_length).
  set (segs := tr_segments tr) in *. set (segs' := tr_segments tr').
  assert (Em : tr_max_time tr' = sum_times segs' (length segs')).
  { subst tr'. unfold segs', sum_times, traj_stretch. cbn [tr_max_time tr_segments]. rewrite firstn_all2 by (rewrite map_length; lia). reflexivity. }
  assert (Lk : length segs' = tr_K tr) by exact K. rewrite Em in F.
  assert (Fj : forall j sg, nth_error segs j = Some sg -> nth_error segs' j = Some (@seg_stretch b64 B64_ops s (@ndiv b64 B64_ops (@n1 b64 B64_ops) s) sg)).
  { intros j sg Hj. unfold segs'. subst tr'. unfold traj_stretch. cbn [tr_segments]. rewrite nth_error_map. fold segs. now rewrite Hj. }
  assert (Hp : forall j sg, nth_error segs j = Some sg -> is_finite (@nmul b64 B64_ops (seg_time sg) s) = true).
  { intros j sg Hj. assert (Hl : (j < length segs')%nat) by (apply nth_error_Some; now rewrite (Fj _ _ Hj)).
    assert (Q := sum_times_finite segs' (S j) ltac:(lia) F). rewrite (sum_times_S _ _ _ (Fj _ _ Hj)) in Q. now apply add_finite in Q. }
  assert (Pos' : forall sg, In sg segs' -> 0 <= B2R (seg_time sg)).
  { intros sg' Hs. unfold segs' in Hs. rewrite E' in Hs. unfold traj_stretch in Hs. cbn [tr_segments] in Hs. apply in_map_iff in Hs as (sg & <- & Hs).
    destruct (In_nth_error _ _ Hs) as (j & Hj). cbn [seg_stretch seg_time]. assert (Fm := Hp j sg Hj).
    rewrite (proj2 (proj2 (mul_finite _ _ Fm))). rewrite <- (round_0 radix2 (FLT_exp (3 - 1024 - 53) 53) ZnearestE).
    apply round_le; [apply FLT_exp_valid; reflexivity|apply valid_rnd_N|]. apply Rmult_le_pos; [now apply Pos|fold S0; lra]. }
  destruct (sum_error segs' Pos' (length segs') (le_n _) F) as (N0 & _ & Q). rewrite <- Em, Lk in Q. rewrite Lk in N0.
  set (D' := rsum (tr_K tr) _) in Q, N0. set (D := exact_start tr (tr_K tr)).
  assert (U := u64_pos). assert (H0 := h64_pos).
  assert (HD : Rabs (D' - S0 * D) <= u64 * (S0 * D) + INR (tr_K tr) * h64).
  { unfold D', D, exact_start. rewrite <- rsum_scal, <- rsum_minus. eapply Rle_trans; [apply rsum_abs|].
    rewrite <- rsum_scal, <- (rsum_const (tr_K tr) h64), <- rsum_plus. apply rsum_le. intros j Hj.
    destruct (nth_error segs j) as [sg|] eqn:Ej; [|apply nth_error_None in Ej; unfold tr_K in Hj; fold segs in Hj; lia].
    rewrite (nth_error_nth (map (fun s1 => B2R (seg_time s1)) segs') j 0 (x := B2R (@nmul b64 B64_ops (seg_time sg) s))) by (rewrite nth_error_map, (Fj _ _ Ej); reflexivity).
    fold segs. rewrite (nth_error_nth (map (fun s1 => B2R (seg_time s1)) segs) j 0 (x := B2R (seg_time sg))) by (rewrite nth_error_map, Ej; reflexivity).
    destruct (mul_err _ _ (Hp j sg Ej)) as (_ & _ & Er). assert (Pg : 0 <= B2R (seg_time sg)) by (apply Pos; eapply nth_error_In; exact Ej).
    fold S0 in Er. rewrite (Rmult_comm (B2R (seg_time sg)) S0) in Er. rewrite (Rabs_pos_eq (S0 * _)) in Er by (apply Rmult_le_pos; lra). exact Er. }
  assert (D0 : 0 <= S0 * D).
  { apply Rmult_le_pos; [lra|]. unfold D, exact_start. apply rsum_nonneg. intros j Hj. fold segs.
    destruct (nth_error segs j) as [sg|] eqn:Ej; [|apply nth_error_None in Ej; unfold tr_K in Hj; fold segs in Hj; lia].
    rewrite (nth_error_nth (map (fun s1 => B2R (seg_time s1)) segs) j 0 (x := B2R (seg_time sg))) by (rewrite nth_error_map, Ej; reflexivity).
    apply Pos. eapply nth_error_In; exact Ej. }
  assert (W := pow_u_ge (tr_K tr)). cbn [pow]. set (q := (1 + u64) ^ tr_K tr) in *. set (m := B2R (tr_max_time tr')) in *. set (e := INR (tr_K tr) * h64) in *.
  assert (HD2 : D' <= (1 + u64) * (S0 * D) + e) by (apply Rabs_le_between in HD; lra).
  replace (m - S0 * D) with ((m - D') + (D' - S0 * D)) by ring. eapply Rle_trans; [apply Rabs_triang|].
  apply Rle_trans with ((q - 1) * ((1 + u64) * (S0 * D) + e) + (u64 * (S0 * D) + e)).
  - apply Rplus_le_compat; [|exact HD]. eapply Rle_trans; [exact Q|]. apply Rmult_le_compat_l; lra.
  - right. ring.
Qed.
Print Assumptions C98_max_time.

(** Two segments stretched by 3. *)
Definition three64 : b64 := @nofZ b64 B64_ops 3.
Example C98_example : is_finite three64 = true /\ B2R three64 <= 2 ^ 40 /\
  @traj_scale b64 B64_ops two_seg_tr three64 = (true, @traj_stretch b64 B64_ops two_seg_tr three64) /\
  (forall sg, In sg (tr_segments two_seg_tr) -> 0 <= B2R (seg_time sg)) /\
  is_finite (tr_max_time (@traj_stretch b64 B64_ops two_seg_tr three64)) = true /\
  (forall sg, In sg (tr_segments two_seg_tr) -> is_finite (seg_time sg) = true /\ Rabs (B2R (seg_time sg)) <= 2 ^ 900 /\
     forall c, In c (seg_polys sg) -> (length c <= 22)%nat /\ forall x, In x c -> is_finite x = true /\ Rabs (B2R x) <= 2 ^ 500).
Proof.
  assert (Q : forall z x, is_Z x z = true -> is_finite x = true /\ B2R x = IZR z) by (intros z x Hz; now apply is_Z_spec).
  assert (B : 2 <= 2 ^ 500) by (apply Rle_trans with (2 ^ 1); [lra|apply Rle_pow; [lra|lia]]).
  assert (B2 : 1 <= 2 ^ 900) by (apply pow_R1_Rle; lra).
  split; [reflexivity|]. split; [rewrite (proj2 (Q 3%Z three64 ltac:(vm_compute; reflexivity))); apply Rle_trans with (2 ^ 2); [lra|apply Rle_pow; [lra|lia]]|].
  split; [unfold traj_scale; replace (@nltb b64 B64_ops three64 (@nlit b64 B64_ops 1 1000000)) with false by (vm_compute; reflexivity); reflexivity|].
  split; [exact (proj1 C95_example)|]. split; [vm_compute; reflexivity|].
  assert (T1 : forall x, is_finite x = true -> Bsign x = false -> @nltb b64 B64_ops (@n1 b64 B64_ops) x = false -> Rabs (B2R x) <= 2 ^ 900).
  { intros x Fx Sx Lx. rewrite Rabs_pos_eq by now apply sign_pos. apply (leb_R _ _ Fx) in Lx; [|reflexivity]. rewrite B2R_n1 in Lx. lra. }
  assert (C : forall c, In c [map (@nofZ b64 B64_ops) [0; 1]%Z] -> (length c <= 22)%nat /\ forall x, In x c -> is_finite x = true /\ Rabs (B2R x) <= 2 ^ 500).
  { intros c [<-|[]]. split; [cbn; lia|]. intros x [<-|[<-|[]]].
    - destruct (Q 0%Z (@nofZ b64 B64_ops 0) ltac:(vm_compute; reflexivity)) as (? & ->). split; [assumption|]. rewrite Rabs_R0. lra.
    - destruct (Q 1%Z (@nofZ b64 B64_ops 1) ltac:(vm_compute; reflexivity)) as (? & ->). split; [assumption|]. rewrite Rabs_R1. lra. }
  intros sg [<-|[<-|[]]]; cbn [seg_time seg_polys]; (split; [vm_compute; reflexivity|split; [apply T1; vm_compute; reflexivity|exact C]]).
Qed.

(** The check at trajectory.cpp:364 does not reject a NaN: scaleSegmentTimes then
    reports success and every segment time is NaN. *)
Theorem C98_nan_accepted_finding (tr : trajectory b64) (s : b64) : is_nan s = true ->
  exists tr', @traj_scale b64 B64_ops tr s = (true, tr') /\ tr_K tr' = tr_K tr /\ forall sg, In sg (tr_segments tr') -> is_nan (seg_time sg) = true.
Proof.
  intros Hn. exists (@traj_stretch b64 B64_ops tr s). split; [|split].
  - unfold traj_scale. replace (@nltb b64 B64_ops s (@nlit b64 B64_ops 1 1000000)) with false; [reflexivity|]. destruct s; try discriminate. reflexivity.
  - unfold tr_K, traj_stretch. cbn [tr_segments]. now rewrite map_length.
  - intros sg Hs. unfold traj_stretch in Hs. cbn [tr_segments] in Hs. apply in_map_iff in Hs as (x & <- & _). cbn [seg_stretch seg_time nmul B64_ops].
    destruct s; try discriminate. destruct (seg_time x); reflexivity.
Qed.
Print Assumptions C98_nan_accepted_finding.
Example C98_nan_example : is_nan (B754_nan : b64) = true. Proof. reflexivity. Qed.
(** Without the bound on the scaling: 2^600 is accepted, all numbers stay finite,
    but the square of its inverse is 0 in doubles and t^2 becomes 0. *)
Definition huge64 : b64 := @nofZ b64 B64_ops (2 ^ 600).
Definition square_tr : trajectory b64 := mkTraj 1 3 [mkSegment 3 [map (@nofZ b64 B64_ops) [0; 0; 1]%Z] (@n1 b64 B64_ops)] (@n1 b64 B64_ops).
Definition all_zero (tr : trajectory b64) : bool := forallb (fun sg => forallb (fun c => forallb (fun x => is_Z x 0) c && Nat.eqb (length c) 3) (seg_polys sg) && is_finite (seg_time sg)) (tr_segments tr).
Theorem C98_huge_scaling_finding : exists (tr tr' : trajectory b64) (s : b64), is_finite s = true /\ @traj_scale b64 B64_ops tr s = (true, tr') /\
  (forall sg c, In sg (tr_segments tr) -> In c (seg_polys sg) -> poly_fun (map B2R c) 1 = 1) /\
  tr_K tr' = 1%nat /\ forall sg c, In sg (tr_segments tr') -> is_finite (seg_time sg) = true /\
    (In c (seg_polys sg) -> length c = 3%nat /\ (forall x, In x c -> is_finite x = true) /\ forall t, poly_fun (map B2R c) t = 0).
Proof.
  exists square_tr, (@traj_stretch b64 B64_ops square_tr huge64), huge64. split; [vm_compute; reflexivity|]. split.
  - unfold traj_scale. replace (@nltb b64 B64_ops huge64 (@nlit b64 B64_ops 1 1000000)) with false by (vm_compute; reflexivity). reflexivity.
  - split.
    + assert (Q : forall z x, is_Z x z = true -> B2R x = IZR z) by (intros z x Hz; now apply is_Z_spec).
      intros sg c [<-|[]] [<-|[]]. unfold poly_fun. cbn [map length rsum nth].
      rewrite (Q 0%Z (@nofZ b64 B64_ops 0)), (Q 1%Z (@nofZ b64 B64_ops 1)) by (vm_compute; reflexivity). cbn [pow]. ring.
    + split; [reflexivity|]. assert (H : all_zero (@traj_stretch b64 B64_ops square_tr huge64) = true) by (vm_compute; reflexivity).
      revert H. generalize (@traj_stretch b64 B64_ops square_tr huge64). intros tr H sg c Hs. unfold all_zero in H. rewrite forallb_forall in H.
      specialize (H sg Hs). apply andb_true_iff in H as (H & F). split; [exact F|]. intros Hc. rewrite forallb_forall in H. specialize (H c Hc).
      apply andb_true_iff in H as (H & L). apply Nat.eqb_eq in L. rewrite forallb_forall in H. split; [exact L|].
      split; [intros x Hx; now apply (is_Z_spec x 0), H|]. intros t. unfold poly_fun. apply rsum_zero. intros i Hi. rewrite map_length in Hi.
      rewrite (nth_map_lt _ _ _ (@n0 b64 B64_ops)) by exact Hi. rewrite (proj2 (is_Z_spec _ 0 (H _ (nth_In _ _ Hi)))). ring.
Qed.
Print Assumptions C98_huge_scaling_finding.
