(** C61 in binary64: an interval that is positive but too small. *)
From Coq Require Import ZArith Reals List Bool Lia Lra.
From Flocq Require Import IEEE754.BinarySingleNaN Core.
From Verif Require Import Num RSum ModelPolynomial ModelSegment ModelVertex ModelTrajectory ModelInput ModelSampling ModelFeasibility.
Import ListNotations.
Notation length := List.length.
Open Scope R_scope.
Local Arguments bpow : simpl never.

Definition one64 : b64 := @n1 b64 B64_ops.
Definition giga64 : b64 := b64_of_Z (10 ^ 9).
(** 2^-60 *)
Definition tiny64 : b64 := @nlit b64 B64_ops 1 (2 ^ 60).
Lemma one64_sf : B2SF one64 = SpecFloat.S754_finite false 4503599627370496 (-52).
Proof. vm_compute. reflexivity. Qed.
Lemma giga64_sf : B2SF giga64 = SpecFloat.S754_finite false 8388608000000000 (-23).
Proof. vm_compute. reflexivity. Qed.
Lemma tiny64_sf : B2SF tiny64 = SpecFloat.S754_finite false 4503599627370496 (-112).
Proof. vm_compute. reflexivity. Qed.
Lemma stall_sf : B2SF (@nadd b64 B64_ops one64 tiny64) = B2SF one64.
Proof. vm_compute. reflexivity. Qed.
Lemma val_sf (x : b64) m e : B2SF x = SpecFloat.S754_finite false m e -> B2R x = IZR (Zpos m) * bpow radix2 e /\ is_finite x = true.
Proof.
  intros H. split; [rewrite <- SF2R_B2SF, H; reflexivity|]. destruct x; try discriminate; reflexivity.
Qed.
Lemma one64_val : B2R one64 = 1 /\ is_finite one64 = true.
Proof.
  destruct (val_sf _ _ _ one64_sf) as (E & F). split; [|exact F]. rewrite E. change 4503599627370496%Z with (radix2 ^ 52)%Z. rewrite IZR_Zpower by lia. rewrite <- bpow_plus. reflexivity.
Qed.
Lemma giga64_val : B2R giga64 = IZR (10 ^ 9) /\ is_finite giga64 = true.
Proof.
  destruct (val_sf _ _ _ giga64_sf) as (E & F). split; [|exact F]. rewrite E. change 8388608000000000%Z with (10 ^ 9 * radix2 ^ 23)%Z. rewrite mult_IZR, IZR_Zpower by lia.
  rewrite Rmult_assoc, <- bpow_plus. change (bpow radix2 (23 + -23)) with 1. ring.
Qed.
Lemma tiny64_val : 0 < B2R tiny64 /\ is_finite tiny64 = true.
Proof.
  destruct (val_sf _ _ _ tiny64_sf) as (E & F). split; [|exact F]. rewrite E. apply Rmult_lt_0_compat; [apply IZR_lt; reflexivity|apply bpow_gt_0].
Qed.
Lemma small_bpow x : Rabs x <= IZR (10 ^ 9) -> Rabs x < bpow radix2 1024.
Proof.
  intros H. apply Rle_lt_trans with (1 := H). apply Rlt_trans with (bpow radix2 30); [|apply bpow_lt; lia]. rewrite <- IZR_Zpower by lia. apply IZR_lt. reflexivity.
Qed.
Definition in_unit (t : b64) : Prop := is_finite t = true /\ 0 <= B2R t <= 1.
Lemma fexp_ok : Valid_exp (SpecFloat.fexp 53 1024).
Proof. apply fexp_correct. exact b64_prec_gt_0. Qed.
Lemma unit_step t : in_unit t -> in_unit (@nadd b64 B64_ops t tiny64).
Proof.
  intros (F & T0 & T1). destruct tiny64_val as (P & Ft). destruct one64_val as (O1 & Fo). cbn [nadd B64_ops].
  pose proof fexp_ok as Vx. pose proof (valid_rnd_round_mode mode_NE) as Vr.
  pose proof (Bplus_correct 53 1024 b64_prec_gt_0 b64_prec_lt_emax mode_NE one64 tiny64 Fo Ft) as C1.
  pose proof (Bplus_correct 53 1024 b64_prec_gt_0 b64_prec_lt_emax mode_NE t tiny64 F Ft) as C.
  assert (One : round radix2 (SpecFloat.fexp 53 1024) (round_mode mode_NE) (B2R one64 + B2R tiny64) = 1).
  { destruct (Rlt_bool _ _) in C1.
    - destruct C1 as (C1 & _). rewrite <- C1. rewrite <- SF2R_B2SF. pose proof stall_sf as S. cbn [nadd B64_ops] in S. rewrite S, SF2R_B2SF. exact O1.
    - exfalso. destruct C1 as (C1 & _). pose proof stall_sf as S. cbn [nadd B64_ops] in S. rewrite S, one64_sf in C1. discriminate C1. }
  set (r := round _ _ _ (B2R t + _)) in C.
  assert (Hi : r <= 1). { rewrite <- One. apply round_le; [exact Vx|exact Vr|]. rewrite O1. lra. }
  assert (Lo : 0 <= r). { apply Rle_trans with (B2R t); [exact T0|]. apply round_ge_generic; [exact Vx|exact Vr|apply generic_format_B2R|lra]. }
  rewrite Rlt_bool_true in C.
  - destruct C as (C & Fc & _). split; [exact Fc|]. rewrite C. lra.
  - apply small_bpow. rewrite Rabs_pos_eq by exact Lo. apply Rle_trans with (1 := Hi). apply IZR_le. discriminate.
Qed.
Lemma unit_label t : in_unit t -> exists z, @to_int64 b64 B64_ops (@nmul b64 B64_ops t giga64) = Ok z.
Proof.
  intros (F & T0 & T1). destruct giga64_val as (G & Fg). cbn [nmul B64_ops]. pose proof fexp_ok as Vx. pose proof (valid_rnd_round_mode mode_NE) as Vr.
  pose proof (Bmult_correct 53 1024 b64_prec_gt_0 b64_prec_lt_emax mode_NE t giga64) as C. set (r := round _ _ _ (B2R t * _)) in C.
  assert (G0 : 0 < B2R giga64) by (rewrite G; apply IZR_lt; reflexivity).
  assert (Hi : r <= B2R giga64). { apply round_le_generic; [exact Vx|exact Vr|apply generic_format_B2R|nra]. }
  assert (Lo : 0 <= r). { apply round_ge_generic; [exact Vx|exact Vr|apply generic_format_0|nra]. }
  rewrite Rlt_bool_true in C by (apply small_bpow; rewrite Rabs_pos_eq, <- G; assumption). destruct C as (C & Fc & _). rewrite F, Fg in Fc. cbn [andb] in Fc.
  unfold to_int64. cbn [ntoZ B64_ops]. rewrite Fc.
  pose proof (Btrunc_correct 53 1024 b64_prec_lt_emax (@Bmult 53 1024 b64_prec_gt_0 b64_prec_lt_emax mode_NE t giga64)) as B. rewrite C in B. set (z := Btrunc _) in *.
  assert (E : IZR z = IZR (Ztrunc r)).
  { rewrite B. unfold round, F2R, scaled_mantissa, cexp, FIX_exp. cbn [Fnum Fexp]. change (bpow radix2 0) with 1. change (bpow radix2 (- 0)) with 1. rewrite !Rmult_1_r. reflexivity. }
  apply eq_IZR in E. assert (Z1 : (0 <= z <= 10 ^ 9)%Z).
  { rewrite E. rewrite <- (Ztrunc_IZR 0), <- (Ztrunc_IZR (10 ^ 9)). split; apply Ztrunc_le; [exact Lo|rewrite <- G; exact Hi]. }
  exists z. rewrite (proj2 (Z.leb_le _ _)), (proj2 (Z.ltb_lt _ _)) by lia. reflexivity.
Qed.
Lemma unit_le t : in_unit t -> @nleb b64 B64_ops t one64 = true.
Proof.
  intros (F & T0 & T1). destruct one64_val as (O1 & Fo). cbn [nleb B64_ops]. unfold b64_cmp. rewrite Bcompare_correct by assumption. rewrite O1.
  destruct (Rcompare_spec (B2R t) 1); try reflexivity. lra.
Qed.
(** Hovering for one second. *)
Definition hover64 : segment b64 := mkSegment 1 [[@n0 b64 B64_ops]; [@n0 b64 B64_ops]; [@n0 b64 B64_ops]] one64.
Lemma hover64_state (mav : mav_functions b64) full t : in_unit t -> exists pt, @state_at b64 B64_ops mav full hover64 t = Ok (full pt).
Proof.
  intros H. destruct (unit_label t H) as (z & E). unfold state_at.
  assert (V : forall d : Z, (0 <= d <= 4)%Z -> exists x y w, @seg_evaluate b64 B64_ops hover64 t d = Ok [x; y; w]).
  { intros d Hd. assert (Q : (d = 0 \/ d = 1 \/ d = 2 \/ d = 3 \/ d = 4)%Z) by lia. destruct Q as [-> |[-> |[-> |[-> | ->]]]]; do 3 eexists; reflexivity. }
  destruct (V 0%Z ltac:(lia)) as (x0 & y0 & w0 & ->). destruct (V 1%Z ltac:(lia)) as (x1 & y1 & w1 & ->). destruct (V 2%Z ltac:(lia)) as (x2 & y2 & w2 & ->).
  destruct (V 3%Z ltac:(lia)) as (x3 & y3 & w3 & ->). destruct (V 4%Z ltac:(lia)) as (x4 & y4 & w4 & ->). cbn [obind]. unfold fill_state.
  change (seg_D hover64) with 3%nat. cbn [Nat.eqb]. change (nofZ (10 ^ 9)) with giga64. rewrite E. eexists. reflexivity.
Qed.
(** With an interval of 2^-60 s the time stops growing at the latest at 1 s: the
    check of a segment of one second without limits does not end. *)
Theorem C61_terminates_refuted : exists dt (s : segment b64), 0 < B2R dt /\ is_finite dt = true /\ seg_D s = 3%nat /\ seg_time s = one64 /\
  forall mav full planes gravity fuel, (forall pt, length (ms_angular_velocity_B (full pt)) = 3%nat /\ length (ms_angular_acceleration_B (full pt)) = 3%nat) ->
    @sampling_check b64 B64_ops mav full (mkChecker [] planes gravity) dt fuel s = Ok None.
Proof.
  exists tiny64, hover64. destruct tiny64_val as (P & Ft). split; [exact P|]. split; [exact Ft|]. split; [reflexivity|]. split; [reflexivity|].
  intros mav full planes gravity fuel H3. unfold sampling_check. change (dimension_ok hover64) with true. cbn [negb ck_input].
  assert (U : in_unit (@n0 b64 B64_ops)) by (split; [reflexivity|change (B2R n0) with 0; lra]). revert U. generalize (@n0 b64 B64_ops).
  induction fuel as [|fuel IH]; intros t U; cbn [sampling_loop]; change (seg_time hover64) with one64; rewrite (unit_le t U); [reflexivity|].
  destruct (hover64_state mav full t U) as (pt & ->). cbn [obind]. destruct (H3 pt) as (L1 & L2). unfold state_check.
  destruct (full pt) as [a v w al]. cbn [ms_angular_velocity_B ms_angular_acceleration_B] in *. destruct w as [|x [|y [|z [|]]]]; try discriminate. destruct al as [|ax [|ay [|az [|]]]]; try discriminate.
  change (vec_head [x; y; z] 2) with (Ok [x; y]). cbn [obind oget nth_error]. apply IH, unit_step, U.
Qed.
Print Assumptions C61_terminates_refuted.
