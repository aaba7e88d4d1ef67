(** C08 in double arithmetic, and what the acceptance test for a pair of zeros
    misses. *)
From Coq Require Import Reals ZArith List Bool Lia Lra Psatz.
From Coquelicot Require Import Complex.
From Flocq Require Import IEEE754.BinarySingleNaN Core.
From Verif Require Import Num RSum SpecRoots ModelRpoly ProofRpoly ProofRpoly2 ProofFloat ProofNsec PropRpoly.
Import ListNotations.
Open Scope R_scope.
Local Arguments bpow : simpl never.

Local Notation fexp := (SpecFloat.fexp 53 1024).
Local Notation rnd := (round radix2 fexp ZnearestE).
Local Notation b := (bpow radix2).
#[local] Existing Instance vfexp.

Lemma div_exact (x y : b64) : is_finite x = true -> B2R y <> 0 -> Rabs (B2R x / B2R y) <= b 1000 ->
  B2R (@ndiv b64 B64_ops x y) = rnd (B2R x / B2R y) /\ is_finite (@ndiv b64 B64_ops x y) = true.
Proof.
  intros Fx Fy H. cbn [ndiv B64_ops]. assert (Q := Bdiv_correct 53 1024 b64_prec_gt_0 b64_prec_lt_emax mode_NE x y Fy).
  change (BinarySingleNaN.round_mode mode_NE) with ZnearestE in Q. rewrite Rlt_bool_true in Q.
  - destruct Q as (Q1 & Q2 & _). rewrite Fx in Q2. auto.
  - apply Rle_lt_trans with (b 1000); [| apply bpow_lt; lia]. apply (abs_round_le_generic radix2 fexp ZnearestE); [apply generic_format_bpow; cbv; discriminate | exact H].
Qed.
Lemma add_exact (x y : b64) : is_finite x = true -> is_finite y = true -> Rabs (B2R x + B2R y) <= b 1000 ->
  B2R (@nadd b64 B64_ops x y) = rnd (B2R x + B2R y) /\ is_finite (@nadd b64 B64_ops x y) = true.
Proof.
  intros Fx Fy H. cbn [nadd B64_ops]. assert (Q := Bplus_correct 53 1024 b64_prec_gt_0 b64_prec_lt_emax mode_NE x y Fx Fy).
  change (BinarySingleNaN.round_mode mode_NE) with ZnearestE in Q. rewrite Rlt_bool_true in Q.
  - destruct Q as (Q1 & Q2 & _). auto.
  - apply Rle_lt_trans with (b 1000); [| apply bpow_lt; lia]. apply (abs_round_le_generic radix2 fexp ZnearestE); [apply generic_format_bpow; cbv; discriminate | exact H].
Qed.
Lemma rnd_bound (x : R) (n : Z) : (Z.abs n <= 2 ^ 53)%Z -> Rabs x <= IZR n -> Rabs (rnd x) <= IZR n.
Proof.
  intros Hn H. apply (abs_round_le_generic radix2 fexp ZnearestE); [| exact H].
  destruct (ofZ_exact n Hn) as [E _]. rewrite <- E. apply generic_format_B2R.
Qed.
Lemma sf_value (x : b64) m e : B2SF x = SpecFloat.S754_finite false m e -> B2R x = IZR (Zpos m) * b e /\ is_finite x = true.
Proof.
  intros E. destruct x as [| | | s m' e' Hb]; cbn [B2SF] in E; try discriminate. injection E as -> -> ->. split; reflexivity.
Qed.
Lemma lo_value : B2R (@rp_lo b64 B64_ops) = b (-74) /\ is_finite (@rp_lo b64 B64_ops) = true.
Proof.
  destruct (sf_value (@rp_lo b64 B64_ops) 4503599627370496 (-126)) as [A B]; [vm_compute; reflexivity |].
  split; [| exact B]. rewrite A. change 4503599627370496%positive with (2 ^ 52)%positive. change (Zpos (2 ^ 52)) with (Zpower radix2 52).
  rewrite IZR_Zpower by lia. rewrite <- bpow_plus. reflexivity.
Qed.
Definition pos_finite (x : b64) : Prop := is_finite x = true /\ 0 < B2R x.
Lemma flt_max_value : pos_finite (@flt_max b64 B64_ops) /\ B2R (@flt_max b64 B64_ops) <= b 128.
Proof.
  destruct (sf_value (@flt_max b64 B64_ops) 9007198717870080 75) as [A B]; [vm_compute; reflexivity |].
  rewrite A. split; [split; [exact B |] |].
  - rewrite A. apply Rmult_lt_0_compat; [apply IZR_lt; reflexivity | apply bpow_gt_0].
  - change 128%Z with (53 + 75)%Z. rewrite bpow_plus. apply Rmult_le_compat_r; [apply bpow_ge_0 |].
    rewrite <- (IZR_Zpower radix2 53) by lia. apply IZR_le. cbv. discriminate.
Qed.
Lemma flt_min_value : pos_finite (@flt_min b64 B64_ops).
Proof.
  destruct (sf_value (@flt_min b64 B64_ops) 4503599627370496 (-178)) as [A B]; [vm_compute; reflexivity |].
  split; [exact B |]. rewrite A. apply Rmult_lt_0_compat; [apply IZR_lt; reflexivity | apply bpow_gt_0].
Qed.

Lemma pos_ge (x : b64) : pos_finite x -> b (-1074) <= B2R x.
Proof.
  intros [F H]. assert (S : is_finite_strict x = true).
  { destruct x; try discriminate; [cbn in H; lra | reflexivity]. }
  assert (A := abs_B2R_ge_emin 53 1024 x S). rewrite Rabs_right in A by lra. exact A.
Qed.

Lemma min_value : forall p (m : b64), pos_finite m /\ B2R m <= b 128 ->
  let m' := fold_left (fun m c => if (negb (@neqb b64 B64_ops (@nabs b64 B64_ops c) (@n0 b64 B64_ops)) && @nltb b64 B64_ops (@nabs b64 B64_ops c) m)%bool then @nabs b64 B64_ops c else m) p m in
  pos_finite m' /\ B2R m' <= b 128.
Proof.
  induction p as [| c p IH]; intros m [[F P] U]; cbn [fold_left]; [repeat split; assumption |].
  apply IH. destruct (negb _ && _)%bool eqn:E; [| repeat split; assumption].
  apply andb_prop in E. destruct E as [E1 E2].
  destruct c as [s | s | | s mc ec Hc].
  - destruct s; vm_compute in E1; discriminate.
  - destruct m; cbn in F; try discriminate; cbn in E2; discriminate.
  - discriminate.
  - set (x := @nabs b64 B64_ops (B754_finite s mc ec Hc)) in *.
    assert (X : pos_finite x).
    { split; [reflexivity |]. unfold x. cbn [nabs B64_ops Babs B2R]. apply F2R_gt_0. reflexivity. }
    split; [exact X |]. destruct X as [FX _].
    cbn [nltb B64_ops] in E2. unfold b64_cmp in E2. rewrite Bcompare_correct in E2 by assumption.
    destruct (Rcompare_spec (B2R x) (B2R m)); try discriminate. lra.
Qed.

(** A logarithm whose results on positive doubles are at most 1100 in size, and
    between 1/2 and 1 on 2. *)
Definition log_in_range (lg : b64 -> b64) : Prop :=
  (forall x, pos_finite x -> is_finite (lg x) = true /\ Rabs (B2R (lg x)) <= 1100) /\
  1 / 2 <= B2R (lg (@nofZ b64 B64_ops 2)) <= 1.

Lemma scaling_defined : forall (math : rp_math b64) p, log_in_range (m_log math) -> @scale_coefficients b64 B64_ops math p <> UB.
Proof.
  intros math p [LG L2]. unfold scale_coefficients. cbv zeta.
  destruct (min_value p (@flt_max b64 B64_ops) flt_max_value) as [MP MU].
  set (mn := fold_left _ p flt_max) in *. set (mx := fold_left _ p n0).
  destruct lo_value as [LV LF].
  assert (M0 := pos_ge mn MP). destruct MP as [MF MP].
  assert (SCB : b (-202) <= B2R (@rp_lo b64 B64_ops) / B2R mn <= b 1000).
  { rewrite LV. split.
    - change (-202)%Z with (-74 + - (128))%Z. rewrite bpow_plus, bpow_opp. apply Rmult_le_compat_l; [apply bpow_ge_0 |].
      apply Rinv_le; assumption.
    - change 1000%Z with (-74 + - (-1074))%Z. rewrite bpow_plus, bpow_opp. apply Rmult_le_compat_l; [apply bpow_ge_0 |].
      apply Rinv_le; [apply bpow_gt_0 | exact M0]. }
  assert (SC : pos_finite (@ndiv b64 B64_ops (@rp_lo b64 B64_ops) mn)).
  { destruct (div_exact (@rp_lo b64 B64_ops) mn LF ltac:(lra)) as [E F].
    - rewrite Rabs_right; [apply SCB |]. assert (0 < b (-202)) by apply bpow_gt_0. lra.
    - split; [exact F |]. rewrite E. apply Rlt_le_trans with (b (-202)); [apply bpow_gt_0 |].
      apply round_ge_generic; [exact vfexp | apply valid_rnd_N | apply generic_format_bpow; cbv; discriminate | apply SCB]. }
  set (sc := @ndiv b64 B64_ops (@rp_lo b64 B64_ops) mn) in *.
  destruct (_ || _)%bool; [| discriminate].
  set (sc' := if @neqb b64 B64_ops sc (@n0 b64 B64_ops) then @flt_min b64 B64_ops else sc).
  assert (S' : pos_finite sc') by (unfold sc'; destruct (neqb _ _); [apply flt_min_value | exact SC]).
  destruct (LG sc' S') as [F1 B1].
  destruct (div_exact (m_log math sc') (m_log math (@nofZ b64 B64_ops 2)) F1 ltac:(lra)) as [E2 F2].
  { apply Rle_trans with 2200; [| rewrite <- (IZR_Zpower radix2 1000) by lia; apply IZR_le; vm_compute; discriminate].
    unfold Rdiv. rewrite Rabs_mult, (Rabs_right (/ _)) by (left; apply Rinv_0_lt_compat; lra).
    assert (/ B2R (m_log math (@nofZ b64 B64_ops 2)) <= 2).
    { apply Rle_trans with (/ (1 / 2)); [apply Rinv_le; lra | lra]. }
    assert (0 < / B2R (m_log math (@nofZ b64 B64_ops 2))) by (apply Rinv_0_lt_compat; lra).
    pose proof (Rabs_pos (B2R (m_log math sc'))). nra. }
  assert (B2 : Rabs (B2R (@ndiv b64 B64_ops (m_log math sc') (m_log math (@nofZ b64 B64_ops 2)))) <= IZR 2200).
  { rewrite E2. apply rnd_bound; [cbv; discriminate |].
    unfold Rdiv. rewrite Rabs_mult, (Rabs_right (/ _)) by (left; apply Rinv_0_lt_compat; lra).
    assert (/ B2R (m_log math (@nofZ b64 B64_ops 2)) <= 2).
    { apply Rle_trans with (/ (1 / 2)); [apply Rinv_le; lra | lra]. }
    assert (0 < / B2R (m_log math (@nofZ b64 B64_ops 2))) by (apply Rinv_0_lt_compat; lra).
    pose proof (Rabs_pos (B2R (m_log math sc'))). nra. }
  destruct (sf_value (@nlit b64 B64_ops 1 2) 4503599627370496 (-53)) as [HV HF]; [vm_compute; reflexivity |].
  assert (H1 : Rabs (B2R (@nlit b64 B64_ops 1 2)) <= 1).
  { rewrite HV. change (Zpos 4503599627370496) with (Zpower radix2 52). rewrite IZR_Zpower by lia. rewrite <- bpow_plus.
    rewrite Rabs_right by (apply Rle_ge, bpow_ge_0). change 1 with (b 0). apply bpow_le. lia. }
  set (q := @ndiv b64 B64_ops (m_log math sc') _) in *.
  assert (B3 : Rabs (B2R q + B2R (@nlit b64 B64_ops 1 2)) <= IZR 2201).
  { eapply Rle_trans; [apply Rabs_triang |]. change (IZR 2201) with (IZR (2200 + 1)). rewrite plus_IZR. lra. }
  destruct (add_exact q (@nlit b64 B64_ops 1 2) F2 HF) as [E3 F3].
  { eapply Rle_trans; [exact B3 |]. rewrite <- (IZR_Zpower radix2 1000) by lia. apply IZR_le. vm_compute. discriminate. }
  rewrite (toZ_trunc _ F3).
  assert (TZ : (Z.abs (Ztrunc (B2R (@nadd b64 B64_ops q (@nlit b64 B64_ops 1 2)))) <= 2201)%Z).
  { rewrite <- Ztrunc_abs, Ztrunc_floor by apply Rabs_pos.
    apply le_IZR. eapply Rle_trans; [apply Zfloor_lb |]. rewrite E3. apply rnd_bound; [cbv; discriminate | exact B3]. }
  set (l := Ztrunc _) in *.
  rewrite (proj2 (Z.leb_le _ _)), (proj2 (Z.ltb_lt _ _)) by (change (2 ^ 31)%Z with 2147483648%Z; lia). discriminate.
Qed.

(** In doubles, whatever the other functions of <cmath> return, at most 101
    coefficients never lead to undefined behaviour. *)
Theorem C08_doubles_defined : forall (math : rp_math b64) junk fuel cs roots, log_in_range (m_log math) -> (length cs <= 101)%nat ->
  @findRootsJenkinsTraub b64 B64_ops math junk fuel cs roots = Ok None \/
  exists b zs, @findRootsJenkinsTraub b64 B64_ops math junk fuel cs roots = Ok (Some (b, zs)) /\
    (b = true -> (length zs <= length cs - 1)%nat) /\ (b = false -> zs = roots).
Proof.
  intros math junk fuel cs roots HL L. apply (@C08_every_slot_written b64 B64_ops); [exact B64_sane | exact L |].
  intros p _. now apply scaling_defined.
Qed.
Print Assumptions C08_doubles_defined.

(** The hypothesis is met by the logarithm that is correctly rounded. *)
Definition rounded_ln (x : b64) : b64 :=
  let y := rnd (ln (B2R x)) in
  binary_normalize 53 1024 b64_prec_gt_0 b64_prec_lt_emax mode_NE (Ztrunc (scaled_mantissa radix2 fexp y)) (cexp radix2 fexp y) false.
Example C08_doubles_example : log_in_range rounded_ln.
Proof.
  assert (V : forall x : b64, Rabs (rnd (ln (B2R x))) < b 1024 -> B2R (rounded_ln x) = rnd (ln (B2R x)) /\ is_finite (rounded_ln x) = true).
  { intros x H. unfold rounded_ln. set (y := rnd (ln (B2R x))) in *.
    assert (G : generic_format radix2 fexp y) by (apply generic_format_round; [exact vfexp | apply valid_rnd_N]).
    assert (Q := binary_normalize_correct 53 1024 b64_prec_gt_0 b64_prec_lt_emax mode_NE (Ztrunc (scaled_mantissa radix2 fexp y)) (cexp radix2 fexp y) false).
    rewrite <- G in Q. cbv zeta in Q. change (BinarySingleNaN.round_mode mode_NE) with ZnearestE in Q.
    assert (Y : rnd y = y) by (apply round_generic; [apply valid_rnd_N | exact G]).
    change (round radix2 (SpecFloat.fexp 53 1024) ZnearestE y) with (rnd y) in Q. rewrite Y, Rlt_bool_true in Q by exact H.
    destruct Q as (Q1 & Q2 & _). split; assumption. }
  assert (L1 : ln 2 < 1).
  { rewrite <- (ln_exp 1). apply ln_increasing; [lra |]. pose proof (exp_ineq1 1 ltac:(lra)). lra. }
  assert (LP : forall z, ln (b z) = IZR z * ln 2).
  { intros z. rewrite bpow_exp. change (IZR (radix_val radix2)) with 2. apply ln_exp. }
  assert (B : forall x, pos_finite x -> Rabs (ln (B2R x)) <= IZR 1100).
  { intros x X. pose proof (pos_ge x X) as X1. destruct X as [XF XP].
    assert (X2 := abs_B2R_lt_emax 53 1024 x). rewrite Rabs_right in X2 by lra.
    assert (U : ln (B2R x) < IZR 1024 * ln 2) by (rewrite <- LP; now apply ln_increasing).
    assert (W : IZR (-1074) * ln 2 <= ln (B2R x)).
    { rewrite <- LP. destruct X1 as [X1 | <-]; [left; apply ln_increasing; [apply bpow_gt_0 | exact X1] | right; reflexivity]. }
    apply Rabs_le. pose proof ln_lt_2. lra. }
  split.
  - intros x X. pose proof (rnd_bound _ 1100 ltac:(vm_compute; discriminate) (B x X)) as RB.
    destruct (V x) as [E F]; [| rewrite E; split; [exact F | exact RB]].
    eapply Rle_lt_trans; [exact RB |]. rewrite <- IZR_Zpower by lia. apply IZR_lt. vm_compute. reflexivity.
  - destruct (ofZ_exact 2 ltac:(vm_compute; discriminate)) as [E2 F2].
    assert (R1 : 1 / 2 <= rnd (ln 2) <= 1).
    { pose proof ln_lt_2. split.
      - apply round_ge_generic; [exact vfexp | apply valid_rnd_N | | lra].
        replace (1 / 2) with (b (-1)) by (change (b (-1)) with (/ 2); lra). apply generic_format_bpow. cbv. discriminate.
      - apply round_le_generic; [exact vfexp | apply valid_rnd_N | | lra]. change 1 with (b 0). apply generic_format_bpow. cbv. discriminate. }
    destruct (V (@nofZ b64 B64_ops 2)) as [E _].
    + rewrite E2, Rabs_right by lra. apply Rle_lt_trans with 1; [lra |]. change 1 with (b 0). apply bpow_lt. lia.
    + rewrite E, E2. exact R1.
Qed.

(** * What the acceptance test misses *)
(** The value at the first zero of a pair is not looked at.  z^3 + z^2 + z + 1 =
    (z + 1)(z^2 + 1) and the divisor z^2 - 1: the pair 1, -1 is accepted although
    the value at 1 is 4. *)
Theorem C08_first_of_pair_unchecked_finding : exists (p : list R) u v st st',
  quadIT 0 1 p u v st = Ok (Some (2%nat, st')) /\ r_szi st' = 0 /\ r_lzi st' = 0 /\
  cpoly (rev p) (RtoC (r_szr st')) = RtoC 4 /\ cpoly (rev p) (RtoC (r_lzr st')) = RtoC 0.
Proof.
  exists [1; 1; 1; 1], 0, (-1), (mkRp 0 0 (mkScalars 0 0 0 0 0 0 0 0 0) [] [] [] 0 0 0 0).
  set (st := mkRp 2 2 (mkScalars 0 0 0 0 0 0 0 0 0) [] [1; 1; 2; 2] [] 1 0 (-1) 0).
  assert (Q : quad 1 0 (-1) = ((1, 0), (-1, 0))).
  { unfold quad, n0. rnum.
    destruct (Reqb_spec 1 0); [lra |]. destruct (Reqb_spec (-1) 0); [lra |]. cbv zeta.
    destruct (Rltb_spec (Rabs (0 / 2)) (Rabs (-1))) as [_ | HH].
    2: { exfalso. rewrite (Rabs_left (-1)) in HH by lra. replace (0 / 2) with 0 in HH by lra. rewrite Rabs_R0 in HH. lra. }
    destruct (Rleb_spec 0 (-1)); [lra |].
    replace (- - (1) + 0 / 2 * (0 / 2 / Rabs (-1))) with 1 by lra.
    rewrite (Rabs_left (-1)), Rabs_R1 by lra. replace (- -1) with 1 by lra. rewrite sqrt_1.
    destruct (Rleb_spec 0 1); [| lra]. destruct (Rleb_spec 0 (0 / 2)); [| lra].
    replace ((- (0 / 2) + - (1 * 1)) / 1) with (-1) by lra. destruct (Reqb_spec (-1) 0); [lra |]. cbn [negb]. repeat f_equal; lra. }
  exists st. split; [| repeat split; try reflexivity; cbn; apply C_eq; cbn; ring].
  unfold quadIT. cbn [quadIT_loop r_sc s_a1 s_a3 s_a7 s_c s_d s_e s_f s_g s_h r_a r_b r_K r_qp r_qk r_szr r_szi r_lzr r_lzi].
  unfold n1. rnum. rewrite Q.
  unfold nlit. rnum. destruct (Rltb_spec (1 / 100 * Rabs (-1)) (Rabs (Rabs 1 - Rabs (-1)))) as [H | _].
  { exfalso. rewrite (Rabs_left (-1)), Rabs_R1 in H by lra. replace (1 - - -1) with 0 in H by lra. rewrite Rabs_R0 in H. lra. }
  assert (D : quadSD 0 (-1) [1; 1; 1; 1] = Ok ([1; 1; 2; 2], (2, 2))) by (cbn; rnum; repeat f_equal; lra).
  rewrite D. cbn [obind]. unfold quad_error. cbn [oget nth_error obind length skipn firstn fold_left Nat.sub]. rnum.
  match goal with |- context [Rleb ?x ?y] => destruct (Rleb_spec x y) as [_ | H] end.
  - cbn. unfold st. reflexivity.
  - exfalso. revert H. unfold dbl_epsilon, nlit. rnum. rewrite (Rabs_left (-1)) by lra. replace (- -1) with 1 by lra. rewrite sqrt_1.
    replace (- (1 * 2) + 2) with 0 by lra. replace (2 + - (1 * 2)) with 0 by lra. replace (- (1 * 2)) with (-2) by lra.
    rewrite Rabs_R0, Rabs_R1, (Rabs_right 2), (Rabs_left (-2)), (Rabs_right (0 * 2)) by lra.
    set (e := 1 / IZR _). assert (0 < e) by (unfold e; lra). intros H1. lra.
Qed.
Print Assumptions C08_first_of_pair_unchecked_finding.

(** (z + 3)(z + 2)^5 (z - 2) in double arithmetic: no entry of the list is within
    0.1 of the simple zero -3, and none within 0.0006 of the simple zero 2;
    success is reported. *)
Theorem C08_simple_zero_missed_finding : exists cs l,
  (forall z, cpoly (map IZR cs) z = from_roots [RtoC (-3); RtoC (-2); RtoC (-2); RtoC (-2); RtoC (-2); RtoC (-2); RtoC 2] z) /\
  in_nano (d_run 100 cs) = Some (true, l) /\
  forall x, In x l -> (100000000 < Z.abs (fst x - -3000000000) /\ 600000 < Z.abs (fst x - 2000000000))%Z.
Proof.
  exists [-192; -448; -368; -80; 60; 44; 11; 1]%Z.
  exists [(2000630732, 0); (-2002132701, 0); (-1542465549, 421202106); (-1542465549, -421202106);
          (-2403965175, 555748097); (-2403965175, -555748097); (-3105636579, 0)]%Z.
  split; [| split].
  - intros z. cbn [map cpoly from_roots]. apply C_eq; destruct z as [x y]; cbn; ring.
  - vm_compute. reflexivity.
  - intros x H. cbn [In] in H. repeat (destruct H as [<- | H]; [cbn [fst]; lia |]). contradiction.
Qed.
Print Assumptions C08_simple_zero_missed_finding.
