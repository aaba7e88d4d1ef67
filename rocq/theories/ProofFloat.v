(** Facts on binary64 additions and comparisons of non-negative numbers. *)
From Coq Require Import ZArith Reals List Bool Lia Lra.
From Flocq Require Import IEEE754.BinarySingleNaN Core.
From Verif Require Import Num RSum.
Open Scope R_scope.
Local Arguments bpow : simpl never.

(** Not NaN and not negative (either zero and +infinity included). *)
Definition fnn (x : b64) : Prop :=
  match x with
  | B754_zero _ => True
  | B754_infinity s => s = false
  | B754_nan => False
  | B754_finite s _ _ _ => s = false
  end.
Definition bval (x : b64) : R :=
  match x with
  | B754_infinity s => if s then - bpow radix2 1024 else bpow radix2 1024
  | _ => B2R x
  end.

Lemma b64_ltb_irrefl x : @nltb b64 B64_ops x x = false.
Proof.
  cbn. unfold b64_cmp. pose proof (Bcompare_swap 53 1024 x x) as H.
  destruct (Bcompare x x) as [[]|]; try reflexivity. discriminate.
Qed.
Lemma b64_ltb_asym x y : @nltb b64 B64_ops x y = true -> @nltb b64 B64_ops y x = false.
Proof.
  cbn. unfold b64_cmp. rewrite (Bcompare_swap 53 1024 x y).
  destruct (Bcompare x y) as [[]|]; try discriminate. reflexivity.
Qed.

Lemma bval_finite_lt (x : b64) : is_finite x = true -> bval x < bpow radix2 1024.
Proof.
  intro H. pose proof (abs_B2R_lt_emax 53 1024 x) as A. apply Rabs_def2 in A.
  destruct x; simpl in *; try discriminate; lra.
Qed.
Lemma fnn_bval x : fnn x -> 0 <= bval x.
Proof.
  destruct x as [s|s| |s m e H]; simpl; intro Hx; try lra; try tauto.
  - subst s. apply bpow_ge_0.
  - subst s. apply F2R_ge_0. simpl. lia.
Qed.

Lemma fltb_spec x y : fnn x -> fnn y -> @nltb b64 B64_ops x y = Rltb (bval x) (bval y).
Proof.
  intros Hx Hy.
  assert (F : is_finite x = true -> is_finite y = true ->
     @nltb b64 B64_ops x y = Rltb (B2R x) (B2R y)).
  { intros Fx Fy. cbn. unfold b64_cmp. rewrite Bcompare_correct by auto.
    destruct (Rcompare_spec (B2R x) (B2R y)); symmetry; [apply Rltb_true|apply Rltb_false|apply Rltb_false]; lra. }
  destruct (is_finite x) eqn:Fx; destruct (is_finite y) eqn:Fy.
  - rewrite F by auto. destruct x, y; simpl in *; try discriminate; reflexivity.
  - pose proof (bval_finite_lt x Fx) as L. destruct y as [s|s| |]; simpl in Hy, Fy; try discriminate; try tauto.
    subst s. simpl (bval (B754_infinity false)). rewrite (proj2 (Rltb_true _ _) L).
    destruct x as [s|s| |s m e B]; simpl in *; try discriminate; reflexivity.
  - pose proof (bval_finite_lt y Fy) as L. destruct x as [s|s| |]; simpl in Hx, Fx; try discriminate; try tauto.
    subst s. simpl (bval (B754_infinity false)). symmetry.
    assert (E : Rltb (bpow radix2 1024) (bval y) = false) by (apply Rltb_false; lra). rewrite E.
    destruct y as [s|s| |s m e B]; simpl in *; try discriminate; reflexivity.
  - destruct x as [s|s| |]; simpl in Hx, Fx; try discriminate; try tauto.
    destruct y as [s'|s'| |]; simpl in Hy, Fy; try discriminate; try tauto. subst.
    symmetry. apply Rltb_false. lra.
Qed.

Lemma fplus_spec x y : fnn x -> fnn y ->
  fnn (@nadd b64 B64_ops x y) /\ bval x <= bval (@nadd b64 B64_ops x y).
Proof.
  intros Hx Hy. cbn [nadd B64_ops].
  destruct x as [sx|sx| |sx mx ex Bx]; simpl in Hx; try tauto.
  - destruct y as [sy|sy| |sy my ey By]; simpl in Hy; try tauto.
    + simpl. destruct (Bool.eqb sx sy); simpl; split; auto; lra.
    + subst sy. simpl. split; auto. apply bpow_ge_0.
    + subst sy. simpl. split; auto. apply F2R_ge_0. simpl. lia.
  - subst sx. destruct y as [sy|sy| |sy my ey By]; simpl in Hy; try tauto; simpl.
    + split; [auto|lra].
    + subst sy. simpl. split; [auto|lra].
    + split; [auto|lra].
  - subst sx. destruct y as [sy|sy| |sy my ey By]; simpl in Hy; try tauto.
    + simpl. split; [auto|lra].
    + subst sy. simpl (Bplus _ _ _). split; [simpl; auto|].
      apply Rlt_le. exact (bval_finite_lt (B754_finite false mx ex Bx) eq_refl).
    + subst sy.
      set (x := B754_finite false mx ex Bx : b64). set (y := B754_finite false my ey By : b64).
      pose proof (Bplus_correct 53 1024 b64_prec_gt_0 b64_prec_lt_emax mode_NE x y eq_refl eq_refl) as C.
      assert (Px : 0 <= B2R x) by (apply F2R_ge_0; simpl; lia).
      assert (Py : 0 <= B2R y) by (apply F2R_ge_0; simpl; lia).
      assert (Hge : B2R x <= round radix2 (SpecFloat.fexp 53 1024) (round_mode mode_NE) (B2R x + B2R y)).
      { apply round_ge_generic.
        - apply fexp_correct. exact b64_prec_gt_0.
        - apply valid_rnd_round_mode.
        - apply generic_format_B2R.
        - lra. }
      set (z := Bplus mode_NE x y) in *.
      destruct (Rlt_bool _ _).
      * destruct C as (C1 & C2 & _). rewrite <- C1 in Hge.
        assert (Ez : bval z = B2R z) by (destruct z; simpl in *; try discriminate; reflexivity).
        split; [|rewrite Ez; exact Hge].
        destruct z as [s|s| |s m e B]; simpl in C2 |- *; try discriminate; auto.
        destruct s; auto. exfalso. simpl in Hge.
        assert (F2R (Float radix2 (Z.neg m) e) < 0) by (apply F2R_lt_0; simpl; lia).
        simpl in Px. lra.
      * destruct C as [C _]. simpl (Bsign x) in C. unfold binary_overflow in C. simpl in C.
        assert (Ez : z = B754_infinity false).
        { destruct z as [s|s| |s m e B]; simpl in C; try discriminate. now inversion C. }
        rewrite Ez. split; [reflexivity|]. apply Rlt_le. exact (bval_finite_lt x eq_refl).
Qed.
