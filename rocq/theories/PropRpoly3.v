(** C06 with the root finder of the code: up to cubic polynomials nothing is
    assumed about it. *)
From Coq Require Import Reals ZArith List Bool Lia Lra.
From Coquelicot Require Import Coquelicot.
From Verif Require Import Num RSum SpecPoly ModelPolynomial ProofPolynomial ExtremaMath ProofExtrema PropExtrema SpecRoots ModelRpoly ProofRpoly ProofRpoly2 PropRpoly.
Import ListNotations.
Open Scope R_scope.
Local Opaque dbl_min.

(** polynomial.cpp:37-46 getRoots calls findRootsJenkinsTraub; a computation that
    does not end or is undefined counts as a failure here. *)
Definition code_rf (math : rp_math R) (junk : R) (fuel : nat) : root_oracle (T := R) :=
  fun cs => match findRootsJenkinsTraub math junk fuel cs [] with Ok (Some r) => r | _ => (false, []) end.

(** Zero or at least the smallest normal double. *)
Definition normal_or_zero (x : R) : Prop := x = 0 \/ / 2 ^ 1022 <= Rabs x.

Lemma tiny_pos : 0 < / 2 ^ 1022.
Proof. apply Rinv_0_lt_compat, pow_lt. lra. Qed.

Lemma tiny_le_1 : / 2 ^ 1022 <= 1.
Proof. rewrite <- Rinv_1. apply Rinv_le_contravar; [lra |]. apply pow_R1_Rle. lra. Qed.

(** zeros, a block with ends that are not zero, zeros *)
Lemma trim_right : forall cs : list R, exists core k, cs = core ++ repeat 0 k /\ (core = [] \/ last core 0 <> 0).
Proof.
  induction cs as [| x cs IH] using rev_ind; [exists [], 0%nat; split; [reflexivity | now left] |].
  destruct (Req_dec x 0) as [-> | H].
  - destruct IH as (core & k & -> & H). exists core, (S k). split; [| exact H].
    rewrite <- app_assoc. f_equal. change [0] with (repeat 0 1). rewrite <- repeat_app. f_equal. lia.
  - exists (cs ++ [x]), 0%nat. cbn [repeat]. rewrite app_nil_r. split; [reflexivity |]. right. now rewrite last_last.
Qed.
Lemma trim_left : forall cs : list R, exists m core, cs = repeat 0 m ++ core /\ (core = [] \/ nth 0 core 0 <> 0).
Proof.
  induction cs as [| x cs (m & core & E & H)]; [exists 0%nat, []; split; [reflexivity | now left] |].
  destruct (Req_dec x 0) as [-> | HX].
  - exists (S m), core. split; [cbn; now rewrite E | exact H].
  - exists 0%nat, (x :: cs). split; [reflexivity | now right].
Qed.

Lemma poly_fun_zeros k t : poly_fun (repeat 0 k) t = 0.
Proof.
  unfold poly_fun. apply rsum_zero. intros i _. rewrite nth_repeat_any. destruct (Nat.ltb i k); ring.
Qed.
Lemma poly_fun_pad core k t : poly_fun (core ++ repeat 0 k) t = poly_fun core t.
Proof. rewrite <- !dpoly_0. apply dpoly_pad. Qed.

Lemma low_covers (math : rp_math R) (junk : R) fuel cs a b : fuel <> 0%nat -> (length cs <= 101)%nat ->
  (forall i, (3 <= i)%nat -> nth i cs 0 = 0) -> (forall x, In x cs -> normal_or_zero x) ->
  covers_real_roots (poly_fun cs) a b (snd (code_rf math junk fuel cs)).
Proof.
  intros HF HL H3 HN.
  destruct (trim_right cs) as (l & k & E & HL1).
  destruct HL1 as [-> | HL1].
  { left. intros t _. rewrite E. apply poly_fun_zeros. }
  destruct (trim_left l) as (m & core & E2 & H0).
  destruct H0 as [-> | H0].
  { exfalso. rewrite app_nil_r in E2. apply HL1. rewrite E2. clear. induction m as [| [| m] IH]; [reflexivity | reflexivity | exact IH]. }
  assert (LC : last l 0 = last core 0).
  { rewrite E2. destruct (exists_last (l := core)) as (x & y & ->); [intros ->; apply H0; reflexivity |]. now rewrite app_assoc, !last_last. }
  assert (NC : core <> []) by (intros ->; apply H0; reflexivity).
  assert (L3 : (m + length core <= 3)%nat).
  { destruct (Nat.le_gt_cases (m + length core) 3) as [Q | Q]; [exact Q |]. exfalso. apply HL1.
    assert (LL : (length l = m + length core)%nat) by (rewrite E2, app_length, repeat_length; reflexivity).
    assert (X : nth (length l - 1) cs 0 = last l 0).
    { rewrite E, app_nth1 by lia. clear. induction l as [| x [| y l] IH]; [reflexivity | reflexivity |].
      change (last (x :: y :: l) 0) with (last (y :: l) 0). rewrite <- IH. cbn [length]. replace (S (S (length l)) - 1)%nat with (S (length l)) by lia.
      cbn [nth]. replace (S (length l) - 1)%nat with (length l) by lia. reflexivity. }
    rewrite <- X. apply H3. lia. }
  assert (LASTN : / 2 ^ 1022 <= Rabs (last core 0)).
  { destruct (HN (last core 0)) as [Q | Q]; [| rewrite <- LC in Q; contradiction | exact Q].
    rewrite E, E2. apply in_or_app. left. apply in_or_app. right.
    destruct (exists_last NC) as (x & y & ->). rewrite last_last. apply in_or_app. right. now left. }
  unfold code_rf. rewrite E, C08_small_leading_ignored.
  2: { intros c C. apply repeat_spec in C. subst c. destruct (counts 0) eqn:Q; [| reflexivity]. apply R_counts in Q. rewrite Rabs_R0 in Q. pose proof tiny_pos. lra. }
  rewrite E2. destruct (Nat.eq_dec (m + length core) 1) as [M1 | M1].
  - assert (m = 0%nat) as -> by (destruct core; [congruence | cbn in M1; lia]).
    destruct core as [| c [| c' core]]; [congruence | | cbn in M1; lia].
    right. intros t _ Z. exfalso. rewrite poly_fun_pad in Z. unfold poly_fun in Z. cbn in Z, H0. lra.
  - destruct (C08_low_degree_covers math junk fuel m core [] a b HF) as (zs & E3 & Q); try assumption.
    + destruct core; [congruence | cbn [length] in *; lia].
    + lia.
    + destruct core; [congruence | cbn [length] in *; lia].
    + rewrite E3. cbn [snd]. destruct Q as [Q | Q].
      * left. intros t Ht. rewrite poly_fun_pad. now apply Q.
      * right. intros t Ht Z. rewrite poly_fun_pad in Z. now apply Q.
Qed.

(** Coefficients from the derivatives at zero. *)
Lemma dpoly_at_0 c i : dpoly c i 0 = nth i c 0 * bc i i.
Proof.
  unfold dpoly. destruct (Nat.lt_ge_cases i (length c)) as [H | H].
  - set (g := fun j => bc i j * nth j c 0 * 0 ^ (j - i)).
    rewrite (rsum_ext _ g (fun j => if Nat.eqb j i then g j else 0)).
    + rewrite rsum_delta by exact H. unfold g. rewrite Nat.sub_diag. cbn [pow]. ring.
    + intros j Hj. destruct (Nat.eqb_spec j i) as [| Q]; [reflexivity |]. unfold g.
      destruct (Nat.lt_ge_cases j i) as [Q2 | Q2]; [rewrite bc_lt by exact Q2; ring |].
      rewrite (pow_i (j - i)) by lia. ring.
  - rewrite rsum_zero; [rewrite nth_overflow by exact H; ring |].
    intros j Hj. rewrite bc_lt by lia. ring.
Qed.

Lemma derivative_coefficients c cs d : (forall t, poly_fun cs t = Derive_n (poly_fun c) d t) ->
  forall i, nth i cs 0 = bc d (d + i) * nth (d + i) c 0.
Proof.
  intros H i.
  assert (E : dpoly cs i 0 = dpoly c (d + i) 0).
  { rewrite <- !dpoly_ext_derive_n. rewrite (Derive_n_ext _ _ i 0 H), Derive_n_comp. f_equal. lia. }
  rewrite !dpoly_at_0, bc_shift in E. replace (d + i - d)%nat with i in E by lia.
  pose proof (bc_pos i i (Nat.le_refl _)). apply (Rmult_eq_reg_r (bc i i)); [| lra]. rewrite E. ring.
Qed.

Lemma bc_ge_1 n i : (n <= i)%nat -> 1 <= bc n i.
Proof.
  induction n as [| n IH]; intros H; [rewrite bc_0; lra |].
  rewrite bc_step. specialize (IH ltac:(lia)).
  assert (1 <= INR (i - n)) by (apply (le_INR 1); lia). nra.
Qed.

(** The extremes of the derivative of order d are the true ones, with the root
    finder of the code and nothing assumed about its math library, when that
    derivative is at most cubic and its coefficients are no subnormals. *)
Theorem C06_low_degree_unconditional :
  forall (math : rp_math R) (junk : R) fuel (c : list R) (a b : R) (d : nat), fuel <> 0%nat ->
    (d < length c <= 22)%nat -> (d < 21)%nat -> a <= b ->
    (forall i, (d + 4 <= i)%nat -> nth i c 0 = 0) ->
    (forall x, In x c -> x = 0 \/ / 2 ^ 1022 <= Rabs x) ->
    (forall t, a <= t <= b -> Rabs (Derive_n (poly_fun c) d t) < IZR (2 ^ 1024 - 2 ^ 971)) ->
    exists tmin vmin tmax vmax,
      computeMinMax (code_rf math junk fuel) c a b (Z.of_nat d) = Ok (Some ((tmin, vmin), (tmax, vmax))) /\
      is_min_on (Derive_n (poly_fun c) d) a b tmin vmin /\
      is_max_on (Derive_n (poly_fun c) d) a b tmax vmax.
Proof.
  intros math junk fuel c a b d HF HL HD HAB H4 HN HB.
  apply C06_computeMinMax_global; try assumption.
  intros cs LCS H. pose proof (derivative_coefficients c cs (S d) H) as K.
  apply low_covers; [exact HF | lia | |].
  - intros i Hi. rewrite K, H4 by lia. ring.
  - intros x X. apply (In_nth _ _ 0) in X. destruct X as (i & Hi & <-). rewrite K.
    destruct (Nat.lt_ge_cases (S d + i) (length c)) as [Q | Q].
    2: { left. rewrite nth_overflow by exact Q. ring. }
    destruct (HN (nth (S d + i) c 0) (nth_In _ _ Q)) as [Z | Z]; [left; rewrite Z; ring | right].
    pose proof (bc_ge_1 (S d) (S d + i) ltac:(lia)). rewrite Rabs_mult, (Rabs_right (bc _ _)) by lra.
    pose proof (Rabs_pos (nth (S d + i) c 0)). nra.
Qed.
Print Assumptions C06_low_degree_unconditional.

(** x(t) = t^3 - 3 t on [-2, 2]: all hypotheses hold. *)
Example C06_low_degree_nonvacuous : forall (math : rp_math R) junk, exists tmin vmin tmax vmax,
  computeMinMax (code_rf math junk 1) [0; -3; 0; 1] (-2) 2 0 = Ok (Some ((tmin, vmin), (tmax, vmax))) /\
  is_min_on (poly_fun [0; -3; 0; 1]) (-2) 2 tmin vmin /\ is_max_on (poly_fun [0; -3; 0; 1]) (-2) 2 tmax vmax.
Proof.
  intros math junk. apply (C06_low_degree_unconditional math junk 1 [0; -3; 0; 1] (-2) 2 0); cbn [length]; try lia; try lra.
  - intros i Hi. apply nth_overflow. cbn [length]. lia.
  - pose proof tiny_le_1. intros x [<- | [<- | [<- | [<- | []]]]]; [now left | right | now left | right].
    + rewrite Rabs_left by lra. lra.
    + rewrite Rabs_right by lra. lra.
  - intros t Ht. cbn [Derive_n]. unfold poly_fun. cbn [length rsum nth pow].
    apply Rle_lt_trans with 100; [apply Rabs_le; nra |]. apply IZR_lt. reflexivity.
Qed.
