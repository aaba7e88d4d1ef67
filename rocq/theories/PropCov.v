(** C96: drawCovariance3D shows exactly the n sigma ellipsoid. *)
From Coq Require Import ZArith Reals List Bool String Lra Lia Psatz.
From Flocq Require Import BinarySingleNaN.
From Verif Require Import Num RSum ModelSampling ModelMotion ModelVis ModelCov SpecVis SpecCov PropVis.
Import ListNotations.
Notation length := List.length.
Open Scope R_scope.

(** The entries of a rotation matrix with the columns a, b, c. *)
Record rotation (a0 a1 a2 b0 b1 b2 c0 c1 c2 : R) : Prop := {
  ro_aa : a0 * a0 + a1 * a1 + a2 * a2 = 1; ro_bb : b0 * b0 + b1 * b1 + b2 * b2 = 1; ro_cc : c0 * c0 + c1 * c1 + c2 * c2 = 1;
  ro_ab : a0 * b0 + a1 * b1 + a2 * b2 = 0; ro_bc : b0 * c0 + b1 * c1 + b2 * c2 = 0; ro_ac : a0 * c0 + a1 * c1 + a2 * c2 = 0;
  ro_c0 : c0 = a1 * b2 - a2 * b1; ro_c1 : c1 = a2 * b0 - a0 * b2; ro_c2 : c2 = a0 * b1 - a1 * b0;
  ro_a0 : a0 = b1 * c2 - b2 * c1; ro_a1 : a1 = b2 * c0 - b0 * c2; ro_a2 : a2 = b0 * c1 - b1 * c0;
  ro_b0 : b0 = c1 * a2 - c2 * a1; ro_b1 : b1 = c2 * a0 - c0 * a2; ro_b2 : b2 = c0 * a1 - c1 * a0;
  ro_00 : a0 * a0 + b0 * b0 + c0 * c0 = 1; ro_11 : a1 * a1 + b1 * b1 + c1 * c1 = 1; ro_22 : a2 * a2 + b2 * b2 + c2 * c2 = 1;
  ro_01 : a0 * a1 + b0 * b1 + c0 * c1 = 0; ro_12 : a1 * a2 + b1 * b2 + c1 * c2 = 0; ro_02 : a0 * a2 + b0 * b2 + c0 * c2 = 0
}.

Lemma rotation_intro a0 a1 a2 b0 b1 b2 c0 c1 c2 :
  a0 * a0 + a1 * a1 + a2 * a2 = 1 -> b0 * b0 + b1 * b1 + b2 * b2 = 1 -> a0 * b0 + a1 * b1 + a2 * b2 = 0 ->
  c0 = a1 * b2 - a2 * b1 -> c1 = a2 * b0 - a0 * b2 -> c2 = a0 * b1 - a1 * b0 ->
  rotation a0 a1 a2 b0 b1 b2 c0 c1 c2.
Proof.
  intros AA BB AB C0 C1 C2.
  assert (A0 : a0 = b1 * c2 - b2 * c1).
  { replace (b1 * c2 - b2 * c1) with (a0 * (b0 * b0 + b1 * b1 + b2 * b2) - b0 * (a0 * b0 + a1 * b1 + a2 * b2)) by (subst; ring). rewrite BB, AB. ring. }
  assert (A1 : a1 = b2 * c0 - b0 * c2).
  { replace (b2 * c0 - b0 * c2) with (a1 * (b0 * b0 + b1 * b1 + b2 * b2) - b1 * (a0 * b0 + a1 * b1 + a2 * b2)) by (subst; ring). rewrite BB, AB. ring. }
  assert (A2 : a2 = b0 * c1 - b1 * c0).
  { replace (b0 * c1 - b1 * c0) with (a2 * (b0 * b0 + b1 * b1 + b2 * b2) - b2 * (a0 * b0 + a1 * b1 + a2 * b2)) by (subst; ring). rewrite BB, AB. ring. }
  assert (B0 : b0 = c1 * a2 - c2 * a1).
  { replace (c1 * a2 - c2 * a1) with (b0 * (a0 * a0 + a1 * a1 + a2 * a2) - a0 * (a0 * b0 + a1 * b1 + a2 * b2)) by (subst; ring). rewrite AA, AB. ring. }
  assert (B1 : b1 = c2 * a0 - c0 * a2).
  { replace (c2 * a0 - c0 * a2) with (b1 * (a0 * a0 + a1 * a1 + a2 * a2) - a1 * (a0 * b0 + a1 * b1 + a2 * b2)) by (subst; ring). rewrite AA, AB. ring. }
  assert (B2 : b2 = c0 * a1 - c1 * a0).
  { replace (c0 * a1 - c1 * a0) with (b2 * (a0 * a0 + a1 * a1 + a2 * a2) - a2 * (a0 * b0 + a1 * b1 + a2 * b2)) by (subst; ring). rewrite AA, AB. ring. }
  assert (D : a0 * (b1 * c2 - b2 * c1) + a1 * (b2 * c0 - b0 * c2) + a2 * (b0 * c1 - b1 * c0) = 1).
  { rewrite <- A0, <- A1, <- A2. exact AA. }
  constructor; try assumption.
  - rewrite <- D. rewrite C0 at 2. rewrite C1 at 2. rewrite C2 at 2. ring.
  - rewrite C0, C1, C2. ring.
  - rewrite C0, C1, C2. ring.
  - rewrite <- D. rewrite A0 at 2. rewrite B0 at 2. rewrite C0 at 2. ring.
  - rewrite <- D. rewrite A1 at 2. rewrite B1 at 2. rewrite C1 at 2. ring.
  - rewrite <- D. rewrite A2 at 2. rewrite B2 at 2. rewrite C2 at 2. ring.
  - rewrite A0, B0, C0 at 1. ring.
  - rewrite A1, B1, C1 at 1. ring.
  - rewrite A0, B0, C0 at 1. ring.
Qed.

Lemma products_rotate w x y z a0 a1 a2 b0 b1 b2 c0 c1 c2 (v : list R) :
  4 * (w * w) = 1 + a0 + b1 + c2 -> 4 * (x * x) = 1 + a0 - b1 - c2 -> 4 * (y * y) = 1 - a0 + b1 - c2 -> 4 * (z * z) = 1 - a0 - b1 + c2 ->
  4 * (w * x) = b2 - c1 -> 4 * (w * y) = c0 - a2 -> 4 * (w * z) = a1 - b0 ->
  4 * (x * y) = a1 + b0 -> 4 * (x * z) = a2 + c0 -> 4 * (y * z) = b2 + c1 ->
  unit_q [w; x; y; z] /\
  rotated [w; x; y; z] v = [a0 * nth 0 v 0 + b0 * nth 1 v 0 + c0 * nth 2 v 0; a1 * nth 0 v 0 + b1 * nth 1 v 0 + c1 * nth 2 v 0;
                            a2 * nth 0 v 0 + b2 * nth 1 v 0 + c2 * nth 2 v 0].
Proof.
  intros W X Y Z WX WY WZ XY XZ YZ. split; [split; [reflexivity|cbn [nth]; lra]|].
  unfold rotated. cbn [nth].
  assert (E : forall p q r p' q' r', p = p' -> q = q' -> r = r' ->
    p * nth 0 v 0 + q * nth 1 v 0 + r * nth 2 v 0 = p' * nth 0 v 0 + q' * nth 1 v 0 + r' * nth 2 v 0) by (intros; subst; reflexivity).
  f_equal; [apply E; lra|f_equal; [apply E; lra|f_equal; apply E; lra]].
Qed.
(** One component is half the root s of D, the others are N / (2 s). *)
Lemma half_half s D : s * s = D -> 4 * (1 / 2 * s * (1 / 2 * s)) = D.
Proof. intros <-. field. Qed.
Lemma half_other s N : s <> 0 -> 4 * (1 / 2 * s * (N * (1 / 2 / s))) = N.
Proof. intros. field. assumption. Qed.
Lemma other_half s N : s <> 0 -> 4 * (N * (1 / 2 / s) * (1 / 2 * s)) = N.
Proof. intros. field. assumption. Qed.
Lemma other_other s D N M P : s <> 0 -> s * s = D -> N * M = D * P -> 4 * (N * (1 / 2 / s) * (M * (1 / 2 / s))) = P.
Proof.
  intros H E F. assert (G : 4 * (N * (1 / 2 / s) * (M * (1 / 2 / s))) = (N * M) / (s * s)) by (field; assumption).
  rewrite G, F, <- E. field. assumption.
Qed.
Ltac prods s D H HD :=
  first [ rewrite (half_half s D HD); lra | rewrite (half_other s _ H); lra | rewrite (other_half s _ H); lra
        | apply (other_other s D _ _ _ H HD); lra ].
Lemma root_sq D : 0 < D -> sqrt D <> 0 /\ sqrt D * sqrt D = D.
Proof. intros H. split; [apply Rgt_not_eq; now apply sqrt_lt_R0|apply sqrt_sqrt; lra]. Qed.

Lemma q_of_matrix_R (m : list (list R)) (v : list R) :
  rotation (coeff m 0 0) (coeff m 1 0) (coeff m 2 0) (coeff m 0 1) (coeff m 1 1) (coeff m 2 1) (coeff m 0 2) (coeff m 1 2) (coeff m 2 2) ->
  unit_q (q_of_matrix m) /\
  rotated (q_of_matrix m) v =
    [coeff m 0 0 * nth 0 v 0 + coeff m 0 1 * nth 1 v 0 + coeff m 0 2 * nth 2 v 0;
     coeff m 1 0 * nth 0 v 0 + coeff m 1 1 * nth 1 v 0 + coeff m 1 2 * nth 2 v 0;
     coeff m 2 0 * nth 0 v 0 + coeff m 2 1 * nth 1 v 0 + coeff m 2 2 * nth 2 v 0].
Proof.
  unfold q_of_matrix, nlit, n0, n1. rnum.
  destruct (Rltb_spec 0 (coeff m 0 0 + coeff m 1 1 + coeff m 2 2)) as [P|P].
  - generalize dependent (coeff m 0 0). generalize (coeff m 1 0) (coeff m 2 0) (coeff m 0 1) (coeff m 1 1) (coeff m 2 1) (coeff m 0 2) (coeff m 1 2) (coeff m 2 2).
    intros a1 a2 b0 b1 b2 c0 c1 c2 a0 P [].
    destruct (root_sq (a0 + b1 + c2 + 1)) as [H HD]; [lra|]. set (s := sqrt _) in *.
    apply products_rotate; prods s (a0 + b1 + c2 + 1) H HD.
  - destruct (Rltb_spec (coeff m 0 0) (coeff m 1 1)) as [Q|Q].
    + destruct (Rltb_spec (coeff m 1 1) (coeff m 2 2)) as [S|S]; cbn [Nat.add Nat.modulo Nat.divmod Nat.eqb snd Nat.sub].
      * generalize dependent (coeff m 0 0). generalize dependent (coeff m 1 1). generalize dependent (coeff m 2 2).
        generalize (coeff m 1 0) (coeff m 2 0) (coeff m 0 1) (coeff m 2 1) (coeff m 0 2) (coeff m 1 2).
        intros a1 a2 b0 b2 c0 c1 c2 b1 S a0 P Q [].
        destruct (root_sq (c2 - a0 - b1 + 1)) as [H HD]; [lra|]. set (s := sqrt _) in *.
        apply products_rotate; prods s (c2 - a0 - b1 + 1) H HD.
      * generalize dependent (coeff m 0 0). generalize dependent (coeff m 1 1). generalize dependent (coeff m 2 2).
        generalize (coeff m 1 0) (coeff m 2 0) (coeff m 0 1) (coeff m 2 1) (coeff m 0 2) (coeff m 1 2).
        intros a1 a2 b0 b2 c0 c1 c2 b1 S a0 P Q [].
        destruct (root_sq (b1 - c2 - a0 + 1)) as [H HD]; [lra|]. set (s := sqrt _) in *.
        apply products_rotate; prods s (b1 - c2 - a0 + 1) H HD.
    + destruct (Rltb_spec (coeff m 0 0) (coeff m 2 2)) as [S|S]; cbn [Nat.add Nat.modulo Nat.divmod Nat.eqb snd Nat.sub].
      * generalize dependent (coeff m 0 0). generalize dependent (coeff m 1 1). generalize dependent (coeff m 2 2).
        generalize (coeff m 1 0) (coeff m 2 0) (coeff m 0 1) (coeff m 2 1) (coeff m 0 2) (coeff m 1 2).
        intros a1 a2 b0 b2 c0 c1 c2 b1 a0 P Q S [].
        destruct (root_sq (c2 - a0 - b1 + 1)) as [H HD]; [lra|]. set (s := sqrt _) in *.
        apply products_rotate; prods s (c2 - a0 - b1 + 1) H HD.
      * generalize dependent (coeff m 0 0). generalize dependent (coeff m 1 1). generalize dependent (coeff m 2 2).
        generalize (coeff m 1 0) (coeff m 2 0) (coeff m 0 1) (coeff m 2 1) (coeff m 0 2) (coeff m 1 2).
        intros a1 a2 b0 b2 c0 c1 c2 b1 a0 P Q S [].
        destruct (root_sq (a0 - b1 - c2 + 1)) as [H HD]; [lra|]. set (s := sqrt _) in *.
        apply products_rotate; prods s (a0 - b1 - c2 + 1) H HD.
Qed.

(** The matrix is the sum of the eigenvalues times the squares of the eigenvectors. *)
Lemma spectral_row a0 a1 a2 b0 b1 b2 c0 c1 c2 s0 s1 s2 x y z :
  rotation a0 a1 a2 b0 b1 b2 c0 c1 c2 ->
  s0 * a0 + s1 * a1 + s2 * a2 = x -> s0 * b0 + s1 * b1 + s2 * b2 = y -> s0 * c0 + s1 * c1 + s2 * c2 = z ->
  s0 = x * a0 + y * b0 + z * c0 /\ s1 = x * a1 + y * b1 + z * c1 /\ s2 = x * a2 + y * b2 + z * c2.
Proof.
  intros Ro <- <- <-. destruct Ro as [_ _ _ _ _ _ _ _ _ _ _ _ _ _ _ R00 R11 R22 R01 R12 R02]. repeat split.
  - transitivity (s0 * (a0 * a0 + b0 * b0 + c0 * c0) + s1 * (a0 * a1 + b0 * b1 + c0 * c1) + s2 * (a0 * a2 + b0 * b2 + c0 * c2)); [|ring].
    rewrite R00, R01, R02. ring.
  - transitivity (s0 * (a0 * a1 + b0 * b1 + c0 * c1) + s1 * (a1 * a1 + b1 * b1 + c1 * c1) + s2 * (a1 * a2 + b1 * b2 + c1 * c2)); [|ring].
    rewrite R11, R01, R12. ring.
  - transitivity (s0 * (a0 * a2 + b0 * b2 + c0 * c2) + s1 * (a1 * a2 + b1 * b2 + c1 * c2) + s2 * (a2 * a2 + b2 * b2 + c2 * c2)); [|ring].
    rewrite R22, R12, R02. ring.
Qed.

(** Three numbers a (the coordinates of the point), the half axes s and a test of
    every direction. *)
Lemma axes_test s0 s1 s2 e0 e1 e2 :
  (forall u0 u1 u2, (u0 * e0 + u1 * e1 + u2 * e2) ^ 2 <= (s0 * u0) ^ 2 + (s1 * u1) ^ 2 + (s2 * u2) ^ 2) <->
  exists y0 y1 y2, y0 * y0 + y1 * y1 + y2 * y2 <= (1 / 2) ^ 2 /\ e0 = s0 * 2 * y0 /\ e1 = s1 * 2 * y1 /\ e2 = s2 * 2 * y2.
Proof.
  split.
  - intros H.
    assert (Z : forall s e, e ^ 2 <= s ^ 2 -> e = s * (e / s)).
    { intros s e L. destruct (Req_dec s 0) as [->|N]; [|field; assumption].
      assert (E : e = 0) by nra. rewrite E. lra. }
    assert (E0 : e0 = s0 * (e0 / s0)). { apply Z. specialize (H 1 0 0). nra. }
    assert (E1 : e1 = s1 * (e1 / s1)). { apply Z. specialize (H 0 1 0). nra. }
    assert (E2 : e2 = s2 * (e2 / s2)). { apply Z. specialize (H 0 0 1). nra. }
    assert (W : forall s e, e = s * (e / s) -> s * (e / s / s) = e / s).
    { intros s e E. destruct (Req_dec s 0) as [->|N]; [|field; assumption].
      assert (G : e = 0) by lra. rewrite G. unfold Rdiv. ring. }
    assert (W0 := W _ _ E0). assert (W1 := W _ _ E1). assert (W2 := W _ _ E2).
    specialize (H (e0 / s0 / s0) (e1 / s1 / s1) (e2 / s2 / s2)). rewrite W0, W1, W2 in H.
    assert (Q : e0 / s0 / s0 * e0 + e1 / s1 / s1 * e1 + e2 / s2 / s2 * e2 = (e0 / s0) ^ 2 + (e1 / s1) ^ 2 + (e2 / s2) ^ 2) by (unfold Rdiv; ring).
    rewrite Q in H. clear Q W W0 W1 W2 Z.
    exists (e0 / s0 / 2), (e1 / s1 / 2), (e2 / s2 / 2). set (z0 := e0 / s0) in *. set (z1 := e1 / s1) in *. set (z2 := e2 / s2) in *.
    repeat split; [|lra|lra|lra]. set (q := z0 ^ 2 + z1 ^ 2 + z2 ^ 2) in *.
    assert (L : q <= 1). { destruct (Rle_or_lt q 1) as [L|L]; [exact L|exfalso; nra]. }
    unfold q in L. lra.
  - intros (y0 & y1 & y2 & Y & -> & -> & ->) u0 u1 u2.
    set (p0 := s0 * u0). set (p1 := s1 * u1). set (p2 := s2 * u2).
    replace (u0 * (s0 * 2 * y0) + u1 * (s1 * 2 * y1) + u2 * (s2 * 2 * y2)) with (2 * (p0 * y0 + p1 * y1 + p2 * y2)) by (unfold p0, p1, p2; ring).
    assert (C : (p0 * y0 + p1 * y1 + p2 * y2) ^ 2 <= (p0 ^ 2 + p1 ^ 2 + p2 ^ 2) * (y0 * y0 + y1 * y1 + y2 * y2)).
    { assert (G : (p0 ^ 2 + p1 ^ 2 + p2 ^ 2) * (y0 * y0 + y1 * y1 + y2 * y2) - (p0 * y0 + p1 * y1 + p2 * y2) ^ 2 =
        (p0 * y1 - p1 * y0) ^ 2 + (p0 * y2 - p2 * y0) ^ 2 + (p1 * y2 - p2 * y1) ^ 2) by ring.
      assert (A := pow2_ge_0 (p0 * y1 - p1 * y0)). assert (B := pow2_ge_0 (p0 * y2 - p2 * y0)). assert (D := pow2_ge_0 (p1 * y2 - p2 * y1)). lra. }
    assert (P : 0 <= p0 ^ 2 + p1 ^ 2 + p2 ^ 2). { assert (A := pow2_ge_0 p0). assert (B := pow2_ge_0 p1). assert (D := pow2_ge_0 p2). lra. }
    assert (M : (p0 ^ 2 + p1 ^ 2 + p2 ^ 2) * (y0 * y0 + y1 * y1 + y2 * y2) <= (p0 ^ 2 + p1 ^ 2 + p2 ^ 2) * (1 / 2) ^ 2) by (apply Rmult_le_compat_l; assumption).
    replace ((2 * (p0 * y0 + p1 * y1 + p2 * y2)) ^ 2) with (4 * (p0 * y0 + p1 * y1 + p2 * y2) ^ 2) by ring. lra.
Qed.

Lemma changed_shape cov : shape3 (changed_covariance cov).
Proof. split; [reflexivity|]. unfold changed_covariance. cbn [map]. repeat constructor. Qed.
Lemma changed_symmetric cov : symmetric3 (changed_covariance cov).
Proof.
  intros i j I J. unfold changed_covariance. cbn [map].
  destruct i as [|[|[|i]]]; [| | |lia]; (destruct j as [|[|[|j]]]; [| | |lia]); cbn [nth]; try reflexivity; rnum; unfold nlit; rnum; lra.
Qed.
Lemma changed_variance cov w : variance (changed_covariance cov) w = variance cov w.
Proof.
  unfold variance, dot3, mat3, plus3, times3, changed_covariance. cbn [map nth]. unfold coeff, vx, nlit, n0. rnum. cbn [nth]. field.
Qed.

Lemma same_direction a0 a1 a2 b0 b1 b2 c0 c1 c2 d0 d1 d2 :
  rotation a0 a1 a2 b0 b1 b2 c0 c1 c2 ->
  a0 * d0 + a1 * d1 + a2 * d2 = 0 -> b0 * d0 + b1 * d1 + b2 * d2 = 0 -> d0 * d0 + d1 * d1 + d2 * d2 = 1 ->
  exists f, c0 = f * d0 /\ c1 = f * d1 /\ c2 = f * d2.
Proof.
  intros Ro A B D. assert (Ro' := Ro).
  destruct (spectral_row _ _ _ _ _ _ _ _ _ d0 d1 d2 0 0 (d0 * c0 + d1 * c1 + d2 * c2) Ro) as (E0 & E1 & E2); [lra|lra|reflexivity|].
  destruct Ro' as [_ _ CC _ _ _ _ _ _ _ _ _ _ _ _ _ _ _ _ _ _].
  set (f := d0 * c0 + d1 * c1 + d2 * c2) in *. exists f.
  assert (F : f * f = 1).
  { rewrite E0, E1, E2 in D. transitivity (f * f * (c0 * c0 + c1 * c1 + c2 * c2)); [rewrite CC; ring|]. rewrite <- D. ring. }
  clearbody f. subst d0 d1 d2. repeat split; [transitivity (f * f * c0)|transitivity (f * f * c1)|transitivity (f * f * c2)]; try (rewrite F; ring); ring.
Qed.

(** The columns the function uses and the eigenvalues diagonalise the variance. *)
Lemma diagonal (solver : list (list R) -> list R * list (list R)) (cov : list (list R)) : solves solver cov ->
  let r := solver (changed_covariance cov) in
  let a := nth 0 (snd r) [] in let b := nth 1 (snd r) [] in let c := v3_cross a b in
  rotation (vx a 0) (vx a 1) (vx a 2) (vx b 0) (vx b 1) (vx b 2) (vx c 0) (vx c 1) (vx c 2) /\
  forall w, variance cov w = nth 0 (fst r) 0 * (dot3 a w) ^ 2 + nth 1 (fst r) 0 * (dot3 b w) ^ 2 + nth 2 (fst r) 0 * (dot3 c w) ^ 2.
Proof.
  intros So. destruct (So _ (changed_shape cov) (changed_symmetric cov) (changed_variance cov)) as [Or Ei].
  assert (Sy := changed_symmetric cov).
  intros r a b c. fold r in Or, Ei.
  assert (Ro : rotation (vx a 0) (vx a 1) (vx a 2) (vx b 0) (vx b 1) (vx b 2) (vx c 0) (vx c 1) (vx c 2)).
  { apply rotation_intro; try reflexivity.
    - apply (Or 0%nat 0%nat); lia.
    - apply (Or 1%nat 1%nat); lia.
    - apply (Or 0%nat 1%nat); lia. }
  split; [exact Ro|]. intros w. rewrite <- changed_variance.
  set (d := nth 2 (snd r) []) in *.
  destruct (same_direction _ _ _ _ _ _ _ _ _ (nth 0 d 0) (nth 1 d 0) (nth 2 d 0) Ro) as (f & F0 & F1 & F2).
  { apply (Or 0%nat 2%nat); lia. }
  { apply (Or 1%nat 2%nat); lia. }
  { apply (Or 2%nat 2%nat); lia. }
  assert (Ea := Ei 0%nat ltac:(lia)). assert (Eb := Ei 1%nat ltac:(lia)). assert (Ed := Ei 2%nat ltac:(lia)).
  fold a in Ea. fold b in Eb. fold d in Ed. clear Ei Or So.
  set (S := changed_covariance cov) in *. clearbody S.
  assert (S01 := Sy 0%nat 1%nat ltac:(lia) ltac:(lia)). assert (S02 := Sy 0%nat 2%nat ltac:(lia) ltac:(lia)). assert (S12 := Sy 1%nat 2%nat ltac:(lia) ltac:(lia)).
  unfold mat3, plus3, times3 in Ea, Eb, Ed. cbn [nth] in Ea, Eb, Ed. injection Ea as Ea0 Ea1 Ea2. injection Eb as Eb0 Eb1 Eb2. injection Ed as Ed0 Ed1 Ed2.
  unfold variance, dot3, mat3, plus3, times3. cbn [nth]. clearbody c. clear Sy.
  unfold vx in *. unfold n0 in *. rnum.
  clearbody a b d. set (l0 := nth 0 (fst r) 0) in *. set (l1 := nth 1 (fst r) 0) in *. set (l2 := nth 2 (fst r) 0) in *. clearbody l0 l1 l2.
  set (s00 := nth 0 (nth 0 S []) 0) in *. set (s11 := nth 1 (nth 1 S []) 0) in *. set (s22 := nth 2 (nth 2 S []) 0) in *.
  set (s01 := nth 0 (nth 1 S []) 0) in *. set (s02 := nth 0 (nth 2 S []) 0) in *. set (s12 := nth 1 (nth 2 S []) 0) in *.
  set (s10 := nth 1 (nth 0 S []) 0) in *. set (s20 := nth 2 (nth 0 S []) 0) in *. set (s21 := nth 2 (nth 1 S []) 0) in *.
  clearbody s00 s01 s02 s10 s11 s12 s20 s21 s22.
  set (a0 := nth 0 a 0) in *. set (a1 := nth 1 a 0) in *. set (a2 := nth 2 a 0) in *.
  set (b0 := nth 0 b 0) in *. set (b1 := nth 1 b 0) in *. set (b2 := nth 2 b 0) in *.
  set (c0 := nth 0 c 0) in *. set (c1 := nth 1 c 0) in *. set (c2 := nth 2 c 0) in *.
  set (d0 := nth 0 d 0) in *. set (d1 := nth 1 d 0) in *. set (d2 := nth 2 d 0) in *.
  clearbody a0 a1 a2 b0 b1 b2 c0 c1 c2 d0 d1 d2.
  assert (Ec0 : s00 * c0 + s01 * c1 + s02 * c2 = l2 * c0). { rewrite F0, F1, F2. transitivity (f * (d0 * s00 + d1 * s01 + d2 * s02)); [ring|]. rewrite Ed0. ring. }
  assert (Ec1 : s10 * c0 + s11 * c1 + s12 * c2 = l2 * c1). { rewrite F0, F1, F2. transitivity (f * (d0 * s10 + d1 * s11 + d2 * s12)); [ring|]. rewrite Ed1. ring. }
  assert (Ec2 : s20 * c0 + s21 * c1 + s22 * c2 = l2 * c2). { rewrite F0, F1, F2. transitivity (f * (d0 * s20 + d1 * s21 + d2 * s22)); [ring|]. rewrite Ed2. ring. }
  destruct (spectral_row _ _ _ _ _ _ _ _ _ s00 s01 s02 (l0 * a0) (l1 * b0) (l2 * c0) Ro) as (U0 & U1 & U2); [lra|lra|lra|].
  destruct (spectral_row _ _ _ _ _ _ _ _ _ s10 s11 s12 (l0 * a1) (l1 * b1) (l2 * c1) Ro) as (V0 & V1 & V2); [lra|lra|lra|].
  destruct (spectral_row _ _ _ _ _ _ _ _ _ s20 s21 s22 (l0 * a2) (l1 * b2) (l2 * c2) Ro) as (W0 & W1 & W2); [lra|lra|lra|].
  clear - U0 U1 U2 V0 V1 V2 W0 W1 W2. rewrite U0, U1, U2, V0, V1, V2, W0, W1, W2. ring.
Qed.

Definition covariance (A : list (list R)) : Prop := forall w, length w = 3%nat -> 0 <= variance A w.

Lemma eigen_nonneg (solver : list (list R) -> list R * list (list R)) cov k : solves solver cov -> covariance cov -> (k < 3)%nat ->
  0 <= nth k (fst (solver (changed_covariance cov))) 0.
Proof.
  intros So Co K. destruct (So _ (changed_shape cov) (changed_symmetric cov) (changed_variance cov)) as [Or Ei].
  set (r := solver (changed_covariance cov)) in *. specialize (Ei k K). specialize (Or k k K K). rewrite Nat.eqb_refl in Or.
  set (v := nth k (snd r) []) in *. set (u := [nth 0 v 0; nth 1 v 0; nth 2 v 0]).
  assert (H : variance cov u = nth k (fst r) 0); [|rewrite <- H; apply Co; reflexivity].
  rewrite <- changed_variance. unfold variance.
  assert (M : mat3 (changed_covariance cov) u = mat3 (changed_covariance cov) v) by reflexivity.
  rewrite M, Ei. unfold dot3, times3, u. cbn [nth]. unfold dot3 in Or.
  transitivity (nth k (fst r) 0 * (nth 0 v 0 * nth 0 v 0 + nth 1 v 0 * nth 1 v 0 + nth 2 v 0 * nth 2 v 0)); [ring|]. rewrite Or. ring.
Qed.

Theorem C96_marker (solver : list (list R) -> list R * list (list R)) (mu : list R) (cov : list (list R)) (color : list R) (n : R) (m : marker R) :
  length mu = 3%nat -> 0 <= n -> covariance cov -> solves solver cov ->
  let m' := drawCovariance3D solver mu cov color n m in
  mk_position m' = mu /\ unit_q (mk_orientation m') /\ length (mk_scale m') = 3%nat /\ (forall k, (k < 3)%nat -> 0 <= nth k (mk_scale m') 0) /\
  mk_type m' = 2%Z /\ mk_color m' = color /\ mk_action m' = 0%Z /\
  mk_frame m' = mk_frame m /\ mk_ns m' = mk_ns m /\ mk_id m' = mk_id m /\ mk_lifetime m' = mk_lifetime m /\ mk_locked m' = mk_locked m /\
  mk_points m' = mk_points m /\ mk_colors m' = mk_colors m /\ mk_mesh m' = mk_mesh m.
Proof.
  intros Lm Pn Co So m'. destruct (diagonal solver cov So) as [Ro _]. unfold m', drawCovariance3D.
  destruct (solver (changed_covariance cov)) as [ev V0] eqn:E. cbn [fst snd] in Ro.
  cbn -[point_msg v3_scale q_of_matrix v3_cross nmul nsqrt]. split.
  { destruct mu as [|x [|y [|z [|? ?]]]]; try discriminate. reflexivity. }
  split. { apply (q_of_matrix_R _ [0; 0; 0]). exact Ro. }
  split; [reflexivity|]. split; [|repeat split].
  intros k K. assert (S : forall x, 0 <= sqrt x * n * 2). { intros x. assert (H := sqrt_pos x). assert (G := Rmult_le_pos _ _ H Pn). lra. }
  destruct k as [|[|[|k]]]; [| | |lia]; unfold v3_scale, point_msg, vx; cbn [map nth]; rnum; apply S.
Qed.

Theorem C96_ellipsoid (solver : list (list R) -> list R * list (list R)) (mu : list R) (cov : list (list R)) (color : list R) (n : R) (m : marker R) :
  length mu = 3%nat -> 0 <= n -> covariance cov -> solves solver cov ->
  forall p, shown_ellipsoid (drawCovariance3D solver mu cov color n m) p <-> within_sigmas mu cov n p.
Proof.
  intros Lm Pn Co So p. destruct (diagonal solver cov So) as [Ro Di].
  assert (N0 := eigen_nonneg solver cov 0 So Co ltac:(lia)). assert (N1 := eigen_nonneg solver cov 1 So Co ltac:(lia)).
  assert (N2 := eigen_nonneg solver cov 2 So Co ltac:(lia)).
  unfold drawCovariance3D. destruct (solver (changed_covariance cov)) as [ev V0] eqn:E. cbn [fst snd] in Ro, Di, N0, N1, N2.
  set (a := nth 0 V0 []) in *. set (b := nth 1 V0 []) in *. set (c := v3_cross a b) in *.
  set (l0 := nth 0 ev 0) in *. set (l1 := nth 1 ev 0) in *. set (l2 := nth 2 ev 0) in *.
  set (s0 := n * sqrt l0). set (s1 := n * sqrt l1). set (s2 := n * sqrt l2).
  assert (Va : forall w, n ^ 2 * variance cov w = (s0 * dot3 a w) ^ 2 + (s1 * dot3 b w) ^ 2 + (s2 * dot3 c w) ^ 2).
  { intros w. rewrite Di. unfold s0, s1, s2. rewrite !Rpow_mult_distr. rewrite !pow2_sqrt by assumption. ring. }
  assert (Dr : shown_ellipsoid (let V := [a; b; c] in
     let sigma := v3_scale (map nsqrt (point_msg ev)) n in
     let m1 := set_pose m (point_msg mu) (q_of_matrix V) in
     let m2 := set_scale m1 (point_msg (v3_scale sigma (nofZ 2))) in
     set_action (set_color (set_type m2 kSPHERE) color) kADD) p <->
    exists y0 y1 y2, y0 * y0 + y1 * y1 + y2 * y2 <= (1 / 2) ^ 2 /\
      p = plus3 (plus3 (plus3 (times3 (s0 * 2 * y0) a) (times3 (s1 * 2 * y1) b)) (times3 (s2 * 2 * y2) c)) mu).
  { unfold shown_ellipsoid. cbn zeta. cbn [mk_type mk_position mk_orientation mk_scale set_action set_color set_type set_scale set_pose].
    assert (Q : forall y0 y1 y2, motion (point_msg mu) (q_of_matrix [a; b; c])
       [nth 0 (point_msg (v3_scale (v3_scale (map nsqrt (point_msg ev)) n) (nofZ 2))) 0 * y0;
        nth 1 (point_msg (v3_scale (v3_scale (map nsqrt (point_msg ev)) n) (nofZ 2))) 0 * y1;
        nth 2 (point_msg (v3_scale (v3_scale (map nsqrt (point_msg ev)) n) (nofZ 2))) 0 * y2] =
       plus3 (plus3 (plus3 (times3 (s0 * 2 * y0) a) (times3 (s1 * 2 * y1) b)) (times3 (s2 * 2 * y2) c)) mu).
    { intros y0 y1 y2. unfold motion. destruct (q_of_matrix_R [a; b; c]
       [nth 0 (point_msg (v3_scale (v3_scale (map nsqrt (point_msg ev)) n) (nofZ 2))) 0 * y0;
        nth 1 (point_msg (v3_scale (v3_scale (map nsqrt (point_msg ev)) n) (nofZ 2))) 0 * y1;
        nth 2 (point_msg (v3_scale (v3_scale (map nsqrt (point_msg ev)) n) (nofZ 2))) 0 * y2] Ro) as [_ ->].
      unfold plus3, times3, point_msg, v3_scale, coeff, vx. cbn [nth map]. unfold n0. rnum.
      fold l0 l1 l2. unfold s0, s1, s2. repeat (f_equal; try ring). }
    split.
    - intros (_ & y & _ & Y & ->). exists (nth 0 y 0), (nth 1 y 0), (nth 2 y 0). split; [exact Y|apply Q].
    - intros (y0 & y1 & y2 & Y & ->). split; [reflexivity|]. exists [y0; y1; y2]. split; [reflexivity|]. split; [exact Y|]. cbn [nth]. now rewrite Q. }
  rewrite Dr. clear Dr. unfold within_sigmas.
  set (e0 := dot3 a (minus3 p mu)). set (e1 := dot3 b (minus3 p mu)). set (e2 := dot3 c (minus3 p mu)).
  (* coordinates with respect to the columns *)
  assert (Fr : forall x, dot3 a x = dot3 a x /\ nth 0 x 0 = dot3 a x * vx a 0 + dot3 b x * vx b 0 + dot3 c x * vx c 0 /\
     nth 1 x 0 = dot3 a x * vx a 1 + dot3 b x * vx b 1 + dot3 c x * vx c 1 /\ nth 2 x 0 = dot3 a x * vx a 2 + dot3 b x * vx b 2 + dot3 c x * vx c 2).
  { intros x. split; [reflexivity|]. apply spectral_row; [exact Ro| | |]; unfold dot3, vx, n0; rnum; ring. }
  split.
  - intros (y0 & y1 & y2 & Y & P). split; [rewrite P; reflexivity|]. intros w Lw. rewrite Va.
    assert (T := proj2 (axes_test s0 s1 s2 (s0 * 2 * y0) (s1 * 2 * y1) (s2 * 2 * y2)) ltac:(exists y0, y1, y2; auto)).
    specialize (T (dot3 a w) (dot3 b w) (dot3 c w)).
    replace (dot3 w (minus3 p mu)) with (dot3 a w * (s0 * 2 * y0) + dot3 b w * (s1 * 2 * y1) + dot3 c w * (s2 * 2 * y2)); [exact T|].
    rewrite P. unfold dot3, minus3, plus3, times3. cbn [nth]. ring.
  - intros (Lp & H).
    destruct (proj1 (axes_test s0 s1 s2 e0 e1 e2)) as (y0 & y1 & y2 & Y & E0 & E1 & E2).
    { intros u0 u1 u2. set (w := plus3 (plus3 (times3 u0 a) (times3 u1 b)) (times3 u2 c)).
      specialize (H w eq_refl). rewrite Va in H.
      assert (W0 : dot3 a w = u0 /\ dot3 b w = u1 /\ dot3 c w = u2).
      { destruct Ro as [AA BB CC AB BC AC _ _ _ _ _ _ _ _ _ _ _ _ _ _ _]. unfold vx, n0 in AA, BB, CC, AB, BC, AC. rnum.
        unfold w, dot3, plus3, times3. cbn [nth]. repeat split.
        - transitivity (u0 * (nth 0 a 0 * nth 0 a 0 + nth 1 a 0 * nth 1 a 0 + nth 2 a 0 * nth 2 a 0) +
            u1 * (nth 0 a 0 * nth 0 b 0 + nth 1 a 0 * nth 1 b 0 + nth 2 a 0 * nth 2 b 0) +
            u2 * (nth 0 a 0 * nth 0 c 0 + nth 1 a 0 * nth 1 c 0 + nth 2 a 0 * nth 2 c 0)); [ring|]. rewrite AA, AB, AC. ring.
        - transitivity (u0 * (nth 0 a 0 * nth 0 b 0 + nth 1 a 0 * nth 1 b 0 + nth 2 a 0 * nth 2 b 0) +
            u1 * (nth 0 b 0 * nth 0 b 0 + nth 1 b 0 * nth 1 b 0 + nth 2 b 0 * nth 2 b 0) +
            u2 * (nth 0 b 0 * nth 0 c 0 + nth 1 b 0 * nth 1 c 0 + nth 2 b 0 * nth 2 c 0)); [ring|]. rewrite BB, AB, BC. ring.
        - transitivity (u0 * (nth 0 a 0 * nth 0 c 0 + nth 1 a 0 * nth 1 c 0 + nth 2 a 0 * nth 2 c 0) +
            u1 * (nth 0 b 0 * nth 0 c 0 + nth 1 b 0 * nth 1 c 0 + nth 2 b 0 * nth 2 c 0) +
            u2 * (nth 0 c 0 * nth 0 c 0 + nth 1 c 0 * nth 1 c 0 + nth 2 c 0 * nth 2 c 0)); [ring|]. rewrite CC, AC, BC. ring. }
      destruct W0 as (W0 & W1 & W2). rewrite W0, W1, W2 in H.
      replace (u0 * e0 + u1 * e1 + u2 * e2) with (dot3 w (minus3 p mu)); [exact H|].
      unfold w, e0, e1, e2, dot3, plus3, times3. cbn [nth]. ring. }
    exists y0, y1, y2. split; [exact Y|]. rewrite <- E0, <- E1, <- E2.
    destruct (Fr (minus3 p mu)) as (_ & F0 & F1 & F2). fold e0 e1 e2 in F0, F1, F2. unfold minus3 in F0, F1, F2. cbn [nth] in F0, F1, F2.
    unfold vx, n0 in F0, F1, F2. rnum.
    destruct p as [|p0 [|p1 [|p2 [|? ?]]]]; try discriminate. cbn [nth] in F0, F1, F2.
    unfold plus3, times3. cbn [nth]. clearbody e0 e1 e2.
    f_equal; [lra|f_equal; [lra|f_equal; lra]].
Qed.
Print Assumptions C96_ellipsoid.
Print Assumptions C96_marker.

(** A matrix that is not symmetric, its eigenvalues 1, 4, 9 and eigenvectors that form a
    left-handed system. *)
Definition ex_cov : list (list R) := [[73 / 25; -61 / 25; 0]; [-11 / 25; 52 / 25; 0]; [0; 0; 9]].
Definition ex_solver (A : list (list R)) : list R * list (list R) :=
  ([1; 4; 9], [[3 / 5; 4 / 5; 0]; [-4 / 5; 3 / 5; 0]; [0; 0; -1]]).
Example C96_example : length [1; 2; 3] = 3%nat /\ 0 <= 2 /\ covariance ex_cov /\ solves ex_solver ex_cov /\
  within_sigmas [1; 2; 3] ex_cov 2 [1; 2; 9] /\ ~ within_sigmas [1; 2; 3] ex_cov 2 [1; 2; 10].
Proof.
  assert (V : forall w, variance ex_cov w = (3 / 5 * nth 0 w 0 + 4 / 5 * nth 1 w 0) ^ 2 + 4 * (- 4 / 5 * nth 0 w 0 + 3 / 5 * nth 1 w 0) ^ 2 + 9 * nth 2 w 0 ^ 2).
  { intros w. unfold variance, dot3, mat3, plus3, times3, ex_cov. cbn [nth]. field. }
  split; [reflexivity|]. split; [lra|]. split.
  { intros w _. rewrite V. assert (A := pow2_ge_0 (3 / 5 * nth 0 w 0 + 4 / 5 * nth 1 w 0)).
    assert (B := pow2_ge_0 (- 4 / 5 * nth 0 w 0 + 3 / 5 * nth 1 w 0)). assert (C := pow2_ge_0 (nth 2 w 0)). lra. }
  split.
  { intros A (L & F) Sy E. unfold ex_solver. cbn [fst snd]. split.
    - intros i j I J. destruct i as [|[|[|i]]]; [| | |lia]; (destruct j as [|[|[|j]]]; [| | |lia]); unfold dot3; cbn [nth Nat.eqb]; lra.
    - assert (S01 := Sy 0%nat 1%nat ltac:(lia) ltac:(lia)). assert (S02 := Sy 0%nat 2%nat ltac:(lia) ltac:(lia)). assert (S12 := Sy 1%nat 2%nat ltac:(lia) ltac:(lia)).
      assert (E0 := E [1; 0; 0]). assert (E1 := E [0; 1; 0]). assert (E2 := E [0; 0; 1]).
      assert (E3 := E [1; 1; 0]). assert (E4 := E [1; 0; 1]). assert (E5 := E [0; 1; 1]). clear E.
      rewrite V in E0, E1, E2, E3, E4, E5. unfold variance, dot3, mat3, plus3, times3 in *. cbn [nth] in *.
      intros k K. destruct k as [|[|[|k]]]; [| | |lia]; cbn [nth]; (f_equal; [lra|f_equal; [lra|f_equal; lra]]). }
  split.
  - split; [reflexivity|]. intros w _. rewrite V. unfold dot3, minus3. cbn [nth].
    assert (A := pow2_ge_0 (3 / 5 * nth 0 w 0 + 4 / 5 * nth 1 w 0)). assert (B := pow2_ge_0 (- 4 / 5 * nth 0 w 0 + 3 / 5 * nth 1 w 0)). nra.
  - intros (_ & H). specialize (H [0; 0; 1] eq_refl). rewrite V in H. unfold dot3, minus3 in H. cbn [nth] in H. lra.
Qed.

(** In doubles: an eigenvalue below zero (a covariance of rank two is enough, its smallest computed
    eigenvalue may be negative by rounding) gives a marker whose diameter is not a number. *)
Lemma sqrt_negative (x : b64) : @nltb b64 B64_ops x (@n0 b64 B64_ops) = true -> @nsqrt b64 B64_ops x = B754_nan.
Proof. destruct x as [s|[|]| |[|] mm e He]; try (intros; discriminate); try reflexivity; destruct s; intros; discriminate. Qed.
Theorem C96_negative_eigenvalue_nan (solver : list (list b64) -> list b64 * list (list b64)) (mu : list b64) (cov : list (list b64)) (color : list b64)
    (n : b64) (m : marker b64) (k : nat) : (k < 3)%nat ->
  @nltb b64 B64_ops (nth k (fst (solver (@changed_covariance b64 B64_ops cov))) (@n0 b64 B64_ops)) (@n0 b64 B64_ops) = true ->
  nth k (mk_scale (@drawCovariance3D b64 B64_ops solver mu cov color n m)) (@n0 b64 B64_ops) = B754_nan.
Proof.
  intros K H. unfold drawCovariance3D. destruct (solver _) as [ev V0]. cbn [fst] in H.
  destruct k as [|[|[|k]]]; [| | |lia]; cbn [mk_scale set_action set_color set_type set_scale];
    unfold v3_scale, point_msg, vx; cbn [map nth]; rewrite (sqrt_negative _ H); destruct n; reflexivity.
Qed.
Print Assumptions C96_negative_eigenvalue_nan.
Example C96_negative_eigenvalue_nan_example :
  @nltb b64 B64_ops (nth 0 [@nopp b64 B64_ops (@nlit b64 B64_ops 1 (2 ^ 60))] (@n0 b64 B64_ops)) (@n0 b64 B64_ops) = true.
Proof. vm_compute. reflexivity. Qed.
