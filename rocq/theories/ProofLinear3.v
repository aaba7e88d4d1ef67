(** computeCost is the integral of the squared derivative (real instance). *)
From Coq Require Import ZArith Reals List Bool Lia Lra Arith Sorted.
From Coquelicot Require Import Coquelicot.
From Verif Require Import Num RSum SpecPoly ModelPolynomial ModelSegment ModelVertex ModelTrajectory ModelLinear
  SpecSegment SpecVertex SpecLinear ProofPolynomial ProofPolynomial2 ProofSegment ProofSegment2 ProofVertex ProofTrajectory3
  ProofMatrix ProofHermite ProofReorder ProofLinear ProofLinear2.
Import ListNotations.
Open Scope R_scope.

(** Bilinear form of a matrix given by its entries. *)
Definition bil (n : nat) (A : nat -> nat -> R) (x y : nat -> R) : R :=
  rsum n (fun a => rsum n (fun b => x a * A a b * y b)).

(** Exact entries of the cost matrix (twice the integrals of products). *)
Definition cost_entry (r : nat) (t : R) (i j : nat) : R :=
  if Nat.ltb i r || Nat.ltb j r then 0
  else bc r i * bc r j * t ^ (i + j - 2 * r + 1) * 2 / INR (i + j - 2 * r + 1).

Lemma cost_matrix_ok h (r : Z) t Q : cost_matrix h r t = Ok Q ->
  (0 <= r < Z.of_nat (2 * h))%Z /\ (2 * h <= 22)%nat /\
  forall i j, (i < 2 * h)%nat -> (j < 2 * h)%nat -> mget Q i j = cost_entry (Z.to_nat r) t i j.
Proof.
  unfold cost_matrix, opt_N. destruct (Z.leb_spec (Z.of_nat (2 * h)) r) as [|H1]; [discriminate|].
  destruct (Z.ltb_spec r 0) as [|H2]; cbn [orb]; [discriminate|].
  destruct (Nat.ltb_spec kMaxConvolutionSize (2 * h)) as [|H3]; [discriminate|].
  intros E. apply Ok_inj in E. subst Q. split; [lia|]. split; [exact H3|].
  intros i j Hi Hj. rewrite mget_mk by assumption. unfold cost_entry.
  destruct (_ || _); [reflexivity|]. rewrite npow_pow. rnum. rewrite <- INR_IZR_INZ. reflexivity.
Qed.

Lemma is_derive_scaled_pow k n t : is_derive (fun t => k * t ^ (S n)) t (k * (INR (S n) * t ^ n)).
Proof.
  apply (is_derive_scal (fun t => t ^ (S n))). apply is_derive_Reals. exact (derivable_pt_lim_pow t (S n)).
Qed.

(** Integral of the product of two derivatives. *)
Lemma is_RInt_dpoly2 (c e : list R) r n T : length c = n -> length e = n ->
  is_RInt (fun t => dpoly c r t * dpoly e r t) 0 T
    (/ 2 * bil n (cost_entry r T) (fun i => nth i c 0) (fun j => nth j e 0)).
Proof.
  intros Lc Le.
  set (F := fun t => / 2 * bil n (cost_entry r t) (fun i => nth i c 0) (fun j => nth j e 0)).
  assert (F0 : F 0 = 0).
  { unfold F, bil. rewrite rsum_zero; [ring|]. intros i Hi. apply rsum_zero. intros j Hj.
    unfold cost_entry. destruct (_ || _); [ring|]. rewrite pow_i by lia. unfold Rdiv. ring. }
  replace (/ 2 * bil n (cost_entry r T) (fun i => nth i c 0) (fun j => nth j e 0)) with (minus (F T) (F 0)).
  2:{ unfold minus, plus, opp. cbn. rewrite F0. unfold F. ring. }
  apply (is_RInt_derive F (fun t => dpoly c r t * dpoly e r t)).
  - intros t _.
    replace (dpoly c r t * dpoly e r t)
      with (/ 2 * rsum n (fun i => rsum n (fun j => 2 * (bc r i * nth i c 0 * t ^ (i - r)) * (bc r j * nth j e 0 * t ^ (j - r))))).
    2:{ unfold dpoly. rewrite Lc, Le.
        rewrite (rsum_ext n _ (fun i => 2 * (bc r i * nth i c 0 * t ^ (i - r)) * rsum n (fun j => bc r j * nth j e 0 * t ^ (j - r))))
          by (intros; rewrite <- rsum_scal; reflexivity).
        rewrite rsum_scal_r. rewrite (rsum_scal n 2 (fun i => bc r i * nth i c 0 * t ^ (i - r))). field. }
    apply (is_derive_scal (fun t => bil n (cost_entry r t) (fun i => nth i c 0) (fun j => nth j e 0))).
    unfold bil. apply is_derive_rsum. intros i Hi. apply is_derive_rsum. intros j Hj.
    unfold cost_entry. destruct (Nat.ltb_spec i r) as [Hir|Hir]; cbn [orb].
    { apply (is_derive_ext (fun _ => 0)). { intros; cbn; ring. }
      rewrite (bc_lt r i) by exact Hir.
      replace (2 * (0 * nth i c 0 * t ^ (i - r)) * (bc r j * nth j e 0 * t ^ (j - r))) with 0 by ring.
      apply (is_derive_const 0 t). }
    destruct (Nat.ltb_spec j r) as [Hjr|Hjr].
    { apply (is_derive_ext (fun _ => 0)). { intros; cbn; ring. }
      rewrite (bc_lt r j) by exact Hjr.
      replace (2 * (bc r i * nth i c 0 * t ^ (i - r)) * (0 * nth j e 0 * t ^ (j - r))) with 0 by ring.
      apply (is_derive_const 0 t). }
    replace (i + j - 2 * r + 1)%nat with (S ((i - r) + (j - r)))%nat by lia.
    set (n' := ((i - r) + (j - r))%nat).
    assert (Hn : INR (S n') <> 0) by (apply not_0_INR; lia).
    apply (is_derive_ext (fun t => (nth i c 0 * bc r i * bc r j * 2 * nth j e 0 / INR (S n')) * t ^ (S n'))).
    { intros s. match goal with |- ?a = ?b => change (@eq R a b) end. field. exact Hn. }
    replace (2 * (bc r i * nth i c 0 * t ^ (i - r)) * (bc r j * nth j e 0 * t ^ (j - r)))
      with ((nth i c 0 * bc r i * bc r j * 2 * nth j e 0 / INR (S n')) * (INR (S n') * t ^ n')).
    2:{ unfold n' at 3. rewrite pow_add. field. exact Hn. }
    apply is_derive_scaled_pow.
  - intros t _. apply (continuous_mult (dpoly c r) (dpoly e r)).
    + apply (ex_derive_continuous (dpoly c r)). eexists. apply is_derive_dpoly.
    + apply (ex_derive_continuous (dpoly e r)). eexists. apply is_derive_dpoly.
Qed.

Lemma bil_integral (c e : list R) r n T : length c = n -> length e = n ->
  bil n (cost_entry r T) (fun i => nth i c 0) (fun j => nth j e 0) = 2 * RInt (fun t => dpoly c r t * dpoly e r t) 0 T.
Proof. intros Lc Le. rewrite (is_RInt_unique _ _ _ _ (is_RInt_dpoly2 c e r n T Lc Le)). field. Qed.

Lemma bil_cost_sym n r T x y : bil n (cost_entry r T) x y = bil n (cost_entry r T) y x.
Proof.
  unfold bil. rewrite rsum_swap. apply rsum_ext. intros i Hi. apply rsum_ext. intros j Hj.
  unfold cost_entry. rewrite (orb_comm (Nat.ltb j r)). destruct (_ || _); [ring|].
  replace (j + i)%nat with (i + j)%nat by lia. unfold Rdiv. ring.
Qed.

Lemma bil_cost_nonneg n r T x : 0 <= T -> 0 <= bil n (cost_entry r T) x x.
Proof.
  intros HT. set (c := map x (seq 0 n)).
  assert (Lc : length c = n) by (unfold c; rewrite map_length, seq_length; reflexivity).
  assert (E : bil n (cost_entry r T) x x = bil n (cost_entry r T) (fun i => nth i c 0) (fun j => nth j c 0)).
  { unfold bil. apply rsum_ext. intros i Hi. apply rsum_ext. intros j Hj. unfold c.
    rewrite !nth_map_seq by assumption. reflexivity. }
  rewrite E, bil_integral by exact Lc.
  assert (0 <= RInt (fun t => dpoly c r t * dpoly c r t) 0 T); [|lra].
  apply RInt_ge_0; [exact HT| |].
  - eexists. apply (is_RInt_dpoly2 c c r n T Lc Lc).
  - intros t _. apply Rle_0_sqr.
Qed.

Lemma quadratic_form_ok h Q (c : list R) : length c = (2 * h)%nat ->
  quadratic_form h Q c = Ok (bil (2 * h) (mget Q) (fun i => nth i c 0) (fun j => nth j c 0)).
Proof.
  intros Lc. unfold quadratic_form, opt_N. rewrite Lc, Nat.eqb_refl. cbn [negb]. f_equal.
  rewrite nsum_rsum. unfold bil.
  rewrite (rsum_swap (2 * h) (2 * h) (fun a b => nth a c 0 * mget Q a b * nth b c 0)).
  apply rsum_ext. intros j Hj. rewrite nsum_rsum. rnum. rewrite <- rsum_scal_r. reflexivity.
Qed.

(** The sum of all quadratic forms. *)
Lemma cost_loop o h : (2 * h <= 22)%nat ->
  length (o_segments o) = o_nseg o -> length (o_cost o) = o_nseg o ->
  List.Forall (seg_shape h (o_dim o)) (o_segments o) ->
  opt_computeCost h o = Ok (/ 2 * rsum (o_nseg o) (fun i => rsum (o_dim o) (fun d =>
    bil (2 * h) (mget (nth i (o_cost o) []))
        (fun a => nth a (nth d (seg_polys (nth i (o_segments o) no_seg)) []) 0)
        (fun a => nth a (nth d (seg_polys (nth i (o_segments o) no_seg)) []) 0)))).
Proof.
  intros H22 L1 L2 Hs. unfold opt_computeCost. rewrite L1, L2, Nat.eqb_refl. cbn [andb negb].
  set (q := fun i d => bil (2 * h) (mget (nth i (o_cost o) []))
        (fun a => nth a (nth d (seg_polys (nth i (o_segments o) no_seg)) []) 0)
        (fun a => nth a (nth d (seg_polys (nth i (o_segments o) no_seg)) []) 0)).
  match goal with |- context [ofold ?F _ _] => set (G := F) end.
  destruct (ofold_inv G (fun m a => a = rsum m (fun i => rsum (o_dim o) (q i))) (o_nseg o) (@n0 R R_ops)) as (r & E & Er).
  - reflexivity.
  - intros m a Hm Ha. unfold G. rewrite (oget_nth _ _ ([] : mat R)) by lia. cbn [obind].
    rewrite (oget_nth _ _ no_seg) by lia. cbn [obind].
    assert (Hsm : seg_shape h (o_dim o) (nth m (o_segments o) no_seg)).
    { rewrite Forall_forall in Hs. apply Hs. apply nth_In. lia. }
    destruct Hsm as (EN & ED & Hw).
    match goal with |- context [ofold ?F _ _] => set (K := F) end.
    destruct (ofold_inv K (fun k b => b = a + rsum k (q m)) (o_dim o) a) as (r & E & Er).
    + cbn [rsum]. ring.
    + intros k b Hk Hb. unfold K, seg_index. rewrite ED. destruct (Nat.ltb_spec k (o_dim o)); [|lia].
      rewrite (oget_nth _ _ ([] : list R)) by (unfold seg_D in ED; lia). cbn [obind].
      assert (Lp : length (nth k (seg_polys (nth m (o_segments o) no_seg)) []) = (2 * h)%nat).
      { rewrite <- EN. apply seg_wf_nth; [exact Hw|lia]. }
      unfold poly_getCoefficients. destruct (Z.ltb_spec (Z.of_nat (length (nth k (seg_polys (nth m (o_segments o) no_seg)) []))) 0); [lia|].
      cbn [Z.eqb obind]. rewrite quadratic_form_ok by exact Lp. cbn [obind]. eexists. split; [reflexivity|].
      rnum. rewrite Hb. cbn [rsum]. unfold q. ring.
    + exists r. split; [exact E|]. rewrite Er, Ha. reflexivity.
  - rewrite E. cbn [obind]. f_equal. rewrite Er. unfold nlit. rnum. unfold q. field.
Qed.

Lemma integral_cost_rsum r dim segs :
  integral_cost r dim segs = rsum (length segs) (fun i => rsum dim (fun d =>
    RInt (fun t => seg_fun (nth i segs no_seg) d r t ^ 2) 0 (seg_time (nth i segs no_seg)))).
Proof.
  unfold integral_cost. rewrite lsum_nth, map_length. apply rsum_ext. intros i Hi.
  rewrite (nth_map_lt _ _ _ no_seg) by exact Hi. reflexivity.
Qed.

Lemma seg_cost_bil s d r n : length (nth d (seg_polys s) []) = n ->
  RInt (fun t => seg_fun s d r t ^ 2) 0 (seg_time s) =
  / 2 * bil n (cost_entry r (seg_time s)) (fun a => nth a (nth d (seg_polys s) []) 0) (fun a => nth a (nth d (seg_polys s) []) 0).
Proof.
  intros L. rewrite (bil_integral _ _ r n (seg_time s) L L).
  rewrite (RInt_ext _ (fun t => dpoly (nth d (seg_polys s) []) r t * dpoly (nth d (seg_polys s) []) r t)).
  - rewrite <- Rmult_assoc, Rinv_l, Rmult_1_l by lra. reflexivity.
  - intros t _. rewrite seg_fun_dpoly. match goal with |- ?a = ?b => change (@eq R a b) end. ring.
Qed.

Lemma bil_ext n A B x y : (forall i j, (i < n)%nat -> (j < n)%nat -> A i j = B i j) -> bil n A x y = bil n B x y.
Proof. intros H. unfold bil. apply rsum_ext. intros i Hi. apply rsum_ext. intros j Hj. rewrite H by assumption. reflexivity. Qed.
Lemma bil_ext_vec n A x y x' y' : (forall i, (i < n)%nat -> x i = x' i) -> (forall i, (i < n)%nat -> y i = y' i) ->
  bil n A x y = bil n A x' y'.
Proof. intros H1 H2. unfold bil. apply rsum_ext. intros i Hi. apply rsum_ext. intros j Hj. rewrite H1, H2 by assumption. reflexivity. Qed.

Section Cost.
  Context (h : nat) (inv : mat R -> mat R).
  Implicit Types (o : opt R) (vs : list (vertex R)).

  Lemma compute_cost_integral vs o : prepared h inv vs o ->
    (forall i, (i < o_nseg o)%nat -> seg_time (nth i (o_segments o) no_seg) = nth i (o_times o) 0) ->
    opt_computeCost h o = Ok (integral_cost (Z.to_nat (o_deriv o)) (o_dim o) (o_segments o)).
  Proof.
    intros P Ht. destruct (pr_shape _ _ _ _ P) as (L1 & Hs). destruct (pr_mats _ _ _ _ P) as (ms & Em & Ei & Ec).
    assert (L2 : length (o_cost o) = o_nseg o).
    { rewrite Ec, map_length, (omap_length _ _ _ Em). apply (pr_times _ _ _ _ P). }
    destruct (Nat.eq_dec (o_nseg o) 0) as [H0|H0].
    { unfold opt_computeCost. rewrite L1, L2, Nat.eqb_refl, H0. cbn [andb negb seq ofold obind].
      f_equal. rewrite integral_cost_rsum, L1, H0. unfold nlit, n0. rnum. cbn [rsum]. field. }
    assert (Hh := prepared_h h inv vs o 0 P ltac:(lia)).
    rewrite cost_loop by (try assumption; lia). f_equal.
    rewrite integral_cost_rsum, L1, <- rsum_scal. apply rsum_ext. intros i Hi. rewrite <- rsum_scal.
    apply rsum_ext. intros d Hd.
    assert (Hsi : seg_shape h (o_dim o) (nth i (o_segments o) no_seg)).
    { rewrite Forall_forall in Hs. apply Hs. apply nth_In. lia. }
    destruct Hsi as (EN & ED & Hw).
    rewrite (seg_cost_bil _ _ _ (2 * h)).
    2:{ rewrite <- EN. apply seg_wf_nth; [exact Hw|lia]. }
    f_equal. destruct (prepared_mats h inv vs o i P Hi) as (Q & A & EQ & _ & _ & EC & _).
    rewrite EC, Ht by exact Hi. apply bil_ext. apply (cost_matrix_ok h _ _ _ EQ).
  Qed.
End Cost.

Lemma integral_cost_nonneg r dim segs : List.Forall (fun s => 0 <= seg_time s) segs -> 0 <= integral_cost r dim segs.
Proof.
  intros H. unfold integral_cost. induction H as [|s segs Hs H IH]; cbn [map lsum]; [lra|].
  assert (0 <= rsum dim (fun d => RInt (fun t => seg_fun s d r t ^ 2) 0 (seg_time s))); [|lra].
  apply rsum_nonneg. intros d Hd. rewrite (seg_cost_bil s d r _ eq_refl).
  assert (B := bil_cost_nonneg (length (nth d (seg_polys s) [])) r (seg_time s) (fun a => nth a (nth d (seg_polys s) []) 0) Hs).
  lra.
Qed.
