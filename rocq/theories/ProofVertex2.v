From Coq Require Import ZArith Reals List Bool Lia Lra Sorted.
From Coquelicot Require Import Coquelicot.
From Verif Require Import Num RSum ModelPolynomial ModelVertex SpecVertex ProofVertex.
Import ListNotations.
Open Scope R_scope.

(** * Rest-to-rest motions *)

Definition trap (vp a tf t : R) : R := Rmax 0 (Rmin (Rmin (a * t) vp) (a * (tf - t))).

Lemma Rmin_lip x y x' y' e : Rabs (x - x') <= e -> Rabs (y - y') <= e -> Rabs (Rmin x y - Rmin x' y') <= e.
Proof. unfold Rmin. do 2 destruct Rle_dec; unfold Rabs; repeat destruct Rcase_abs; lra. Qed.
Lemma Rmax_lip x y x' y' e : Rabs (x - x') <= e -> Rabs (y - y') <= e -> Rabs (Rmax x y - Rmax x' y') <= e.
Proof. unfold Rmax. do 2 destruct Rle_dec; unfold Rabs; repeat destruct Rcase_abs; lra. Qed.

Lemma trap_lip vp a tf s t : 0 <= a -> Rabs (trap vp a tf t - trap vp a tf s) <= a * Rabs (t - s).
Proof.
  intro Ha. unfold trap.
  assert (H0 : 0 <= a * Rabs (t - s)) by (apply Rmult_le_pos; auto; apply Rabs_pos).
  apply Rmax_lip.
  - rewrite Rminus_eq_0, Rabs_R0. exact H0.
  - apply Rmin_lip; [apply Rmin_lip|].
    + rewrite <- Rmult_minus_distr_l, Rabs_mult, (Rabs_pos_eq a) by auto. lra.
    + rewrite Rminus_eq_0, Rabs_R0. exact H0.
    + rewrite <- Rmult_minus_distr_l, Rabs_mult, (Rabs_pos_eq a) by auto.
      replace (tf - t - (tf - s)) with (- (t - s)) by ring. rewrite Rabs_Ropp. lra.
Qed.

Lemma lip_continuous f a : 0 < a -> (forall s t, Rabs (f t - f s) <= a * Rabs (t - s)) ->
  forall t, continuous f t.
Proof.
  intros Ha H t. apply continuity_pt_filterlim. intros e He. exists (e / a).
  split; [apply Rdiv_lt_0_compat; auto|]. intros x [_ Hx]. simpl in *. unfold R_dist in *.
  eapply Rle_lt_trans; [apply H|]. apply (Rmult_lt_compat_l a) in Hx; auto.
  replace (a * (e / a)) with e in Hx by (field; lra). exact Hx.
Qed.

Lemma trap_integral vp a tf : 0 < a -> 0 < vp -> 2 * (vp / a) <= tf ->
  RInt (trap vp a tf) 0 tf = vp * (tf - vp / a).
Proof.
  intros Ha Hv Htf. set (t1 := vp / a).
  assert (Ht1 : 0 < t1) by (apply Rdiv_lt_0_compat; auto).
  assert (Hat1 : a * t1 = vp) by (unfold t1; field; lra). fold t1 in Htf.
  assert (Hc : forall t, continuous (trap vp a tf) t).
  { apply (lip_continuous _ a Ha). intros; apply trap_lip; lra. }
  assert (Hi : forall u w, ex_RInt (trap vp a tf) u w).
  { intros. apply (ex_RInt_continuous (V := R_CompleteNormedModule)). intros; apply Hc. }
  rewrite <- (RInt_Chasles _ 0 t1 tf), <- (RInt_Chasles _ t1 (tf - t1) tf) by auto.
  assert (I1 : RInt (trap vp a tf) 0 t1 = vp * t1 / 2).
  { rewrite (RInt_ext _ (fun t => a * t)).
    - apply is_RInt_unique.
      replace (vp * t1 / 2) with (minus (a * t1 ^ 2 / 2) (a * 0 ^ 2 / 2)) by (unfold minus, plus, opp; simpl; rewrite <- Hat1; field).
      apply (is_RInt_derive (fun t => a * t ^ 2 / 2)).
      + intros; auto_derive; auto; field.
      + intros. apply (ex_derive_continuous (fun t => a * t)). auto_derive; auto.
    - rewrite Rmin_left, Rmax_right by lra. intros t Ht. unfold trap.
      assert (a * t <= vp) by (rewrite <- Hat1; apply Rmult_le_compat_l; lra).
      assert (0 <= a * t) by (apply Rmult_le_pos; lra).
      assert (a * t <= a * (tf - t)) by (apply Rmult_le_compat_l; lra).
      rewrite (Rmin_left (a * t)), Rmin_left, Rmax_right; auto. }
  assert (I2 : RInt (trap vp a tf) t1 (tf - t1) = vp * (tf - 2 * t1)).
  { rewrite (RInt_ext _ (fun t => vp)).
    - rewrite RInt_const. unfold scal; simpl; unfold mult; simpl. ring.
    - rewrite Rmin_left, Rmax_right by lra. intros t Ht. unfold trap.
      assert (vp <= a * t) by (rewrite <- Hat1; apply Rmult_le_compat_l; lra).
      assert (vp <= a * (tf - t)) by (rewrite <- Hat1; apply Rmult_le_compat_l; lra).
      rewrite (Rmin_right (a * t)), Rmin_left, Rmax_right; auto; lra. }
  assert (I3 : RInt (trap vp a tf) (tf - t1) tf = vp * t1 / 2).
  { rewrite (RInt_ext _ (fun t => a * (tf - t))).
    - apply is_RInt_unique.
      replace (vp * t1 / 2) with (minus (- (a * (tf - tf) ^ 2 / 2)) (- (a * (tf - (tf - t1)) ^ 2 / 2)))
        by (unfold minus, plus, opp; simpl; rewrite <- Hat1; field).
      apply (is_RInt_derive (fun t => - (a * (tf - t) ^ 2 / 2))).
      + intros; auto_derive; auto; field.
      + intros. apply (ex_derive_continuous (fun t => a * (tf - t))). auto_derive; auto.
    - rewrite Rmin_left, Rmax_right by lra. intros t Ht. unfold trap.
      assert (vp >= a * (tf - t)) by (rewrite <- Hat1; apply Rle_ge, Rmult_le_compat_l; lra).
      assert (0 <= a * (tf - t)) by (apply Rmult_le_pos; lra).
      assert (a * (tf - t) <= a * t) by (apply Rmult_le_compat_l; lra).
      rewrite (Rmin_right _ (a * (tf - t))), Rmax_right; auto.
      apply Rmin_glb; lra. }
  rewrite I1, I2, I3. unfold plus; simpl. field.
Qed.

Lemma trap_motion vm vp a tf : 0 < a -> 0 < vp <= vm -> 2 * (vp / a) <= tf ->
  rest_to_rest (vp * (tf - vp / a)) vm a tf (fun t => RInt (trap vp a tf) 0 t) (trap vp a tf).
Proof.
  intros Ha Hv Htf.
  assert (0 < vp / a) by (apply Rdiv_lt_0_compat; lra).
  assert (Hc : forall t, continuous (trap vp a tf) t).
  { apply (lip_continuous _ a Ha). intros; apply trap_lip; lra. }
  assert (Hi : forall u w, ex_RInt (trap vp a tf) u w).
  { intros. apply (ex_RInt_continuous (V := R_CompleteNormedModule)). intros; apply Hc. }
  split; [lra|]. split; [|split; [|split; [|split; [|split]]]].
  - intros t _. apply (is_derive_RInt (trap vp a tf) (fun t => RInt (trap vp a tf) 0 t) 0 t).
    + exists (mkposreal 1 Rlt_0_1). intros u _. apply (RInt_correct (trap vp a tf)), Hi.
    + apply Hc.
  - intros t _. rewrite Rabs_pos_eq by apply Rmax_l. unfold trap.
    apply Rmax_lub; [lra|]. eapply Rle_trans; [apply Rmin_l|]. eapply Rle_trans; [apply Rmin_r|]. lra.
  - intros. apply trap_lip; lra.
  - unfold trap. rewrite Rmult_0_r, Rmax_left; auto.
    eapply Rle_trans; [apply Rmin_l|]. apply Rmin_l.
  - unfold trap. rewrite Rminus_eq_0, Rmult_0_r, Rmax_left; auto. apply Rmin_r.
  - rewrite trap_integral, RInt_point by lra. unfold zero; simpl. ring.
Qed.

Lemma ramp_time_eq d vm am : 0 < vm -> 0 < am ->
  ramp_time d vm am = if Rlt_dec d (vm * vm / am) then 2 * sqrt (d / am) else vm / am + d / vm.
Proof.
  intros Hv Ha. unfold ramp_time, nlit. rnum. unfold Rltb.
  assert (E : 2 * (5 / 10 * vm * (vm / am)) = vm * vm / am) by (field; lra).
  rewrite E. destruct Rlt_dec; auto. field. lra.
Qed.

Lemma ramp_time_feasible d vm am : 0 <= d -> 0 < vm -> 0 < am ->
  exists x v, rest_to_rest d vm am (ramp_time d vm am) x v.
Proof.
  intros Hd Hv Ha. rewrite ramp_time_eq by auto.
  destruct (Rlt_dec d (vm * vm / am)) as [H|H].
  - destruct Hd as [Hd|<-].
    + set (s := sqrt (d / am)).
      assert (Hs : 0 < s) by (apply sqrt_lt_R0, Rdiv_lt_0_compat; auto).
      assert (Hss : s * s = d / am) by (apply sqrt_sqrt, Rlt_le, Rdiv_lt_0_compat; auto).
      assert (Hd' : d = am * (s * s)) by (rewrite Hss; field; lra).
      assert (Hle : am * s <= vm).
      { apply Rnot_lt_le. intro Hc.
        assert (vm * vm < am * s * (am * s)) by (apply Rmult_le_0_lt_compat; lra).
        apply (Rmult_lt_compat_r am) in H; auto.
        replace (vm * vm / am * am) with (vm * vm) in H by (field; lra).
        rewrite Hd' in H. nra. }
      assert (Hp : 0 < am * s) by (apply Rmult_lt_0_compat; auto).
      exists (fun t => RInt (trap (am * s) am (2 * s)) 0 t), (trap (am * s) am (2 * s)).
      replace d with (am * s * (2 * s - am * s / am)) by (rewrite Hd'; field; lra).
      apply trap_motion; auto. replace (am * s / am) with s by (field; lra). lra.
    + exists (fun _ => 0), (fun _ => 0).
      replace (0 / am) with 0 by (field; lra). rewrite sqrt_0, Rmult_0_r.
      split; [lra|]. split; [|split; [|split; [|lra]]].
      * intros. apply (is_derive_const (0 : R)).
      * intros. rewrite Rabs_R0; lra.
      * intros. rewrite Rminus_eq_0, Rabs_R0. apply Rmult_le_pos; [lra|apply Rabs_pos].
  - assert (Hp : 0 < vm / am) by (apply Rdiv_lt_0_compat; auto).
    exists (fun t => RInt (trap vm am (vm / am + d / vm)) 0 t), (trap vm am (vm / am + d / vm)).
    replace d with (vm * (vm / am + d / vm - vm / am)) at 1 by (field; lra).
    apply trap_motion; auto; [lra|].
    assert (vm / am <= d / vm); [|lra].
    apply Rnot_lt_le in H. apply (Rmult_le_reg_r vm); auto.
    replace (d / vm * vm) with d by (field; lra).
    replace (vm / am * vm) with (vm * vm / am) by (field; lra). auto.
Qed.

(** x grows at most like an upper bound of its derivative. *)
Lemma growth (x v g h : R -> R) a b : a <= b ->
  (forall t, a <= t <= b -> is_derive x t (v t)) ->
  (forall t, a <= t <= b -> is_derive g t (h t)) ->
  (forall t, a <= t <= b -> v t <= h t) -> x b - x a <= g b - g a.
Proof.
  intros Hab Hx Hg Hv.
  destruct (MVT_gen (fun t => g t - x t) a b (fun t => h t - v t)) as (c & Hc & E).
  - rewrite Rmin_left, Rmax_right by auto. intros t Ht.
    apply (is_derive_minus g x); [apply Hg|apply Hx]; lra.
  - rewrite Rmin_left, Rmax_right by auto. intros t Ht.
    apply continuity_pt_filterlim, (ex_derive_continuous (fun t => g t - x t)).
    exists (h t - v t). apply (is_derive_minus g x); [apply Hg|apply Hx]; lra.
  - rewrite Rmin_left, Rmax_right in Hc by auto.
    assert (0 <= (h c - v c) * (b - a)) by (apply Rmult_le_pos; [specialize (Hv c Hc); lra|lra]).
    lra.
Qed.

Lemma rest_to_rest_minimal d vm am tf x v : 0 <= d -> 0 < vm -> 0 < am ->
  rest_to_rest d vm am tf x v -> ramp_time d vm am <= tf.
Proof.
  intros Hd Hv Ha (Htf & Hx & Hvm & Hl & H0 & H1 & HD).
  assert (Hup : forall t, 0 <= t <= tf -> v t <= am * t /\ v t <= am * (tf - t)).
  { intros t Ht. split.
    - specialize (Hl 0 t). rewrite H0, Rminus_0_r, Rminus_0_r, (Rabs_pos_eq t) in Hl by lra.
      eapply Rle_trans; [apply Rle_abs|]. apply Hl; lra.
    - specialize (Hl tf t). rewrite H1, Rminus_0_r in Hl.
      replace (Rabs (t - tf)) with (tf - t) in Hl by (rewrite Rabs_minus_sym, Rabs_pos_eq; lra).
      eapply Rle_trans; [apply Rle_abs|]. apply Hl; lra. }
  (* bound with a turning time s *)
  assert (Hs : forall s, 0 <= s <= tf / 2 ->
             d <= am * s ^ 2 + (vm * (tf - 2 * s))).
  { intros s Hs.
    assert (A1 : x s - x 0 <= am * s ^ 2 / 2 - am * 0 ^ 2 / 2).
    { apply (growth x v (fun t => am * t ^ 2 / 2) (fun t => am * t)); try lra.
      - intros; apply Hx; lra.
      - intros; auto_derive; auto; field.
      - intros; apply Hup; lra. }
    assert (A2 : x (tf - s) - x s <= vm * (tf - s) - vm * s).
    { apply (growth x v (fun t => vm * t) (fun t => vm)); try lra.
      - intros; apply Hx; lra.
      - intros; auto_derive; auto; field.
      - intros t Ht. eapply Rle_trans; [apply Rle_abs|]. apply Hvm; lra. }
    assert (A3 : x tf - x (tf - s) <= - (am * (tf - tf) ^ 2 / 2) - - (am * (tf - (tf - s)) ^ 2 / 2)).
    { apply (growth x v (fun t => - (am * (tf - t) ^ 2 / 2)) (fun t => am * (tf - t))); try lra.
      - intros; apply Hx; lra.
      - intros; auto_derive; auto; field.
      - intros; apply Hup; lra. }
    replace (tf - (tf - s)) with s in A3 by ring. lra. }
  rewrite ramp_time_eq by auto.
  assert (B : d <= am * (tf / 2) ^ 2).
  { pose proof (Hs (tf / 2)). lra. }
  destruct Rlt_dec as [H|H].
  - assert (C : d / am <= (tf / 2) ^ 2).
    { apply (Rmult_le_reg_l am); auto. replace (am * (d / am)) with d by (field; lra). auto. }
    apply sqrt_le_1_alt in C. rewrite sqrt_pow2 in C by lra. lra.
  - apply Rnot_lt_le in H.
    assert (Hp : 0 < vm / am) by (apply Rdiv_lt_0_compat; auto).
    assert (Hle : vm / am <= tf / 2).
    { apply Rnot_lt_le. intro Hc.
      assert ((tf / 2) ^ 2 < (vm / am) ^ 2) by (simpl; rewrite !Rmult_1_r; apply Rmult_le_0_lt_compat; lra).
      assert (am * (tf / 2) ^ 2 < am * (vm / am) ^ 2) by (apply Rmult_lt_compat_l; auto).
      replace (am * (vm / am) ^ 2) with (vm * vm / am) in * by (field; lra). lra. }
    assert (C := Hs (vm / am)).
    assert (C' : d <= am * (vm / am) ^ 2 + vm * (tf - 2 * (vm / am))) by (apply C; lra).
    replace (am * (vm / am) ^ 2 + vm * (tf - 2 * (vm / am))) with (vm * (tf - vm / am)) in C' by (field; lra).
    apply (Rmult_le_compat_r (/ vm)) in C'; [|apply Rlt_le, Rinv_0_lt_compat; auto].
    replace (vm * (tf - vm / am) * / vm) with (tf - vm / am) in C' by (field; lra).
    unfold Rdiv at 2. lra.
Qed.

(** * Estimators *)

Lemma vec_norm_dist p q :
  vec_norm (map (fun c => nsub (fst c) (snd c)) (combine p q)) = dist p q.
Proof.
  unfold vec_norm, dist. rnum. f_equal.
  generalize (combine p q) as l. intro l.
  assert (H : forall l acc, fold_left (fun acc a => acc + a * a) (map (fun c : R * R => fst c - snd c) l) acc
                     = acc + fold_right (fun c s => (fst c - snd c) ^ 2 + s) 0 l).
  { induction l0 as [|c l0 IH]; intro acc; cbn [fold_left map fold_right]; [lra|]. rewrite IH. lra. }
  rewrite H. lra.
Qed.

Lemma dist_sym p : forall q, dist p q = dist q p.
Proof.
  unfold dist. intro q. f_equal. revert q.
  induction p as [|x p IH]; intros [|y q]; auto. cbn [combine fold_right fst snd]. rewrite IH. ring.
Qed.
Lemma sqsum_nonneg (l : list (R * R)) : 0 <= fold_right (fun c s => (fst c - snd c) ^ 2 + s) 0 l.
Proof. induction l as [|c l IH]; cbn [fold_right]; [lra|]. pose proof (pow2_ge_0 (fst c - snd c)). lra. Qed.
Lemma dist_nonneg p q : 0 <= dist p q.
Proof. apply sqrt_pos. Qed.
Lemma dist_pos p q : length p = length q -> p <> q -> 0 < dist p q.
Proof.
  intros Hl Hn. unfold dist. apply sqrt_lt_R0.
  revert q Hl Hn. induction p as [|x p IH]; intros [|y q] Hl Hn; try discriminate.
  - congruence.
  - cbn [combine fold_right fst snd]. simpl in Hl. pose proof (sqsum_nonneg (combine p q)).
    destruct (Req_dec x y) as [->|E].
    + assert (0 < fold_right (fun c s => (fst c - snd c) ^ 2 + s) 0 (combine p q)); [|lra].
      apply IH; [lia|congruence].
    + assert (0 < (x - y) ^ 2) by nra. lra.
Qed.
Lemma dist_zero p q : p = q -> dist p q = 0.
Proof.
  intros <-. unfold dist. replace (fold_right _ _ _) with 0; [apply sqrt_0|].
  induction p as [|x p IH]; cbn [combine fold_right fst snd]; auto. rewrite <- IH. ring.
Qed.

Lemma pairs_length {A} (l : list A) : length (pairs l) = pred (length l).
Proof. induction l as [|a [|b l] IH]; simpl in *; auto. Qed.
Lemma pairs_nth {A} (l : list A) d i : (S i < length l)%nat ->
  nth i (pairs l) (d, d) = (nth i l d, nth (S i) l d).
Proof.
  revert i. induction l as [|a [|b l] IH]; intros i H; simpl in *; try lia.
  destruct i; auto. rewrite IH by lia. reflexivity.
Qed.
Lemma pairs_Forall {A} (P : A -> Prop) (l : list A) :
  List.Forall P l -> List.Forall (fun p => P (fst p) /\ P (snd p)) (pairs l).
Proof.
  induction l as [|a [|b l] IH]; intro H; simpl; auto.
  inversion H; subst. constructor; [|apply IH; auto]. inversion H3; auto.
Qed.

Lemma omap_ok_Forall {A B} (P : A -> Prop) (f : A -> outcome B) (g : A -> B) l :
  (forall a, P a -> f a = Ok (g a)) -> List.Forall P l -> omap f l = Ok (map g l).
Proof.
  intros Hf H. induction H as [|a l Ha Hl IH]; simpl; auto. rewrite Hf, IH by auto. reflexivity.
Qed.

Lemma position_or_empty_pos v : position_or_empty v = pos_of v.
Proof. reflexivity. Qed.

Lemma vec_sub_ok (x y : list R) : length x = length y ->
  vec_sub x y = Ok (map (fun c => nsub (fst c) (snd c)) (combine x y)).
Proof. intro H. unfold vec_sub. now rewrite H, Nat.eqb_refl. Qed.

Lemma velocity_ramp_eq n vs vm am tfac : (2 <= length vs)%nat -> has_positions n vs ->
  estimateSegmentTimesVelocityRamp vs vm am tfac =
  Ok (map (fun p => Rmax (1/10) (ramp_time (dist (pos_of (fst p)) (pos_of (snd p))) vm am)) (pairs vs)).
Proof.
  intros Hl Hp. unfold estimateSegmentTimesVelocityRamp.
  destruct (Nat.ltb_spec (length vs) 2); try lia.
  apply (omap_ok_Forall (fun p => length (pos_of (fst p)) = n /\ length (pos_of (snd p)) = n)).
  - intros p [H1 H2]. unfold computeTimeVelocityRamp. change (@position_or_empty R) with pos_of.
    rewrite vec_sub_ok by congruence. cbn [obind]. rewrite vec_norm_dist.
    unfold nmax, nlit. rnum. f_equal. unfold Rmax.
    destruct (Rltb_spec (1/10) (ramp_time (dist (pos_of (fst p)) (pos_of (snd p))) vm am));
      destruct Rle_dec; lra.
  - apply (pairs_Forall (fun v => length (pos_of v) = n)). eapply Forall_impl; [|exact Hp].
    intros v (x & E & Hx). unfold pos_of. now rewrite E.
Qed.

Lemma nfabian_eq n vs vm am magic : (2 <= length vs)%nat -> has_positions n vs ->
  estimateSegmentTimesNfabian exp vs vm am magic =
  Ok (map (fun p => nfabian_time exp (dist (pos_of (snd p)) (pos_of (fst p))) vm am magic) (pairs vs)).
Proof.
  intros Hl Hp. unfold estimateSegmentTimesNfabian.
  destruct (Nat.ltb_spec (length vs) 2); try lia.
  apply (omap_ok_Forall (fun p => length (pos_of (fst p)) = n /\ length (pos_of (snd p)) = n)).
  - intros p [H1 H2]. change (@position_or_empty R) with pos_of.
    rewrite vec_sub_ok by congruence. cbn [obind]. now rewrite vec_norm_dist.
  - apply (pairs_Forall (fun v => length (pos_of v) = n)). eapply Forall_impl; [|exact Hp].
    intros v (x & E & Hx). unfold pos_of. now rewrite E.
Qed.

Lemma nfabian_time_pos d vm am magic : 0 < d -> 0 < vm -> 0 < am -> 0 <= magic ->
  0 < nfabian_time exp d vm am magic.
Proof.
  intros. unfold nfabian_time. rnum.
  apply Rmult_lt_0_compat.
  - apply Rmult_lt_0_compat; [|lra]. apply Rdiv_lt_0_compat; auto.
  - assert (0 <= magic * vm / am * exp (- d / vm * 2)); [|lra].
    apply Rmult_le_pos; [|left; apply exp_pos]. unfold Rdiv.
    apply Rmult_le_pos; [|left; apply Rinv_0_lt_compat; auto]. apply Rmult_le_pos; lra.
Qed.

Lemma nfabian_time_0 vm am magic : nfabian_time exp 0 vm am magic = 0.
Proof. unfold nfabian_time. rnum. unfold Rdiv. ring. Qed.

Lemma vertex_default_nth (vs : list (vertex R)) i d d' : (i < length vs)%nat -> nth i vs d = nth i vs d'.
Proof. apply nth_indep. Qed.
