(** The recursive check. *)
From Coq Require Import ZArith Reals List Bool Lia Lra.
From Coquelicot Require Import Coquelicot.
From Verif Require Import Num RSum SpecPoly SpecSegment SpecFeasibility ModelPolynomial ModelSegment ModelVertex ModelTrajectory ModelInput ModelFeasibility
  ProofPolynomial ExtremaMath ProofExtrema ProofSegment ProofSegment2 ProofFeasibility.
Import ListNotations.
Notation length := List.length.
Open Scope R_scope.

(** ** Speed of the thrust direction *)
Lemma is_derive_thrust_vec s k t : is_derive (fun x => thrust_vec s x k) t (seg_fun s k 3 t).
Proof.
  unfold thrust_vec. evar_last. { apply (is_derive_plus (seg_fun s k 2) (fun _ => gravity k)); [apply is_derive_seg_fun|apply (is_derive_const (gravity k))]. }
  change (@eq R (seg_fun s k 3 t + 0) (seg_fun s k 3 t)). ring.
Qed.
Definition dir' (s : segment R) (t : R) (k : nat) : R :=
  let n2 := thrust s t ^ 2 in
  (seg_fun s k 3 t * n2 - thrust_vec s t k * dot3 (thrust_vec s t) (fun i => seg_fun s i 3 t)) / (n2 * thrust s t).
Lemma thrust_sqr s t : thrust s t ^ 2 = thrust_vec s t 0 ^ 2 + thrust_vec s t 1 ^ 2 + thrust_vec s t 2 ^ 2.
Proof. apply norm3_sqr. Qed.
Lemma is_derive_direction s k t : 0 < thrust s t -> is_derive (thrust_direction s k) t (dir' s t k).
Proof.
  intros H. unfold thrust_direction, dir', thrust, norm3 in *.
  assert (P : 0 < thrust_vec s t 0 ^ 2 + thrust_vec s t 1 ^ 2 + thrust_vec s t 2 ^ 2). { rewrite <- sqrt_0 in H. apply sqrt_lt_0_alt in H. exact H. }
  pose proof (is_derive_thrust_vec s 0 t) as D0. pose proof (is_derive_thrust_vec s 1 t) as D1. pose proof (is_derive_thrust_vec s 2 t) as D2.
  pose proof (is_derive_thrust_vec s k t) as Dk.
  set (j0 := seg_fun s 0 3 t) in *. set (j1 := seg_fun s 1 3 t) in *. set (j2 := seg_fun s 2 3 t) in *. set (jk := seg_fun s k 3 t) in *.
  set (n2 := fun x => thrust_vec s x 0 ^ 2 + thrust_vec s x 1 ^ 2 + thrust_vec s x 2 ^ 2) in *.
  set (f0 := thrust_vec s t 0) in *. set (f1 := thrust_vec s t 1) in *. set (f2 := thrust_vec s t 2) in *. set (fk := thrust_vec s t k) in *.
  assert (Dn : is_derive n2 t (2 * (f0 * j0 + f1 * j1 + f2 * j2))).
  { evar_last. { unfold n2. apply (is_derive_plus (fun x => thrust_vec s x 0 ^ 2 + thrust_vec s x 1 ^ 2) (fun x => thrust_vec s x 2 ^ 2)).
      - apply (is_derive_plus (fun x => thrust_vec s x 0 ^ 2) (fun x => thrust_vec s x 1 ^ 2)).
        + apply is_derive_pow. exact D0.
        + apply is_derive_pow. exact D1.
      - apply is_derive_pow. exact D2. }
    change (@eq R (INR 2 * j0 * f0 ^ Init.Nat.pred 2 + INR 2 * j1 * f1 ^ Init.Nat.pred 2 + INR 2 * j2 * f2 ^ Init.Nat.pred 2) (2 * (f0 * j0 + f1 * j1 + f2 * j2))).
    cbn [Init.Nat.pred pow INR]. ring. }
  assert (Hs : sqrt (n2 t) <> 0). { apply Rgt_not_eq. exact H. }
  evar_last. { apply (is_derive_div (fun x => thrust_vec s x k) (fun x => sqrt (n2 x))); [exact Dk|apply is_derive_sqrt; [exact Dn|exact P]|exact Hs]. }
  unfold dot3. fold j0 j1 j2 f0 f1 f2 fk. fold (n2 t).
  change (@eq R ((jk * sqrt (n2 t) - fk * (2 * (f0 * j0 + f1 * j1 + f2 * j2) / (2 * sqrt (n2 t)))) / sqrt (n2 t) ^ 2)
                ((jk * sqrt (n2 t) ^ 2 - fk * (f0 * j0 + f1 * j1 + f2 * j2)) / (sqrt (n2 t) ^ 2 * sqrt (n2 t)))).
  field. exact Hs.
Qed.
Lemma roll_pitch_rate_eq s t : 0 < thrust s t ->
  roll_pitch_rate s t = sqrt ((jerk s t ^ 2 * thrust s t ^ 2 - dot3 (thrust_vec s t) (fun i => seg_fun s i 3 t) ^ 2) / (thrust s t ^ 2) ^ 2).
Proof.
  intros H. unfold roll_pitch_rate, norm3 at 1.
  assert (E : forall k, Derive (thrust_direction s k) t = dir' s t k) by (intros k; apply is_derive_unique, is_derive_direction, H).
  rewrite !E. f_equal. unfold dir'. unfold jerk. rewrite norm3_sqr. pose proof (thrust_sqr s t) as Q. unfold dot3.
  set (n := thrust s t) in *. set (f0 := thrust_vec s t 0) in *. set (f1 := thrust_vec s t 1) in *. set (f2 := thrust_vec s t 2) in *.
  set (j0 := seg_fun s 0 3 t). set (j1 := seg_fun s 1 3 t). set (j2 := seg_fun s 2 3 t).
  set (q := f0 * j0 + f1 * j1 + f2 * j2).
  replace (((j0 * n ^ 2 - f0 * q) / (n ^ 2 * n)) ^ 2 + ((j1 * n ^ 2 - f1 * q) / (n ^ 2 * n)) ^ 2 + ((j2 * n ^ 2 - f2 * q) / (n ^ 2 * n)) ^ 2)
    with (((j0 ^ 2 + j1 ^ 2 + j2 ^ 2) * (n ^ 2) ^ 2 - 2 * n ^ 2 * q * q + q ^ 2 * (f0 ^ 2 + f1 ^ 2 + f2 ^ 2)) / ((n ^ 2) ^ 2 * n ^ 2)).
  2:{ unfold q. field. lra. }
  rewrite <- Q. field. lra.
Qed.
Lemma roll_pitch_rate_le s t : 0 < thrust s t -> roll_pitch_rate s t <= jerk s t / thrust s t.
Proof.
  intros H. rewrite (roll_pitch_rate_eq s t H).
  assert (J : 0 <= jerk s t) by apply norm3_pos.
  rewrite <- (sqrt_pow2 (jerk s t / thrust s t)); [|apply Rdiv_le_0_compat; assumption].
  apply sqrt_le_1_alt. replace ((jerk s t / thrust s t) ^ 2) with ((jerk s t ^ 2 * thrust s t ^ 2) / (thrust s t ^ 2) ^ 2) by (field; lra).
  apply Rmult_le_compat_r; [apply Rlt_le, Rinv_0_lt_compat, pow_lt, pow_lt, H|]. pose proof (pow2_ge_0 (dot3 (thrust_vec s t) (fun i => seg_fun s i 3 t))). lra.
Qed.

(** ** Limits *)
Definition limits_of (c : @constraints R) : limits :=
  mkLimits (getConstraint c kFMin) (getConstraint c kFMax) (getConstraint c kVMax) (getConstraint c kOmegaXYMax) (getConstraint c kOmegaZMax) (getConstraint c kOmegaZDotMax).
Lemma has_get {T} (c : @constraints T) k : hasConstraint c k = match getConstraint c k with Some _ => true | None => false end.
Proof. reflexivity. Qed.

(** A limit named by a verdict is violated at t. *)
Definition violated (l : limits) (s : segment R) (v : feasibility) (t : R) : Prop :=
  match v with
  | kInputInfeasibleThrustLow => broken_for (l_thrust_min l) (fun m => thrust s t < m)
  | kInputInfeasibleThrustHigh => broken_for (l_thrust_max l) (fun m => m < thrust s t)
  | kInputInfeasibleVelocity => broken_for (l_speed l) (fun m => m < speed s t)
  | kInputInfeasibleRollPitchRates => broken_for (l_roll_pitch l) (fun m => m < roll_pitch_rate s t)
  | kInputInfeasibleYawRates => seg_D s = 4%nat /\ broken_for (l_yaw_rate l) (fun m => m < Rabs (seg_fun s 3 1 t))
  | kInputInfeasibleYawAcc => seg_D s = 4%nat /\ broken_for (l_yaw_acc l) (fun m => m < Rabs (seg_fun s 3 2 t))
  | kInputFeasible | kInputIndeterminable => True
  end.

Lemma with_limit_spec (c : @constraints R) k test : with_limit c k test = match getConstraint c k with Some l => test l | None => false end.
Proof. reflexivity. Qed.

(** ** Extrema of an axis *)
Definition below_max (s : segment R) (k d : nat) : Prop := forall t, 0 <= t <= seg_time s -> Rabs (seg_fun s k d t) < @dbl_max R R_ops.

Lemma covers_sub g a b a' b' roots : a <= a' -> b' <= b -> covers_real_roots g a b roots -> covers_real_roots g a' b' roots.
Proof. intros Ha Hb [H|H]; [left|right]; intros t Ht; apply H; lra. Qed.

Lemma covers_ext f g a b roots : (forall t, f t = g t) -> covers_real_roots f a b roots -> covers_real_roots g a b roots.
Proof. intros E [H|H]; [left|right]; intros t Ht; rewrite <- E; auto. Qed.
Lemma axis_extrema_ok (s : segment R) a b (d : nat) roots i : seg_wf s -> (seg_N s <= 22)%nat -> (i < seg_D s)%nat -> 0 <= a <= b -> b <= seg_time s ->
  (i < length roots)%nat -> covers_real_roots (seg_fun s i (S d)) 0 (seg_time s) (nth i roots []) -> below_max s i d ->
  exists lo hi, axis_extrema s a b (Z.of_nat d) roots i = Ok (lo, hi) /\
    (exists x, a <= x <= b /\ seg_fun s i d x = lo) /\ (exists x, a <= x <= b /\ seg_fun s i d x = hi) /\
    forall t, a <= t <= b -> lo <= seg_fun s i d t <= hi.
Proof.
  intros Hw HN Hi Hab HT Hl Hc Hb. unfold axis_extrema. rewrite (seg_index_ok s i Hi). cbn [obind]. rewrite (oget_nth roots i [] Hl). cbn [obind].
  set (p := nth i (seg_polys s) []).
  assert (Lp : length p = seg_N s) by (apply seg_wf_nth; assumption).
  assert (E : forall e t, seg_fun s i e t = dpoly p e t) by (intros; apply seg_fun_dpoly).
  destruct (selectMinMaxFromRoots_global p a b d (nth i roots [])) as (tm & vm & tM & vM & Es & (M1 & M2 & M3) & (X1 & X2 & X3)).
  - left. lia.
  - lra.
  - apply (covers_sub _ 0 (seg_time s)); [lra|lra|]. eapply covers_ext; [|exact Hc]. intros t. apply E.
  - intros t Ht. rewrite <- E. apply Hb. lra.
  - rewrite Es. cbn [obind snd]. exists vm, vM. split; [reflexivity|]. split; [|split].
    + exists tm. rewrite E. auto.
    + exists tM. rewrite E. auto.
    + intros t Ht. rewrite E. split; auto.
Qed.

(** ** Bounds on a section *)
Lemma nmin_Rmin' (a b : R) : nmin a b = Rmin a b.
Proof. unfold nmin. rnum. unfold Rmin. destruct (Rltb_spec b a), (Rle_dec a b); lra. Qed.
Lemma max_abs_case (lo hi : R) : max_abs lo hi = Rmax (Rabs lo) (Rabs hi).
Proof. unfold max_abs. rewrite nmax_Rmax. reflexivity. Qed.
Lemma sqr_le_abs (x m : R) : Rabs x <= m -> x ^ 2 <= m * m.
Proof. intros H. rewrite <- (pow2_abs x). pose proof (Rabs_pos x). cbn [pow]. nra. Qed.
Lemma max_abs_bound (lo hi v : R) : lo <= v <= hi -> Rabs v <= max_abs lo hi.
Proof.
  intros H. rewrite max_abs_case. destruct (Rle_lt_dec 0 v).
  - rewrite (Rabs_pos_eq v) by assumption. eapply Rle_trans; [|apply Rmax_r]. rewrite Rabs_pos_eq; lra.
  - rewrite (Rabs_left v) by assumption. eapply Rle_trans; [|apply Rmax_l]. rewrite Rabs_left; lra.
Qed.
Lemma max_abs_attained (lo hi m : R) : m < max_abs lo hi -> m < Rabs lo \/ m < Rabs hi.
Proof. rewrite max_abs_case. unfold Rmax. destruct (Rle_dec _ _); auto. Qed.
Lemma comp_le_norm3 (v : nat -> R) i : (i < 3)%nat -> Rabs (v i) <= norm3 v.
Proof.
  intros Hi. unfold norm3. rewrite <- (sqrt_pow2 (Rabs (v i))) by apply Rabs_pos. apply sqrt_le_1_alt. rewrite pow2_abs.
  pose proof (pow2_ge_0 (v 0%nat)). pose proof (pow2_ge_0 (v 1%nat)). pose proof (pow2_ge_0 (v 2%nat)).
  destruct i as [|[|[|i]]]; [lra..|lia].
Qed.
Lemma norm3_le (v : nat -> R) m : v 0%nat ^ 2 + v 1%nat ^ 2 + v 2%nat ^ 2 <= m -> norm3 v <= sqrt m.
Proof. apply sqrt_le_1_alt. Qed.
Lemma norm3_ge (v : nat -> R) m : m <= v 0%nat ^ 2 + v 1%nat ^ 2 + v 2%nat ^ 2 -> sqrt m <= norm3 v.
Proof. apply sqrt_le_1_alt. Qed.

Definition axes_ok (s : segment R) (d : nat) (roots : list (list (R * R))) : Prop :=
  forall i, (i < 3)%nat -> (i < length roots)%nat /\ covers_real_roots (seg_fun s i (S d)) 0 (seg_time s) (nth i roots []) /\ below_max s i d.
Definition section_of (s : segment R) (a b : R) : Prop := 0 <= a <= b /\ b <= seg_time s.
Definition good_seg (s : segment R) : Prop := seg_wf s /\ (seg_N s <= 22)%nat /\ (3 <= seg_D s)%nat.

Lemma axes_extrema (s : segment R) a b (d : nat) roots : good_seg s -> section_of s a b -> axes_ok s d roots ->
  exists lo hi : nat -> R, forall i, (i < 3)%nat -> axis_extrema s a b (Z.of_nat d) roots i = Ok (lo i, hi i) /\
    (exists x, a <= x <= b /\ seg_fun s i d x = lo i) /\ (exists x, a <= x <= b /\ seg_fun s i d x = hi i) /\
    forall t, a <= t <= b -> lo i <= seg_fun s i d t <= hi i.
Proof.
  intros (Hw & HN & HD) (Ha & Hb) Hx.
  assert (Q : forall i, (i < 3)%nat -> exists lo hi, axis_extrema s a b (Z.of_nat d) roots i = Ok (lo, hi) /\
    (exists x, a <= x <= b /\ seg_fun s i d x = lo) /\ (exists x, a <= x <= b /\ seg_fun s i d x = hi) /\
    forall t, a <= t <= b -> lo <= seg_fun s i d t <= hi).
  { intros i Hi. destruct (Hx i Hi) as (A & B & C). apply axis_extrema_ok; try assumption. lia. }
  destruct (Q 0%nat) as (l0 & h0 & Q0); [lia|]. destruct (Q 1%nat) as (l1 & h1 & Q1); [lia|]. destruct (Q 2%nat) as (l2 & h2 & Q2); [lia|].
  exists (fun i => match i with 0%nat => l0 | 1%nat => l1 | _ => l2 end), (fun i => match i with 0%nat => h0 | 1%nat => h1 | _ => h2 end).
  intros i Hi. destruct i as [|[|[|i]]]; [assumption..|lia].
Qed.

Lemma velocity_bound_spec ck (s : segment R) roots a b limit : good_seg s -> section_of s a b ->
  getConstraint (ck_input ck) kVMax = Some limit -> axes_ok s 1 roots ->
  exists r, velocity_bound ck s roots a b = Ok r /\
    match r with inl v => v = kInputInfeasibleVelocity /\ exists t, a <= t <= b /\ limit < speed s t
               | inr m => forall t, a <= t <= b -> speed s t <= sqrt m end.
Proof.
  intros Hg Hs Hc Hx. destruct (axes_extrema s a b 1 roots Hg Hs Hx) as (lo & hi & E).
  unfold velocity_bound. rewrite Hc. cbn [seq ofold].
  assert (Bad : forall i, (i < 3)%nat -> limit * limit < Rmax (lo i * lo i) (hi i * hi i) -> exists t, a <= t <= b /\ limit < speed s t).
  { intros i Hi H. destruct (E i Hi) as (_ & (x & X1 & X2) & (y & Y1 & Y2) & _).
    assert (C : forall t, limit * limit < seg_fun s i 1 t * seg_fun s i 1 t -> limit < speed s t).
    { intros t Ht. eapply Rlt_le_trans; [|apply (comp_le_norm3 (fun k => seg_fun s k 1 t) i Hi)].
      destruct (Rlt_le_dec limit (Rabs (seg_fun s i 1 t))) as [|L]; [assumption|].
      pose proof (sqr_le_abs _ _ L). cbn [pow] in *. lra. }
    unfold Rmax in H. destruct (Rle_dec _ _); [exists y; split; [exact Y1|]; apply C; rewrite Y2; exact H|exists x; split; [exact X1|]; apply C; rewrite X2; exact H]. }
  change 1%Z with (Z.of_nat 1). cbn [obind]. rewrite (proj1 (E 0%nat ltac:(lia))). cbn [obind fst snd]. rewrite nmax_Rmax. rnum.
  destruct (Rltb_spec (limit * limit) (Rmax (lo 0%nat * lo 0%nat) (hi 0%nat * hi 0%nat))) as [B0|_]; cbn [obind].
  { eexists. split; [reflexivity|]. split; [reflexivity|]. apply (Bad 0%nat); [lia|exact B0]. }
  rewrite (proj1 (E 1%nat ltac:(lia))). cbn [obind fst snd]. rewrite nmax_Rmax. rnum.
  destruct (Rltb_spec (limit * limit) (Rmax (lo 1%nat * lo 1%nat) (hi 1%nat * hi 1%nat))) as [B0|_]; cbn [obind].
  { eexists. split; [reflexivity|]. split; [reflexivity|]. apply (Bad 1%nat); [lia|exact B0]. }
  rewrite (proj1 (E 2%nat ltac:(lia))). cbn [obind fst snd]. rewrite nmax_Rmax. rnum.
  destruct (Rltb_spec (limit * limit) (Rmax (lo 2%nat * lo 2%nat) (hi 2%nat * hi 2%nat))) as [B0|_]; cbn [obind].
  { eexists. split; [reflexivity|]. split; [reflexivity|]. apply (Bad 2%nat); [lia|exact B0]. }
  eexists. split; [reflexivity|]. cbv beta iota. intros t Ht. apply norm3_le.
  assert (Q : forall i, (i < 3)%nat -> seg_fun s i 1 t ^ 2 <= max_abs (lo i) (hi i) * max_abs (lo i) (hi i)).
  { intros i Hi. apply sqr_le_abs, max_abs_bound. apply (E i Hi), Ht. }
  pose proof (Q 0%nat ltac:(lia)). pose proof (Q 1%nat ltac:(lia)). pose proof (Q 2%nat ltac:(lia)). unfold n0. rnum. lra.
Qed.

Lemma jerk_bound_spec ck (s : segment R) roots a b : good_seg s -> section_of s a b ->
  hasConstraint (ck_input ck) kOmegaXYMax = true -> axes_ok s 3 roots ->
  exists m, jerk_bound ck s roots a b = Ok m /\ forall t, a <= t <= b -> jerk s t ^ 2 <= m.
Proof.
  intros Hg Hs Hc Hx. destruct (axes_extrema s a b 3 roots Hg Hs Hx) as (lo & hi & E).
  unfold jerk_bound. rewrite Hc. cbn [seq ofold]. change 3%Z with (Z.of_nat 3).
  rewrite (proj1 (E 0%nat ltac:(lia))). cbn [obind fst snd]. rewrite (proj1 (E 1%nat ltac:(lia))). cbn [obind fst snd]. rewrite (proj1 (E 2%nat ltac:(lia))). cbn [obind fst snd].
  eexists. split; [reflexivity|]. intros t Ht. unfold jerk. rewrite norm3_sqr.
  assert (Q : forall i, (i < 3)%nat -> seg_fun s i 3 t ^ 2 <= max_abs (lo i) (hi i) * max_abs (lo i) (hi i)).
  { intros i Hi. apply sqr_le_abs, max_abs_bound. apply (E i Hi), Ht. }
  pose proof (Q 0%nat ltac:(lia)). pose proof (Q 1%nat ltac:(lia)). pose proof (Q 2%nat ltac:(lia)). unfold n0. rnum. lra.
Qed.

Lemma lower_bound_sqr (lo hi v m : R) : lo <= v <= hi ->
  (if Rltb (lo * hi) 0 then m + 0 else m + Rmin (Rabs lo) (Rabs hi) * Rmin (Rabs lo) (Rabs hi)) <= m + v ^ 2.
Proof.
  intros H. pose proof (pow2_ge_0 v). destruct (Rltb_spec (lo * hi) 0) as [L|L]; [lra|].
  assert (Q : Rmin (Rabs lo) (Rabs hi) <= Rabs v).
  { destruct (Rle_lt_dec 0 lo).
    - eapply Rle_trans; [apply Rmin_l|]. rewrite !Rabs_pos_eq; lra.
    - eapply Rle_trans; [apply Rmin_r|]. assert (hi <= 0) by nra. rewrite !Rabs_left1; lra. }
  assert (P : 0 <= Rmin (Rabs lo) (Rabs hi)) by (apply Rmin_glb; apply Rabs_pos).
  rewrite <- (pow2_abs v). cbn [pow]. nra.
Qed.

Definition kg : R := 980665 / 100000.
Lemma thrust_bounds_spec ck (s : segment R) roots a b : good_seg s -> section_of s a b -> ck_gravity ck = [0; 0; kg] ->
  needs_thrust (ck_input ck) = true -> axes_ok s 2 roots ->
  exists r, thrust_bounds ck s roots a b = Ok r /\
    match r with inl v => v = kInputInfeasibleThrustHigh /\ (exists l, getConstraint (ck_input ck) kFMax = Some l /\ exists t, a <= t <= b /\ l < thrust s t)
               | inr (mn, mx) => forall t, a <= t <= b -> 0 <= mx /\ mn <= thrust s t ^ 2 <= mx end.
Proof.
  intros Hg Hs HG Hc Hx. destruct (axes_extrema s a b 2 roots Hg Hs Hx) as (lo & hi & E).
  unfold thrust_bounds. rewrite Hc, HG. cbn [seq ofold]. change 2%Z with (Z.of_nat 2).
  assert (Bad : forall i, (i < 3)%nat -> with_limit (ck_input ck) kFMax (fun limit => Rltb limit (max_abs (lo i + gravity i) (hi i + gravity i))) = true ->
    exists l, getConstraint (ck_input ck) kFMax = Some l /\ exists t, a <= t <= b /\ l < thrust s t).
  { intros i Hi H. unfold with_limit in H. destruct (getConstraint (ck_input ck) kFMax) as [l|]; [|discriminate]. exists l. split; [reflexivity|].
    apply Rltb_true in H. destruct (E i Hi) as (_ & (x & X1 & X2) & (y & Y1 & Y2) & _).
    assert (C : forall t, l < Rabs (seg_fun s i 2 t + gravity i) -> l < thrust s t).
    { intros t Ht. eapply Rlt_le_trans; [exact Ht|]. apply (comp_le_norm3 (thrust_vec s t) i Hi). }
    apply max_abs_attained in H. destruct H as [H|H]; [exists x|exists y]; (split; [assumption|]); apply C; congruence. }
  cbn [oget nth_error obind]. change 0 with (gravity 0) at 1. change 0 with (gravity 1) at 1.
  rewrite (proj1 (E 0%nat ltac:(lia))). cbn [obind fst snd].
  change (nadd (lo 0%nat) 0) with (lo 0%nat + gravity 0). change (nadd (hi 0%nat) 0) with (hi 0%nat + gravity 0).
  destruct (with_limit (ck_input ck) kFMax _) eqn:B0; cbn [obind].
  { eexists. split; [reflexivity|]. split; [reflexivity|]. apply (Bad 0%nat); [lia|exact B0]. }
  rewrite (proj1 (E 1%nat ltac:(lia))). cbn [obind fst snd].
  change (nadd (lo 1%nat) 0) with (lo 1%nat + gravity 1). change (nadd (hi 1%nat) 0) with (hi 1%nat + gravity 1).
  destruct (with_limit (ck_input ck) kFMax (fun limit => nltb limit (max_abs (lo 1%nat + gravity 1) (hi 1%nat + gravity 1)))) eqn:B1; cbn [obind].
  { eexists. split; [reflexivity|]. split; [reflexivity|]. apply (Bad 1%nat); [lia|exact B1]. }
  rewrite (proj1 (E 2%nat ltac:(lia))). cbn [obind fst snd].
  change (nadd (lo 2%nat) kg) with (lo 2%nat + gravity 2). change (nadd (hi 2%nat) kg) with (hi 2%nat + gravity 2).
  destruct (with_limit (ck_input ck) kFMax (fun limit => nltb limit (max_abs (lo 2%nat + gravity 2) (hi 2%nat + gravity 2)))) eqn:B2; cbn [obind].
  { eexists. split; [reflexivity|]. split; [reflexivity|]. apply (Bad 2%nat); [lia|exact B2]. }
  eexists. split; [reflexivity|]. cbv beta iota. intros t Ht. rewrite thrust_sqr. rewrite !nmin_Rmin'. unfold n0. rnum.
  assert (I : forall i, (i < 3)%nat -> lo i + gravity i <= thrust_vec s t i <= hi i + gravity i).
  { intros i Hi. unfold thrust_vec. destruct (E i Hi) as (_ & _ & _ & H). specialize (H t Ht). lra. }
  assert (Q : forall i, (i < 3)%nat -> thrust_vec s t i ^ 2 <= max_abs (lo i + gravity i) (hi i + gravity i) * max_abs (lo i + gravity i) (hi i + gravity i)).
  { intros i Hi. apply sqr_le_abs, max_abs_bound, I, Hi. }
  pose proof (Q 0%nat ltac:(lia)). pose proof (Q 1%nat ltac:(lia)). pose proof (Q 2%nat ltac:(lia)).
  pose proof (pow2_ge_0 (thrust_vec s t 0)). pose proof (pow2_ge_0 (thrust_vec s t 1)). pose proof (pow2_ge_0 (thrust_vec s t 2)).
  split; [lra|]. split; [|lra].
  eapply Rle_trans; [apply lower_bound_sqr, (I 2%nat); lia|]. apply Rplus_le_compat_r.
  eapply Rle_trans; [apply lower_bound_sqr, (I 1%nat); lia|]. apply Rplus_le_compat_r.
  eapply Rle_trans; [apply lower_bound_sqr, (I 0%nat); lia|]. lra.
Qed.

(** ** Values at one time *)
Lemma evaluateThrust_ok ck (s : segment R) t : good_seg s -> ck_gravity ck = [0; 0; kg] -> evaluateThrust ck s t = Ok (thrust s t).
Proof.
  intros (Hw & HN & HD) HG. unfold evaluateThrust. destruct (evaluate_head s t 2 Hw HN HD) as (v & E1 & E2). change (Z.of_nat 2) with 2%Z in E1.
  rewrite E1. cbn [obind]. rewrite E2. cbn [obind]. rewrite HG. cbn [vadd combine map fst snd]. rewrite vnorm_norm3 by reflexivity. reflexivity.
Qed.
Lemma evaluateSpeed_ok (s : segment R) t : good_seg s -> evaluateSpeed s t = Ok (speed s t).
Proof.
  intros (Hw & HN & HD). unfold evaluateSpeed. destruct (evaluate_head s t 1 Hw HN HD) as (v & E1 & E2). change (Z.of_nat 1) with 1%Z in E1.
  rewrite E1. cbn [obind]. rewrite E2. cbn [obind]. rewrite vnorm_norm3 by reflexivity. reflexivity.
Qed.

(** A verdict that is not backed by a violation is kInputFeasible or kInputIndeterminable. *)
Definition justified (l : limits) (s : segment R) (a b : R) (r : feasibility + unit) : Prop :=
  match r with inl v => exists t, a <= t <= b /\ violated l s v t | inr _ => True end.

Lemma boundary_thrust_spec ck (s : segment R) a b : good_seg s -> section_of s a b -> ck_gravity ck = [0; 0; kg] ->
  exists r, boundary_thrust ck s a b = Ok r /\ r <> inl kInputFeasible /\ r <> inl kInputIndeterminable /\ justified (limits_of (ck_input ck)) s a b r.
Proof.
  intros Hg Hs HG. unfold boundary_thrust. rewrite !has_get.
  destruct (_ || _) eqn:Ho; [|exists (inr tt); repeat split; discriminate]. rewrite !evaluateThrust_ok by assumption. cbn [obind].
  assert (Hab : a <= b) by (unfold section_of in Hs; lra).
  unfold ebind, return_if. cbn [obind]. rewrite !with_limit_spec.
  destruct (getConstraint (ck_input ck) kFMin) as [l|] eqn:E1.
  - rewrite nmin_Rmin'. rnum. destruct (Rltb_spec (Rmin (thrust s a) (thrust s b)) l) as [H|H]; cbn [obind].
    + eexists. split; [reflexivity|]. repeat split; try discriminate. cbn [justified violated limits_of l_thrust_min]. rewrite E1. cbn [broken_for].
      unfold Rmin in H. destruct (Rle_dec _ _); [exists a|exists b]; split; lra.
    + destruct (getConstraint (ck_input ck) kFMax) as [u|] eqn:E2; [|exists (inr tt); repeat split; discriminate].
      rewrite nmax_Rmax. destruct (Rltb_spec u (Rmax (thrust s a) (thrust s b))) as [H2|H2]; (eexists; split; [reflexivity|]); repeat split; try discriminate.
      cbn [justified violated limits_of l_thrust_max]. rewrite E2. cbn [broken_for]. unfold Rmax in H2. destruct (Rle_dec _ _); [exists b|exists a]; split; lra.
  - destruct (getConstraint (ck_input ck) kFMax) as [u|] eqn:E2; [|discriminate].
    rewrite nmax_Rmax. rnum. destruct (Rltb_spec u (Rmax (thrust s a) (thrust s b))) as [H2|H2]; (eexists; split; [reflexivity|]); repeat split; try discriminate.
    cbn [justified violated limits_of l_thrust_max]. rewrite E2. cbn [broken_for]. unfold Rmax in H2. destruct (Rle_dec _ _); [exists b|exists a]; split; lra.
Qed.
Lemma boundary_velocity_spec ck (s : segment R) a b : good_seg s -> section_of s a b ->
  exists r, boundary_velocity ck s a b = Ok r /\ r <> inl kInputFeasible /\ r <> inl kInputIndeterminable /\ justified (limits_of (ck_input ck)) s a b r.
Proof.
  intros Hg Hs. unfold boundary_velocity. assert (Hab : a <= b) by (unfold section_of in Hs; lra).
  destruct (getConstraint (ck_input ck) kVMax) as [l|] eqn:E; [|exists (inr tt); repeat split; discriminate].
  rewrite !evaluateSpeed_ok by assumption. cbn [obind]. unfold return_if. rewrite nmax_Rmax. rnum.
  destruct (Rltb_spec l (Rmax (speed s a) (speed s b))) as [H|H]; (eexists; split; [reflexivity|]); repeat split; try discriminate.
  cbn [justified violated limits_of l_speed]. rewrite E. cbn [broken_for]. unfold Rmax in H. destruct (Rle_dec _ _); [exists b|exists a]; split; lra.
Qed.

(** ** One section *)
Definition motion_within (l : limits) s t : Prop := thrust_within l s t /\ speed_within l s t /\ roll_pitch_within l s t.
Definition section_roots (c : @constraints R) s roots_acc roots_jerk roots_snap : Prop :=
  (hasConstraint c kVMax = true -> axes_ok s 1 roots_acc) /\ (needs_thrust c = true -> axes_ok s 2 roots_jerk) /\
  (hasConstraint c kOmegaXYMax = true -> axes_ok s 3 roots_snap).

Lemma section_check_spec ck (s : segment R) ra rj rs a b : good_seg s -> section_of s a b -> ck_gravity ck = [0; 0; kg] ->
  section_roots (ck_input ck) s ra rj rs -> (forall l, getConstraint (ck_input ck) kOmegaXYMax = Some l -> l < @dbl_max R R_ops) ->
  exists r, section_check ck s ra rj rs a b = Ok r /\ r <> inl kInputIndeterminable /\
    (r = inl kInputFeasible -> forall t, a <= t <= b -> motion_within (limits_of (ck_input ck)) s t) /\
    justified (limits_of (ck_input ck)) s a b r /\ r <> inl kInputInfeasibleRollPitchRates.
Proof.
  intros Hg Hs HG (Ra & Rj & Rs) Hm. unfold section_check. set (c := ck_input ck) in *. set (L := limits_of c).
  assert (Hab : a <= b) by (unfold section_of in Hs; lra).
  destruct (boundary_thrust_spec ck s a b Hg Hs HG) as (r1 & E1 & N1 & N1' & J1). rewrite E1. unfold ebind at 1. cbn [obind].
  destruct r1 as [v|[]].
  { exists (inl v). split; [reflexivity|]. split; [assumption|]. split; [intros Q; congruence|]. split; [exact J1|].
    clear - E1. intros Q. injection Q as ->. unfold boundary_thrust in E1. destruct (_ || _); [|discriminate].
    destruct (evaluateThrust ck s a); try discriminate. destruct (evaluateThrust ck s b); try discriminate. cbn [obind] in E1. unfold ebind, return_if in E1. cbn [obind] in E1.
    destruct (with_limit _ kFMin _); [discriminate|]. cbn [obind] in E1. destruct (with_limit _ kFMax _); discriminate. }
  destruct (boundary_velocity_spec ck s a b Hg Hs) as (r2 & E2 & N2 & N2' & J2). rewrite E2. unfold ebind at 1. cbn [obind].
  destruct r2 as [v|[]].
  { exists (inl v). split; [reflexivity|]. split; [assumption|]. split; [intros Q; congruence|]. split; [exact J2|].
    clear - E2. intros Q. injection Q as ->. unfold boundary_velocity in E2. destruct (getConstraint _ _); [|discriminate].
    destruct (evaluateSpeed s a); try discriminate. destruct (evaluateSpeed s b); try discriminate. cbn [obind] in E2. unfold return_if in E2. destruct (nltb _ _); discriminate. }
  assert (V : exists r, velocity_bound ck s ra a b = Ok r /\
    match r with inl v => v = kInputInfeasibleVelocity /\ exists t, a <= t <= b /\ violated L s kInputInfeasibleVelocity t
               | inr m => forall t, a <= t <= b -> holds_for (l_speed L) (fun _ => speed s t <= sqrt m) end).
  { destruct (getConstraint c kVMax) as [l|] eqn:Ev.
    - destruct (velocity_bound_spec ck s ra a b l Hg Hs Ev) as (r & Er & Hr); [apply Ra; rewrite has_get, Ev; reflexivity|]. exists r. split; [exact Er|].
      unfold L, violated, limits_of. cbn [l_speed]. rewrite Ev. cbn [broken_for holds_for]. destruct r; exact Hr.
    - exists (inr n0). split; [unfold velocity_bound; fold c; rewrite Ev; reflexivity|]. intros. unfold L, limits_of. cbn [l_speed]. rewrite Ev. exact I. }
  destruct V as (rv & Ev & Hv). rewrite Ev. unfold ebind at 1. cbn [obind].
  destruct rv as [v|vm]. { destruct Hv as (-> & Hv). eexists. split; [reflexivity|]. split; [discriminate|]. split; [discriminate|]. split; [exact Hv|discriminate]. }
  assert (F : exists r, thrust_bounds ck s rj a b = Ok r /\
    match r with inl v => v = kInputInfeasibleThrustHigh /\ exists t, a <= t <= b /\ violated L s kInputInfeasibleThrustHigh t
               | inr (mn, mx) => needs_thrust c = true -> forall t, a <= t <= b -> 0 <= mx /\ mn <= thrust s t ^ 2 <= mx end).
  { destruct (needs_thrust c) eqn:En.
    - destruct (thrust_bounds_spec ck s rj a b Hg Hs HG En (Rj eq_refl)) as (r & Er & Hr). exists r. split; [exact Er|].
      destruct r as [v|[mn mx]]; [|intros _; exact Hr]. destruct Hr as (-> & l & El & Hr). split; [reflexivity|].
      unfold L, violated, limits_of. cbn [l_thrust_max]. fold c in El. rewrite El. exact Hr.
    - eexists. split; [unfold thrust_bounds; fold c; rewrite En; reflexivity|]. cbv beta iota. discriminate. }
  destruct F as (rf & Ef & Hf). rewrite Ef. unfold ebind at 1. cbn [obind].
  destruct rf as [v|[fm fM]]. { destruct Hf as (-> & Hf). eexists. split; [reflexivity|]. split; [discriminate|]. split; [discriminate|]. split; [exact Hf|discriminate]. }
  assert (J : exists jm, jerk_bound ck s rs a b = Ok jm /\ (hasConstraint c kOmegaXYMax = true -> forall t, a <= t <= b -> jerk s t ^ 2 <= jm)).
  { destruct (hasConstraint c kOmegaXYMax) eqn:Eo.
    - destruct (jerk_bound_spec ck s rs a b Hg Hs Eo (Rs eq_refl)) as (m & Em & Hjm). exists m. auto.
    - exists n0. split; [unfold jerk_bound; fold c; rewrite Eo; reflexivity|discriminate]. }
  destruct J as (jm & Ej & Hj). rewrite Ej. cbn [obind fst snd]. unfold ebind, return_if. cbn [obind]. fold c. rewrite !with_limit_spec.
  assert (T0 : forall t, 0 <= thrust s t) by (intros; apply norm3_pos).
  (* upper bound below the lower limit *)
  assert (Lo : match getConstraint c kFMin with Some l => Rltb (sqrt fM) l | None => false end = true -> exists t, a <= t <= b /\ violated L s kInputInfeasibleThrustLow t).
  { unfold L, violated, limits_of. cbn [l_thrust_min]. destruct (getConstraint c kFMin) as [l|] eqn:El; [|discriminate]. intros H. apply Rltb_true in H. exists a. split; [lra|]. cbn [broken_for].
    assert (Nt : needs_thrust c = true) by (unfold needs_thrust; rewrite !has_get, El; reflexivity).
    destruct (Hf Nt a ltac:(lra)) as (P & Q1 & Q2). eapply Rle_lt_trans; [|exact H]. rewrite <- (sqrt_pow2 (thrust s a)) by apply T0. apply sqrt_le_1_alt, Q2. }
  assert (Hi : match getConstraint c kFMax with Some l => Rltb l (sqrt fm) | None => false end = true -> exists t, a <= t <= b /\ violated L s kInputInfeasibleThrustHigh t).
  { unfold L, violated, limits_of. cbn [l_thrust_max]. destruct (getConstraint c kFMax) as [l|] eqn:El; [|discriminate]. intros H. apply Rltb_true in H. exists a. split; [lra|]. cbn [broken_for].
    assert (Nt : needs_thrust c = true) by (unfold needs_thrust; rewrite !has_get, El; apply orb_true_iff; left; apply orb_true_r).
    destruct (Hf Nt a ltac:(lra)) as (P & Q1 & Q2). eapply Rlt_le_trans; [exact H|]. rewrite <- (sqrt_pow2 (thrust s a)) by apply T0. apply sqrt_le_1_alt, Q1. }
  change (nsqrt fM) with (sqrt fM). change (nsqrt fm) with (sqrt fm). change (nsqrt vm) with (sqrt vm). change (@nltb R R_ops) with Rltb.
  destruct (match getConstraint c kFMin with Some l => Rltb (sqrt fM) l | None => false end) eqn:B1; cbn [obind].
  { eexists. split; [reflexivity|]. split; [discriminate|]. split; [discriminate|]. split; [apply Lo; reflexivity|discriminate]. }
  destruct (match getConstraint c kFMax with Some l => Rltb l (sqrt fm) | None => false end) eqn:B2; cbn [obind].
  { eexists. split; [reflexivity|]. split; [discriminate|]. split; [discriminate|]. split; [apply Hi; reflexivity|discriminate]. }
  eexists. split; [reflexivity|]. split; [destruct (negb _); discriminate|].
  split; [|split; [destruct (negb _); [exists a; split; [lra|exact I]|exact I]|destruct (negb _); discriminate]].
  intros Q t Ht. destruct (negb _) eqn:Nb; [|discriminate]. apply negb_true_iff, orb_false_iff in Nb. destruct Nb as (Nb & N4).
  apply orb_false_iff in Nb. destruct Nb as (Nb & N3). apply orb_false_iff in Nb. destruct Nb as (N11 & N22).
  unfold motion_within, thrust_within, speed_within, roll_pitch_within, L, limits_of. cbn [l_thrust_min l_thrust_max l_speed l_roll_pitch].
  split; [split|split].
  - destruct (getConstraint c kFMin) as [l|] eqn:El; [|exact I]. cbn [holds_for]. apply Rltb_false in N11.
    assert (Nt : needs_thrust c = true) by (unfold needs_thrust; rewrite !has_get, El; reflexivity).
    destruct (Hf Nt t Ht) as (P & Q1 & Q2). eapply Rle_trans; [exact N11|]. rewrite <- (sqrt_pow2 (thrust s t)) by apply T0. apply sqrt_le_1_alt, Q1.
  - destruct (getConstraint c kFMax) as [l|] eqn:El; [|exact I]. cbn [holds_for]. apply Rltb_false in N22.
    assert (Nt : needs_thrust c = true) by (unfold needs_thrust; rewrite !has_get, El; apply orb_true_iff; left; apply orb_true_r).
    destruct (Hf Nt t Ht) as (P & Q1 & Q2). eapply Rle_trans; [|exact N22]. rewrite <- (sqrt_pow2 (thrust s t)) by apply T0. apply sqrt_le_1_alt, Q2.
  - specialize (Hv t Ht). unfold L, limits_of in Hv. cbn [l_speed] in Hv. destruct (getConstraint c kVMax) as [l|] eqn:El; [|exact I]. cbn [holds_for] in *.
    apply Rltb_false in N3. lra.
  - destruct (getConstraint c kOmegaXYMax) as [l|] eqn:El; [|exact I]. cbn [holds_for].
    assert (Nt : needs_thrust c = true) by (unfold needs_thrust; rewrite !has_get, El; apply orb_true_r).
    assert (No : hasConstraint c kOmegaXYMax = true) by (rewrite has_get, El; reflexivity).
    destruct (Hf Nt t Ht) as (P & Q1 & Q2). pose proof (Hj No t Ht) as Hjt.
    apply Rltb_false in N4. specialize (Hm l eq_refl).
    destruct (Rltb_spec (nlit 1 1000000) fm) as [Hlt|Hlt]; [|lra].
    assert (Z0 : 0 < @nlit R R_ops 1 1000000). { unfold nlit. rnum. lra. }
    assert (Fp : 0 < thrust s t). { destruct (Rle_lt_or_eq_dec _ _ (T0 t)) as [|Ez]; [assumption|]. rewrite <- Ez in Q1. cbn [pow] in Q1. lra. }
    split; [exact Fp|]. split; [intros k; eexists; apply is_derive_direction, Fp|].
    eapply Rle_trans; [apply roll_pitch_rate_le, Fp|]. eapply Rle_trans; [|exact N4].
    assert (Jp : 0 <= jerk s t) by apply norm3_pos.
    change (jerk s t / thrust s t <= sqrt (jm / fm)).
    rewrite <- (sqrt_pow2 (jerk s t / thrust s t)) by (apply Rdiv_le_0_compat; assumption). apply sqrt_le_1_alt.
    replace ((jerk s t / thrust s t) ^ 2) with (jerk s t ^ 2 / thrust s t ^ 2) by (field; lra).
    assert (Ff : 0 < fm) by lra.
    unfold Rdiv. apply Rmult_le_compat; [apply pow2_ge_0|apply Rlt_le, Rinv_0_lt_compat, pow_lt, Fp|exact Hjt|]. apply Rinv_le_contravar; assumption.
Qed.

(** ** Halving *)
Lemma halving_spec (m : R) check (G : R -> Prop) (B : feasibility -> R -> Prop) fuel : forall a b, a <= b ->
  (forall x y, a <= x -> x <= y -> y <= b -> exists r, check x y = Ok r /\ r <> inl kInputIndeterminable /\
     (r = inl kInputFeasible -> forall t, x <= t <= y -> G t) /\ match r with inl v => exists t, x <= t <= y /\ B v t | inr _ => True end) ->
  exists r, halving m check fuel a b = Ok r /\
    (r = Some kInputFeasible -> forall t, a <= t <= b -> G t) /\
    (forall v, r = Some v -> v <> kInputIndeterminable -> exists t, a <= t <= b /\ B v t) /\
    (r = None -> m * 2 ^ fuel <= b - a) /\
    (r = Some kInputIndeterminable -> exists x y, a <= x <= y /\ y <= b /\ y - x < m).
Proof.
  induction fuel as [|fuel IH]; intros a b Hab Hck; cbn [halving]; rnum; destruct (Rltb_spec (b - a) m) as [Hlt|Hge].
  - eexists. split; [reflexivity|]. split; [discriminate|]. split; [|split; [discriminate|intros _; exists a, b; lra]]. intros v E N. apply Some_inj in E. congruence.
  - eexists. split; [reflexivity|]. split; [discriminate|]. split; [discriminate|]. split; [|discriminate]. intros _. cbn [pow]. lra.
  - eexists. split; [reflexivity|]. split; [discriminate|]. split; [|split; [discriminate|intros _; exists a, b; lra]]. intros v E N. apply Some_inj in E. congruence.
  - destruct (Hck a b) as (r & Er & N0 & Hf & Hb); try lra. rewrite Er. cbn [obind]. destruct r as [v|[]].
    { eexists. split; [reflexivity|]. split; [intros E; apply Some_inj in E; subst v; apply Hf; reflexivity|]. split; [|split; [discriminate|]].
      - intros w E _. apply Some_inj in E. subst w. exact Hb.
      - intros E. apply Some_inj in E. congruence. }
    set (h := (a + b) / 2).
    assert (H1 : a <= h <= b) by (unfold h; lra).
    destruct (IH a h) as (r1 & E1 & F1 & B1 & O1 & S1); [lra|intros x y X1 X2 X3; apply Hck; lra|]. rewrite E1. cbn [obind].
    destruct (IH h b) as (r2 & E2 & F2 & B2 & O2 & S2); [lra|intros x y X1 X2 X3; apply Hck; lra|].
    assert (Hh : h - a = (b - a) / 2 /\ b - h = (b - a) / 2) by (unfold h; split; lra).
    destruct r1 as [[]|].
    1:{ rewrite E2. exists r2. split; [reflexivity|]. split; [|split; [|split]].
        - intros E t Ht. destruct (Rle_lt_dec t h); [apply F1; [reflexivity|lra]|apply F2; [exact E|lra]].
        - intros v E N. destruct (B2 v E N) as (t & T1 & T2). exists t. split; [lra|exact T2].
        - intros E. specialize (O2 E). cbn [pow]. lra.
        - intros E. destruct (S2 E) as (x & y & X1 & X2 & X3). exists x, y. lra. }
    all: eexists; (split; [reflexivity|]); (split; [discriminate|]); split; [|split].
    all: try (intros v E N; destruct (B1 v E N) as (t & T1 & T2); exists t; split; [lra|exact T2]).
    all: intros E; try discriminate E; try (specialize (O1 E); cbn [pow]; lra).
    destruct (S1 E) as (x & y & X1 & X2 & X3). exists x, y. lra.
Qed.
Lemma halving_more {T} {ops : NumOps T} m (check : T -> T -> outcome (feasibility + unit)) fuel : forall a b v,
  halving m check fuel a b = Ok (Some v) -> halving m check (S fuel) a b = Ok (Some v).
Proof.
  induction fuel as [|fuel IH]; intros a b v H.
  - cbn [halving] in *. destruct (nltb _ _); [exact H|discriminate].
  - change (halving m check (S (S fuel)) a b) with (if nltb (nsub b a) m then Ok (Some kInputIndeterminable) else
      r <-- check a b ;; match r with inl v => Ok (Some v) | inr _ => let t_half := ndiv (nadd a b) (nofZ 2) in
        r1 <-- halving m check (S fuel) a t_half ;; match r1 with Some kInputFeasible => halving m check (S fuel) t_half b | _ => Ok r1 end end).
    cbn [halving] in H. destruct (nltb _ _); [exact H|]. destruct (check a b) as [r| | |]; cbn [obind] in *; try discriminate. destruct r as [w|[]]; [exact H|]. cbv zeta.
    destruct (halving m check fuel a _) as [r1| | |] eqn:E1; cbn [obind] in H; try discriminate.
    destruct r1 as [w|]; [|discriminate]. rewrite (IH _ _ _ E1). cbn [obind]. destruct w; try exact H. apply IH, H.
Qed.
Lemma halving_enough {T} {ops : NumOps T} m (check : T -> T -> outcome (feasibility + unit)) fuel fuel' a b v :
  (fuel <= fuel')%nat -> halving m check fuel a b = Ok (Some v) -> halving m check fuel' a b = Ok (Some v).
Proof. induction 1; intros H1; [assumption|]. apply halving_more. auto. Qed.

Lemma halving_abort_more {T} {ops : NumOps T} m (check : T -> T -> outcome (feasibility + unit)) fuel : forall a b,
  halving m check fuel a b = Abort -> halving m check (S fuel) a b = Abort.
Proof.
  induction fuel as [|fuel IH]; intros a b H.
  - cbn [halving] in *. destruct (nltb _ _); discriminate.
  - change (halving m check (S (S fuel)) a b) with (if nltb (nsub b a) m then Ok (Some kInputIndeterminable) else
      r <-- check a b ;; match r with inl v => Ok (Some v) | inr _ => let t_half := ndiv (nadd a b) (nofZ 2) in
        r1 <-- halving m check (S fuel) a t_half ;; match r1 with Some kInputFeasible => halving m check (S fuel) t_half b | _ => Ok r1 end end).
    cbn [halving] in H. destruct (nltb _ _); [exact H|]. destruct (check a b) as [r| | |]; cbn [obind] in *; try discriminate; try reflexivity. destruct r as [w|[]]; [exact H|]. cbv zeta.
    destruct (halving m check fuel a _) as [r1| | |] eqn:E1; cbn [obind] in H; try discriminate.
    + destruct r1 as [w|]; [|discriminate]. rewrite (halving_more _ _ _ _ _ _ E1). cbn [obind]. destruct w; try discriminate. apply IH, H.
    + rewrite (IH _ _ E1). reflexivity.
Qed.
Lemma halving_abort {T} {ops : NumOps T} m (check : T -> T -> outcome (feasibility + unit)) fuel fuel' a b :
  (fuel <= fuel')%nat -> halving m check fuel a b = Abort -> halving m check fuel' a b = Abort.
Proof. induction 1; intros H1; [assumption|]. apply halving_abort_more. auto. Qed.

(** ** Roots of the axes *)
Definition roots_found (rf : @root_oracle R) (s : segment R) (k d : nat) : Prop :=
  forall cs, (forall t, poly_fun cs t = seg_fun s k d t) -> covers_real_roots (poly_fun cs) 0 (seg_time s) (snd (rf cs)).

Lemma getRoots_ok rf (s : segment R) k (d : nat) : good_seg s -> (k < seg_D s)%nat -> (d <= seg_N s)%nat -> (d < 22)%nat -> roots_found rf s k d ->
  exists b roots, poly_getRoots rf (nth k (seg_polys s) []) (Z.of_nat d) = Ok (b, roots) /\ covers_real_roots (seg_fun s k d) 0 (seg_time s) roots.
Proof.
  intros (Hw & HN & HD) Hk Hd H22 Hr. set (p := nth k (seg_polys s) []). assert (Lp : length p = seg_N s) by (apply seg_wf_nth; assumption).
  destruct (getCoefficients_defined p (Z.of_nat d)) as [cs Hcs]; [change kMaxConvolutionSize with 22%nat; lia|lia|change kMaxConvolutionSize with 22%nat; lia|].
  unfold poly_getRoots. rewrite Hcs. cbn [obind]. destruct (getCoefficients_ok p _ cs Hcs) as (_ & _ & Hp). rewrite Nat2Z.id in Hp.
  assert (Q : forall t, poly_fun cs t = seg_fun s k d t) by (intros t; rewrite <- dpoly_0, Hp, Nat.add_0_r; symmetry; apply seg_fun_dpoly).
  specialize (Hr cs Q). destruct (rf cs) as [b roots]. exists b, roots. split; [reflexivity|]. eapply covers_ext; [|exact Hr]. exact Q.
Qed.

Lemma axis_roots_spec rf (s : segment R) needed (d : nat) : good_seg s -> (S d <= seg_N s)%nat \/ needed = false -> (d < 21)%nat ->
  (needed = true -> forall i, (i < 3)%nat -> roots_found rf s i (S d) /\ below_max s i d) ->
  exists r, axis_roots rf s needed (Z.of_nat (S d)) = Ok r /\
    match r with inl v => v = kInputIndeterminable | inr roots => needed = true -> axes_ok s d roots end.
Proof.
  intros Hg Hd H21 Hr. unfold axis_roots. destruct needed; [|eexists; split; [reflexivity|discriminate]]. specialize (Hr eq_refl).
  destruct Hd as [Hd|?]; [|discriminate].
  assert (HD : (3 <= seg_D s)%nat) by (destruct Hg as (_ & _ & HD); exact HD).
  assert (Q : forall k, (k < 3)%nat -> exists b roots, poly_getRoots rf (nth k (seg_polys s) []) (Z.of_nat (S d)) = Ok (b, roots) /\ covers_real_roots (seg_fun s k (S d)) 0 (seg_time s) roots).
  { intros k Hk. apply getRoots_ok; try assumption; try lia. apply (Hr k Hk). }
  destruct (Q 0%nat) as (b0 & r0 & E0 & C0); [lia|]. destruct (Q 1%nat) as (b1 & r1 & E1 & C1); [lia|]. destruct (Q 2%nat) as (b2 & r2 & E2 & C2); [lia|].
  cbn [seq ofold]. rewrite !seg_index_ok by lia. cbn [obind]. rewrite E0. cbn [obind fst snd].
  destruct b0; cbn [obind]; [|eexists; split; reflexivity]. rewrite E1. cbn [obind fst snd].
  destruct b1; cbn [obind]; [|eexists; split; reflexivity]. rewrite E2. cbn [obind fst snd].
  destruct b2; cbn [obind]; [|eexists; split; reflexivity].
  eexists. split; [reflexivity|]. intros _ i Hi. destruct (Hr i Hi) as (_ & Hb). destruct i as [|[|[|i]]]; [..|lia]; (split; [cbn; lia|split; [assumption|exact Hb]]).
Qed.

(** ** Yaw *)
Lemma yaw_limit_spec rf c (s : segment R) k (d : nat) verdict : good_seg s -> seg_D s = 4%nat -> 0 <= seg_time s -> (d < 21)%nat ->
  (getConstraint c k <> None -> roots_found rf s 3 (S d) /\ below_max s 3 d) ->
  exists r, yaw_limit rf c s 0 (seg_time s) k (Z.of_nat d) verdict = Ok r /\
    match r with
    | inl v => v = kInputIndeterminable \/ v = verdict /\ broken_for (getConstraint c k) (fun l => exists t, 0 <= t <= seg_time s /\ l < Rabs (seg_fun s 3 d t))
    | inr _ => forall t, 0 <= t <= seg_time s -> holds_for (getConstraint c k) (fun l => Rabs (seg_fun s 3 d t) <= l)
    end.
Proof.
  intros Hg HD HT H21 Hr. unfold yaw_limit. destruct (getConstraint c k) as [l|]; [|exists (inr tt); split; [reflexivity|intros; exact I]].
  destruct Hr as (Hr & Hb); [discriminate|]. rewrite seg_index_ok by lia. cbn [obind]. set (p := nth 3 (seg_polys s) []).
  destruct Hg as (Hw & HN & _). assert (Lp : length p = seg_N s) by (apply seg_wf_nth; [exact Hw|lia]).
  destruct (le_lt_dec (length p) d) as [L|L].
  - rewrite (proj2 (computeMinMax_false rf p 0 (seg_time s) d ltac:(lia))) by (right; exact L). cbn [obind]. eexists. split; [reflexivity|]. left. reflexivity.
  - destruct (computeMinMax_global rf p 0 (seg_time s) d) as (tm & vm & tM & vM & E & (M1 & M2 & M3) & (X1 & X2 & X3)); try lia; try assumption.
    + intros cs _ Hcs. apply Hr. exact Hcs.
    + rewrite E. cbn [obind snd]. unfold return_if. rnum. change (Derive_n (poly_fun p) d) with (seg_fun s 3 d) in *.
      destruct (Rltb_spec l (max_abs vm vM)) as [Hl|Hl]; (eexists; split; [reflexivity|]).
      * right. split; [reflexivity|]. apply max_abs_attained in Hl. cbn [broken_for]. destruct Hl as [Hl|Hl]; [exists tm|exists tM]; (split; [assumption|]); congruence.
      * intros t Ht. cbn [holds_for]. eapply Rle_trans; [|exact Hl]. apply max_abs_bound. split; auto.
Qed.
Lemma yaw_check_spec rf c (s : segment R) : good_seg s -> 0 <= seg_time s ->
  (seg_D s = 4%nat -> getConstraint c kOmegaZMax <> None -> roots_found rf s 3 2 /\ below_max s 3 1) ->
  (seg_D s = 4%nat -> getConstraint c kOmegaZDotMax <> None -> roots_found rf s 3 3 /\ below_max s 3 2) ->
  exists r, yaw_check rf c s 0 (seg_time s) = Ok r /\ r <> inl kInputFeasible /\ r <> inl kInputInfeasibleRollPitchRates /\
    match r with
    | inl v => v = kInputIndeterminable \/ exists t, 0 <= t <= seg_time s /\ violated (limits_of c) s v t
    | inr _ => forall t, 0 <= t <= seg_time s -> yaw_within (limits_of c) s t
    end.
Proof.
  intros Hg HT H1 H2. unfold yaw_check. destruct (Nat.eqb_spec (seg_D s) 4) as [HD|HD].
  2:{ eexists. split; [reflexivity|]. split; [discriminate|]. split; [discriminate|]. intros t _ E. contradiction. }
  destruct (yaw_limit_spec rf c s kOmegaZMax 1 kInputInfeasibleYawRates Hg HD HT ltac:(lia) (H1 HD)) as (r1 & E1 & Q1).
  destruct (yaw_limit_spec rf c s kOmegaZDotMax 2 kInputInfeasibleYawAcc Hg HD HT ltac:(lia) (H2 HD)) as (r2 & E2 & Q2).
  change (Z.of_nat 1) with 1%Z in E1. change (Z.of_nat 2) with 2%Z in E2.
  rewrite E1. unfold ebind. cbn [obind]. destruct r1 as [v|[]].
  { exists (inl v). split; [reflexivity|]. destruct Q1 as [-> |(-> & Q1)]; (split; [discriminate|]); (split; [discriminate|]); [left; reflexivity|right].
    destruct (getConstraint c kOmegaZMax) as [l|] eqn:El; [|destruct Q1]. destruct Q1 as (t & T1 & T2). exists t. split; [exact T1|].
    cbn [violated limits_of l_yaw_rate]. rewrite El. split; assumption. }
  rewrite E2. destruct r2 as [v|[]].
  { exists (inl v). split; [reflexivity|]. destruct Q2 as [-> |(-> & Q2)]; (split; [discriminate|]); (split; [discriminate|]); [left; reflexivity|right].
    destruct (getConstraint c kOmegaZDotMax) as [l|] eqn:El; [|destruct Q2]. destruct Q2 as (t & T1 & T2). exists t. split; [exact T1|].
    cbn [violated limits_of l_yaw_acc]. rewrite El. split; assumption. }
  exists (inr tt). split; [reflexivity|]. split; [discriminate|]. split; [discriminate|]. intros t Ht _. split; [apply Q1, Ht|apply Q2, Ht].
Qed.
