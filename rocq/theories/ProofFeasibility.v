(** Half planes. *)
From Coq Require Import ZArith Reals List Bool Lia Lra.
From Coquelicot Require Import Coquelicot.
From Verif Require Import Num RSum SpecPoly SpecSegment SpecFeasibility ModelPolynomial ModelSegment ModelTrajectory ModelFeasibility
  ProofPolynomial ExtremaMath ProofExtrema ProofSegment ProofSegment2.
Import ListNotations.
Notation length := List.length.
Open Scope R_scope.

Lemma seg_index_ok {T} {ops : NumOps T} (s : segment T) i : (i < seg_D s)%nat -> seg_index s i = Ok (nth i (seg_polys s) []).
Proof. intros H. unfold seg_index. rewrite (proj2 (Nat.ltb_lt _ _) H). apply oget_nth. exact H. Qed.

Lemma dimension_ok_iff {T} {ops : NumOps T} (s : segment T) : dimension_ok s = true <-> seg_D s = 3%nat \/ seg_D s = 4%nat.
Proof. unfold dimension_ok. rewrite orb_true_iff, !Nat.eqb_eq. reflexivity. Qed.

(** The first three components of an evaluation. *)
Lemma evaluate_head (s : segment R) t (d : nat) : seg_wf s -> (seg_N s <= 22)%nat -> (3 <= seg_D s)%nat ->
  exists v, seg_evaluate s t (Z.of_nat d) = Ok v /\ vec_head v 3 = Ok [seg_fun s 0 d t; seg_fun s 1 d t; seg_fun s 2 d t].
Proof.
  intros Hw HN HD. rewrite seg_evaluate_eq.
  2:{ eapply List.Forall_impl; [|exact Hw]. cbn. intros p Hp. lia. }
  eexists. split; [reflexivity|]. rewrite vec_head_ok by (rewrite map_length; unfold seg_D in HD; lia). change (Z.to_nat 3) with 3%nat.
  rewrite !seg_fun_dpoly. unfold seg_D in HD. destruct (seg_polys s) as [|x [|y [|z l]]]; cbn in HD; try lia. reflexivity.
Qed.

Lemma is_derive_seg_fun s k d t : is_derive (seg_fun s k d) t (seg_fun s k (S d) t).
Proof. unfold seg_fun. rewrite <- !dpoly_Derive_n. apply is_derive_dpoly. Qed.

Lemma poly_add_length {T} {ops : NumOps T} (c d r : list T) : poly_add c d = Ok r -> length r = length c.
Proof.
  unfold poly_add. destruct (Nat.eqb_spec (length c) (length d)) as [E|E]; [|discriminate]. intros H. apply Ok_inj in H. subst r.
  rewrite ?map_length, ?combine_length, ?seq_length. lia.
Qed.

Definition three (l : list R) : Prop := length l = 3%nat.
Lemma three_entries l : three l -> l = [entries l 0; entries l 1; entries l 2].
Proof. intros H. destruct l as [|x [|y [|z [|w l]]]]; try discriminate. reflexivity. Qed.

Lemma hp_projection_ok (s : segment R) (hp : half_plane R) : seg_wf s -> (3 <= seg_D s)%nat -> three (hp_normal hp) ->
  exists p, hp_projection s hp = Ok p /\ length p = seg_N s /\ forall d t, dpoly p d t = dot3 (fun k => seg_fun s k d t) (entries (hp_normal hp)).
Proof.
  intros Hw HD Hn. unfold hp_projection. set (n := entries (hp_normal hp)).
  assert (G : forall i, (i < 3)%nat -> oget (hp_normal hp) i = Ok (n i)). { intros i Hi. unfold n. rewrite (three_entries _ Hn) at 1. destruct i as [|[|[|i]]]; [reflexivity..|lia]. }
  cbn [seq ofold]. rewrite !seg_index_ok by lia. rewrite !G by lia. cbn [obind].
  assert (L : forall k, (k < 3)%nat -> length (nth k (seg_polys s) []) = seg_N s) by (intros k Hk; apply seg_wf_nth; [exact Hw|lia]).
  destruct (poly_add_defined (repeat n0 (seg_N s)) (poly_scalar_mul (nth 0 (seg_polys s) []) (n 0%nat))) as [r0 E0]; [rewrite repeat_length, scalar_mul_length, L; lia|].
  rewrite E0. cbn [obind]. assert (L0 : length r0 = seg_N s) by (rewrite (poly_add_length _ _ _ E0); apply repeat_length).
  destruct (poly_add_defined r0 (poly_scalar_mul (nth 1 (seg_polys s) []) (n 1%nat))) as [r1 E1]; [rewrite scalar_mul_length, L; lia|].
  rewrite E1. cbn [obind]. assert (L1 : length r1 = seg_N s) by (rewrite (poly_add_length _ _ _ E1); exact L0).
  destruct (poly_add_defined r1 (poly_scalar_mul (nth 2 (seg_polys s) []) (n 2%nat))) as [r2 E2]; [rewrite scalar_mul_length, L; lia|].
  rewrite E2. cbn [obind]. exists r2. split; [reflexivity|]. split; [rewrite (poly_add_length _ _ _ E2); exact L1|].
  intros d t. rewrite (dpoly_add _ _ _ _ _ E2), (dpoly_add _ _ _ _ _ E1), (dpoly_add _ _ _ _ _ E0), !dpoly_scalar_mul.
  unfold dot3. rewrite !seg_fun_dpoly.
  assert (Z0 : dpoly (repeat n0 (seg_N s)) d t = 0). { unfold dpoly. apply rsum_zero. intros i _. rewrite nth_repeat_any. unfold n0. rnum. destruct (Nat.ltb _ _); ring. }
  rewrite Z0. ring.
Qed.

Lemma hp_check_times_spec (s : segment R) (hp : half_plane R) ts : seg_wf s -> (seg_N s <= 22)%nat -> (3 <= seg_D s)%nat -> three (hp_point hp) -> three (hp_normal hp) ->
  exists b, hp_check_times s hp ts = Ok b /\ (b = true <-> forall t, In t ts -> 0 < side (hp_point hp) (hp_normal hp) (fun k => seg_fun s k 0 t)).
Proof.
  intros Hw HN HD Hp Hn. induction ts as [|t ts IH]; cbn [hp_check_times].
  - exists true. split; [reflexivity|]. split; [intros _ ? []|reflexivity].
  - destruct (evaluate_head s t 0 Hw HN HD) as (v & E1 & E2). change (Z.of_nat 0) with 0%Z in E1. rewrite E1. cbn [obind]. rewrite E2. cbn [obind].
    assert (Es : vdot (vsub [seg_fun s 0 0 t; seg_fun s 1 0 t; seg_fun s 2 0 t] (hp_point hp)) (hp_normal hp) = side (hp_point hp) (hp_normal hp) (fun k => seg_fun s k 0 t)).
    { unfold side, dot3. rewrite (three_entries _ Hp) at 1. rewrite (three_entries _ Hn) at 1. unfold vdot, vsub. cbn [combine map fold_left fst snd]. unfold n0. rnum. ring. }
    rewrite Es. unfold n0. rnum. destruct (Rleb_spec (side (hp_point hp) (hp_normal hp) (fun k => seg_fun s k 0 t)) 0) as [Hle|Hle].
    + exists false. split; [reflexivity|]. split; [discriminate|]. intros H. specialize (H t (or_introl eq_refl)). lra.
    + destruct IH as (b & Eb & Hb). exists b. split; [exact Eb|]. rewrite Hb. split; [intros H x [<-|Hx]; [exact Hle|auto]|intros H x Hx; apply H; right; exact Hx].
Qed.

Definition plane_roots (rf : @root_oracle R) (s : segment R) (hp : half_plane R) : Prop :=
  forall cs, length cs = seg_N s -> (forall t, poly_fun cs t = dot3 (fun k => seg_fun s k 1 t) (entries (hp_normal hp))) ->
    covers_real_roots (poly_fun cs) 0 (seg_time s) (snd (rf cs)).

Lemma hp_check_planes_spec rf (s : segment R) planes : seg_wf s -> (1 <= seg_N s <= 22)%nat -> (3 <= seg_D s)%nat -> 0 <= seg_time s ->
  (forall hp, In hp planes -> three (hp_point hp) /\ three (hp_normal hp) /\ plane_roots rf s hp) ->
  exists b, hp_check_planes rf s planes = Ok b /\
    (b = true <-> forall hp t, In hp planes -> 0 <= t <= seg_time s -> 0 < side (hp_point hp) (hp_normal hp) (fun k => seg_fun s k 0 t)).
Proof.
  intros Hw HN HD HT. induction planes as [|hp planes IH]; intros Hpl; cbn [hp_check_planes].
  - exists true. split; [reflexivity|]. split; [intros _ ? ? []|reflexivity].
  - destruct (Hpl hp (or_introl eq_refl)) as (Hp & Hn & Hr). destruct (hp_projection_ok s hp Hw HD Hn) as (p & Ep & Lp & Pp). rewrite Ep. cbn [obind].
    destruct (computeMinMaxCandidates_cases rf p 0 (seg_time s) 0) as [_ H]; [lia|]. destruct H as (cs & Hcs & Lcs & E); [lia|].
    change (Z.of_nat 0) with 0%Z in E. unfold n0. rnum. rewrite E. cbn [obind].
    assert (Hc : covers_real_roots (poly_fun cs) 0 (seg_time s) (snd (rf cs))). { apply Hr; [congruence|]. intros t. rewrite Hcs, Pp. reflexivity. }
    destruct (selectMinMaxCandidatesFromRoots 0 (seg_time s) (snd (rf cs))) as [ts|] eqn:Es.
    2:{ rewrite (proj2 (selectCandidates_spec 0 (seg_time s) _) HT) in Es. discriminate. }
    replace (poly_fun cs) with (dpoly p 1) in Hc by (apply FunctionalExtensionality.functional_extensionality; intros t; symmetry; apply Hcs).
    destruct (selectCandidates_good _ _ _ _ _ Hc Es) as (_ & Hg & Hin).
    destruct (hp_check_times_spec s hp ts Hw (proj2 HN) HD Hp Hn) as (b & Eb & Hb). rewrite Eb. cbn [obind].
    destruct (candidates_min (dpoly p 0) (dpoly p 1) 0 (seg_time s) ts (is_derive_dpoly p 0) HT Hg) as (x & X1 & X2 & X3).
    assert (Sd : forall t, side (hp_point hp) (hp_normal hp) (fun k => seg_fun s k 0 t) = dpoly p 0 t - dot3 (entries (hp_point hp)) (entries (hp_normal hp))).
    { intros t. rewrite Pp. unfold side, dot3. ring. }
    assert (Hb' : b = true <-> forall t, 0 <= t <= seg_time s -> 0 < side (hp_point hp) (hp_normal hp) (fun k => seg_fun s k 0 t)).
    { rewrite Hb. split.
      - intros H t Ht. specialize (H x X1). specialize (X3 t Ht). rewrite Sd in *. lra.
      - intros H t Ht. apply H. apply Hin, Ht. }
    destruct IH as (b' & Eb' & Hb''); [intros; apply Hpl; right; assumption|].
    destruct b.
    + exists b'. split; [exact Eb'|]. rewrite Hb''. split; [intros H hp' t [<-|Hi] Ht; [apply (proj1 Hb' eq_refl), Ht|apply H; assumption]|intros H hp' t Hi Ht; apply H; [right; exact Hi|exact Ht]].
    + exists false. split; [reflexivity|]. split; [discriminate|]. intros H. apply Hb'. intros t Ht. apply H; [left; reflexivity|exact Ht].
Qed.

(** ** Vectors *)
Lemma vnorm_norm3 (v : list R) : three v -> vnorm v = norm3 (entries v).
Proof.
  intros H. rewrite (three_entries _ H) at 1. unfold vnorm, vsqr, norm3. cbn [fold_left]. unfold n0. rnum. f_equal. ring.
Qed.
Lemma norm3_pos v : 0 <= norm3 v.
Proof. apply sqrt_pos. Qed.
Lemma norm3_sqr v : norm3 v ^ 2 = v 0%nat ^ 2 + v 1%nat ^ 2 + v 2%nat ^ 2.
Proof.
  unfold norm3. rewrite pow2_sqrt; [reflexivity|]. pose proof (pow2_ge_0 (v 0%nat)). pose proof (pow2_ge_0 (v 1%nat)). pose proof (pow2_ge_0 (v 2%nat)). lra.
Qed.
Lemma norm3_zero v : norm3 v = 0 <-> v 0%nat = 0 /\ v 1%nat = 0 /\ v 2%nat = 0.
Proof.
  pose proof (norm3_sqr v) as E. pose proof (pow2_ge_0 (v 0%nat)). pose proof (pow2_ge_0 (v 1%nat)). pose proof (pow2_ge_0 (v 2%nat)).
  split.
  - intros Z. rewrite Z in E. cbn [pow] in *. repeat split; apply Rsqr_0_uniq; unfold Rsqr; lra.
  - intros (A & B & C). rewrite A, B, C in E. pose proof (norm3_pos v). apply Rsqr_0_uniq. unfold Rsqr. lra.
Qed.

Lemma vnormalize_ok (v : list R) : three v -> norm3 (entries v) <> 0 ->
  three (vnormalize v) /\ (forall k, (k < 3)%nat -> entries (vnormalize v) k = entries v k / norm3 (entries v)) /\ norm3 (entries (vnormalize v)) = 1.
Proof.
  intros H Hne. assert (P := norm3_pos (entries v)). assert (V := vnorm_norm3 v H). unfold vnorm in V. rnum.
  assert (Q : 0 < vsqr v). { destruct (Rlt_le_dec 0 (vsqr v)) as [|L]; [assumption|]. rewrite sqrt_neg_0 in V by exact L. congruence. }
  assert (E : vnormalize v = map (fun x => x / norm3 (entries v)) v).
  { unfold vnormalize, n0. rnum. rewrite (proj2 (Rltb_true 0 (vsqr v)) Q). cbn [nsqrt R_ops ndiv]. rewrite V. reflexivity. }
  rewrite E. split; [unfold three; rewrite map_length; exact H|].
  assert (G : forall k, (k < 3)%nat -> entries (map (fun x => x / norm3 (entries v)) v) k = entries v k / norm3 (entries v)).
  { intros k Hk. unfold entries at 1. rewrite (nth_map_lt _ _ 0 0) by (unfold three in H; lia). reflexivity. }
  split; [exact G|]. unfold norm3 at 1. rewrite !G by lia. rewrite <- sqrt_1. f_equal.
  assert (S := norm3_sqr (entries v)). replace ((entries v 0 / norm3 (entries v)) ^ 2 + (entries v 1 / norm3 (entries v)) ^ 2 + (entries v 2 / norm3 (entries v)) ^ 2)
    with ((entries v 0 ^ 2 + entries v 1 ^ 2 + entries v 2 ^ 2) / norm3 (entries v) ^ 2) by (field; exact Hne). rewrite <- S. field. exact Hne.
Qed.

Lemma half_plane_new_ok (p n : list R) : three n ->
  (norm3 (entries n) = 0 -> half_plane_new p n = Abort) /\
  (norm3 (entries n) <> 0 -> half_plane_new p n = Ok (mkHalfPlane p (vnormalize n))).
Proof.
  intros H. assert (P := norm3_pos (entries n)). unfold half_plane_new, n0. rnum. rewrite (vnorm_norm3 n H).
  destruct (Rltb_spec 0 (norm3 (entries n))); split; intros; try lra; reflexivity.
Qed.
