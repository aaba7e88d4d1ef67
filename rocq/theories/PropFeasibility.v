(** C56: half-plane feasibility; C60: feasibility of a whole trajectory. *)
From Coq Require Import ZArith Reals List Bool Lia Lra String.
From Coquelicot Require Import Coquelicot.
From Verif Require Import Num RSum SpecPoly SpecSegment SpecFeasibility ModelPolynomial ModelSegment ModelTrajectory ModelFeasibility
  ProofPolynomial ExtremaMath ProofExtrema ProofSegment ProofRoots ProofFeasibility.
Import ListNotations.
Notation length := List.length.
Open Scope R_scope.

(** Segments the check is meant for: three or four dimensions, polynomials of the
    declared length with at most 22 coefficients, a non-negative duration. *)
Definition checkable (s : segment R) : Prop :=
  seg_wf s /\ (1 <= seg_N s <= 22)%nat /\ (seg_D s = 3 \/ seg_D s = 4)%nat /\ 0 <= seg_time s.
(** The planes have three coordinates, and the root finder finds the real zeros in
    the segment of the velocity towards each plane. *)
Definition planes_ok (rf : @root_oracle R) (ck : checker R) (s : segment R) : Prop :=
  forall hp, In hp (ck_planes ck) -> length (hp_point hp) = 3%nat /\ length (hp_normal hp) = 3%nat /\
    forall cs, length cs = seg_N s -> (forall t, poly_fun cs t = dot3 (fun k => seg_fun s k 1 t) (entries (hp_normal hp))) ->
      covers_real_roots (poly_fun cs) 0 (seg_time s) (snd (rf cs)).
(** At every time of the segment the position is strictly on the positive side of
    every plane. *)
Definition stays_inside (ck : checker R) (s : segment R) : Prop :=
  forall hp t, In hp (ck_planes ck) -> 0 <= t <= seg_time s -> 0 < side (hp_point hp) (hp_normal hp) (fun k => seg_fun s k 0 t).

(** *** C56 *)
Theorem C56_segment rf (ck : checker R) (s : segment R) : checkable s -> planes_ok rf ck s ->
  exists b, checkHalfPlaneSegment rf ck s = Ok b /\ (b = true <-> stays_inside ck s).
Proof.
  intros (Hw & HN & HD & HT) Hp. unfold checkHalfPlaneSegment. rewrite (proj2 (dimension_ok_iff s) HD). cbn [negb].
  apply hp_check_planes_spec; try assumption. lia.
Qed.
Print Assumptions C56_segment.

Theorem C56_trajectory rf (ck : checker R) (tr : trajectory R) :
  (forall s, In s (tr_segments tr) -> checkable s /\ planes_ok rf ck s) ->
  exists b, checkHalfPlaneTrajectory rf ck tr = Ok b /\ (b = true <-> forall s, In s (tr_segments tr) -> stays_inside ck s).
Proof.
  unfold checkHalfPlaneTrajectory. induction (tr_segments tr) as [|s segs IH]; intros H; cbn [hp_check_segments].
  - exists true. split; [reflexivity|]. split; [intros _ ? []|reflexivity].
  - destruct (H s (or_introl eq_refl)) as (A & B). destruct (C56_segment rf ck s A B) as (b & E & Hb). rewrite E. cbn [obind].
    destruct IH as (b' & E' & Hb'); [intros; apply H; right; assumption|]. destruct b.
    + exists b'. split; [exact E'|]. rewrite Hb'. split; [intros Q x [<-|Hx]; [apply Hb; reflexivity|auto]|intros Q x Hx; apply Q; right; exact Hx].
    + exists false. split; [reflexivity|]. split; [discriminate|]. intros Q. apply Hb, Q. left. reflexivity.
Qed.
Print Assumptions C56_trajectory.

(** Segments with other dimensions are not feasible, for every number type. *)
Theorem C56_other_dimensions {T} {ops : NumOps T} (rf : @root_oracle T) ck (s : segment T) :
  seg_D s <> 3%nat -> seg_D s <> 4%nat -> checkHalfPlaneSegment rf ck s = Ok false.
Proof.
  intros A B. unfold checkHalfPlaneSegment. destruct (dimension_ok s) eqn:E; [|reflexivity]. apply dimension_ok_iff in E. tauto.
Qed.
Print Assumptions C56_other_dimensions.

(** The planes of a bounding box describe exactly the open box. *)
Theorem C56_bounding_box (p size : list R) : length p = 3%nat -> length size = 3%nat ->
  exists box, createBoundingBox p size = Ok box /\ (forall hp, In hp box -> length (hp_point hp) = 3%nat /\ length (hp_normal hp) = 3%nat) /\
    forall q : nat -> R, (forall hp, In hp box -> 0 < side (hp_point hp) (hp_normal hp) q) <->
                         (forall k, (k < 3)%nat -> Rabs (q k - entries p k) < entries size k / 2).
Proof.
  intros Lp Ls. rewrite (three_entries p Lp), (three_entries size Ls). set (P := entries p). set (S := entries size).
  unfold createBoundingBox. cbn [combine map fst snd seq ofold Nat.eqb].
  assert (U : forall pt k (e : R), (k < 3)%nat -> e = 1 \/ e = - 1 ->
    half_plane_new pt (map (fun i => if Nat.eqb i k then e else 0) [0; 1; 2]%nat) = Ok (mkHalfPlane pt (map (fun i => if Nat.eqb i k then e else 0) [0; 1; 2]%nat))).
  { intros pt k e Hk He. set (n := map (fun i => if Nat.eqb i k then e else 0) [0; 1; 2]%nat).
    assert (V : vsqr n = 1). { unfold vsqr, n, n0. cbn [map fold_left]. rnum. destruct k as [|[|[|k]]]; [..|lia]; cbn [Nat.eqb]; destruct He as [-> | ->]; ring. }
    unfold half_plane_new, vnorm, vnormalize. rewrite V. unfold n0. rnum. rewrite sqrt_1, (proj2 (Rltb_true 0 1)) by lra. do 2 f_equal.
    rewrite <- (map_id n) at 2. apply map_ext. intros a. cbn [ndiv R_ops]. field. }
  change (@n1 R R_ops) with 1. change (@n0 R R_ops) with 0. change (nopp 1) with (- 1).
  pose proof (fun pt => U pt 0%nat 1 ltac:(lia) (or_introl eq_refl)) as U0. pose proof (fun pt => U pt 0%nat (-1) ltac:(lia) (or_intror eq_refl)) as V0.
  pose proof (fun pt => U pt 1%nat 1 ltac:(lia) (or_introl eq_refl)) as U1. pose proof (fun pt => U pt 1%nat (-1) ltac:(lia) (or_intror eq_refl)) as V1.
  pose proof (fun pt => U pt 2%nat 1 ltac:(lia) (or_introl eq_refl)) as U2. pose proof (fun pt => U pt 2%nat (-1) ltac:(lia) (or_intror eq_refl)) as V2.
  cbn [map Nat.eqb] in U0, V0, U1, V1, U2, V2.
  rewrite U0; cbn [obind]; rewrite V0; cbn [obind app]. rewrite U1; cbn [obind]; rewrite V1; cbn [obind app]. rewrite U2; cbn [obind]; rewrite V2; cbn [obind app].
  eexists. split; [reflexivity|]. split.
  { intros hp [<-|[<-|[<-|[<-|[<-|[<-|[]]]]]]]; split; reflexivity. }
  intros q. rnum. split.
  - intros H k Hk.
    pose proof (fun hp Hi => H hp Hi) as G. cbn [In] in G.
    pose proof (G _ (or_introl eq_refl)) as G1. pose proof (G _ (or_intror (or_introl eq_refl))) as G2.
    pose proof (G _ (or_intror (or_intror (or_introl eq_refl)))) as G3. pose proof (G _ (or_intror (or_intror (or_intror (or_introl eq_refl))))) as G4.
    pose proof (G _ (or_intror (or_intror (or_intror (or_intror (or_introl eq_refl)))))) as G5.
    pose proof (G _ (or_intror (or_intror (or_intror (or_intror (or_intror (or_introl eq_refl))))))) as G6.
    unfold side, dot3, entries in G1, G2, G3, G4, G5, G6. cbn [hp_point hp_normal nth] in G1, G2, G3, G4, G5, G6.
    apply Rabs_def1; destruct k as [|[|[|k]]]; try lia; unfold entries; cbn [nth]; lra.
  - intros H hp Hi. pose proof (H 0%nat ltac:(lia)) as H0. pose proof (H 1%nat ltac:(lia)) as H1. pose proof (H 2%nat ltac:(lia)) as H2.
    apply Rabs_def2 in H0, H1, H2. unfold entries in H0, H1, H2. cbn [nth] in H0, H1, H2.
    destruct Hi as [<-|[<-|[<-|[<-|[<-|[<-|[]]]]]]]; unfold side, dot3, entries; cbn [hp_point hp_normal nth]; lra.
Qed.
Print Assumptions C56_bounding_box.

Lemma div_pos_iff x c : 0 < c -> 0 < x / c <-> 0 < x.
Proof.
  intros Hc. split; intros H; [|apply Rdiv_lt_0_compat; assumption].
  apply (Rmult_lt_compat_r c) in H; [|exact Hc]. unfold Rdiv in H. rewrite Rmult_assoc, Rinv_l, Rmult_0_l, Rmult_1_r in H by lra. exact H.
Qed.

(** A plane given by a point and a normal is the open half space {q | (q - p) . n > 0};
    a zero normal is refused. *)
Theorem C56_half_plane (p n : list R) : length p = 3%nat -> length n = 3%nat ->
  ((forall k, (k < 3)%nat -> entries n k = 0) -> half_plane_new p n = Abort) /\
  ((exists k, (k < 3)%nat /\ entries n k <> 0) -> exists hp, half_plane_new p n = Ok hp /\
     length (hp_point hp) = 3%nat /\ length (hp_normal hp) = 3%nat /\ norm3 (entries (hp_normal hp)) = 1 /\
     forall q, 0 < side (hp_point hp) (hp_normal hp) q <-> 0 < side p n q).
Proof.
  intros Lp Ln. destruct (half_plane_new_ok p n Ln) as (A & B). split.
  - intros H. apply A. apply norm3_zero. repeat split; apply H; lia.
  - intros (k & Hk & Hne).
    assert (Z : norm3 (entries n) <> 0). { rewrite norm3_zero. intros (X & Y & W). destruct k as [|[|[|k]]]; try lia; congruence. }
    destruct (vnormalize_ok n Ln Z) as (V1 & V2 & V3). eexists. split; [apply B, Z|]. cbn [hp_point hp_normal].
    split; [assumption|]. split; [assumption|]. split; [assumption|]. intros q.
    assert (Sd : side p (vnormalize n) q = side p n q / norm3 (entries n)). { unfold side, dot3. rewrite !V2 by lia. field. exact Z. }
    rewrite Sd. apply div_pos_iff. pose proof (norm3_pos (entries n)). lra.
Qed.
Print Assumptions C56_half_plane.

(** A plane through three points that are not on one line contains them, and its
    positive side is the one (b - a) x (c - a) points to. *)
Definition cross (u v : nat -> R) (k : nat) : R :=
  match k with 0%nat => u 1%nat * v 2%nat - u 2%nat * v 1%nat | 1%nat => u 2%nat * v 0%nat - u 0%nat * v 2%nat | _ => u 0%nat * v 1%nat - u 1%nat * v 0%nat end.
Definition away (a b : list R) (k : nat) : R := entries b k - entries a k.

Lemma vcross_cross (u v : list R) : vcross u v = [cross (entries u) (entries v) 0; cross (entries u) (entries v) 1; cross (entries u) (entries v) 2].
Proof. reflexivity. Qed.
Lemma vsub_away a b : length a = 3%nat -> length b = 3%nat -> length (vsub b a) = 3%nat /\ forall k, (k < 3)%nat -> entries (vsub b a) k = away a b k.
Proof.
  intros La Lb. rewrite (three_entries a La), (three_entries b Lb). split; [reflexivity|]. intros k Hk. destruct k as [|[|[|k]]]; [..|lia]; reflexivity.
Qed.
Lemma veqb_spec (a b : list R) : length a = 3%nat -> length b = 3%nat -> veqb a b = true <-> a = b.
Proof.
  intros La Lb. rewrite (three_entries a La) at 1. rewrite (three_entries b Lb) at 1. unfold veqb. cbn [combine forallb fst snd neqb R_ops]. rewrite !andb_true_iff, !Reqb_true.
  split.
  - intros (X & Y & Z & _). rewrite (three_entries a La), (three_entries b Lb), X, Y, Z. reflexivity.
  - intros ->. auto.
Qed.

Theorem C56_three_points (a b c : list R) : length a = 3%nat -> length b = 3%nat -> length c = 3%nat ->
  (exists k, (k < 3)%nat /\ cross (away a b) (away a c) k <> 0) ->
  exists hp, half_plane_points a b c = Ok hp /\ length (hp_point hp) = 3%nat /\ length (hp_normal hp) = 3%nat /\
    norm3 (entries (hp_normal hp)) = 1 /\
    (forall q, 0 < side (hp_point hp) (hp_normal hp) q <-> 0 < dot3 (away a (map q (seq 0 3))) (cross (away a b) (away a c))) /\
    side (hp_point hp) (hp_normal hp) (entries a) = 0 /\ side (hp_point hp) (hp_normal hp) (entries b) = 0 /\ side (hp_point hp) (hp_normal hp) (entries c) = 0.
Proof.
  intros La Lb Lc (k & Hk & Hne). unfold half_plane_points.
  destruct (vsub_away a b La Lb) as (L1 & S1). destruct (vsub_away a c La Lc) as (L2 & S2).
  assert (Hab : veqb a b = false). { destruct (veqb a b) eqn:E; [|reflexivity]. apply veqb_spec in E; try assumption. subst b. exfalso. apply Hne.
    destruct k as [|[|[|k]]]; [..|lia]; unfold cross, away; ring. }
  assert (Hac : veqb a c = false). { destruct (veqb a c) eqn:E; [|reflexivity]. apply veqb_spec in E; try assumption. subst c. exfalso. apply Hne.
    destruct k as [|[|[|k]]]; [..|lia]; unfold cross, away; ring. }
  rewrite Hab, Hac. set (n := vcross (vsub b a) (vsub c a)).
  assert (N : forall i, (i < 3)%nat -> entries n i = cross (away a b) (away a c) i).
  { intros i Hi. unfold n. rewrite vcross_cross. destruct i as [|[|[|i]]]; [..|lia]; unfold entries at 1; cbn [nth]; unfold cross; rewrite !S1, !S2 by lia; reflexivity. }
  assert (Ln : length n = 3%nat) by reflexivity.
  assert (Z : norm3 (entries n) <> 0). { rewrite norm3_zero, !N by lia. intros (X & Y & W). destruct k as [|[|[|k]]]; try lia; congruence. }
  destruct (vnormalize_ok n Ln Z) as (V1 & V2 & V3). eexists. split; [reflexivity|]. cbn [hp_point hp_normal].
  assert (Sd : forall q, side a (vnormalize n) q = dot3 (fun k => q k - entries a k) (cross (away a b) (away a c)) / norm3 (entries n)).
  { intros q. unfold side, dot3. rewrite !V2, !N by lia. field. exact Z. }
  repeat (split; [assumption|]). rewrite !Sd. split.
  - intros q. rewrite Sd, div_pos_iff by (pose proof (norm3_pos (entries n)); lra). reflexivity.
  - unfold dot3, cross, away. repeat split; field; exact Z.
Qed.
Print Assumptions C56_three_points.

(** Finding: three different points on one line are accepted, with a zero normal;
    no position is ever on the positive side. *)
Theorem C56_points_on_a_line (a b c : list R) : length a = 3%nat -> length b = 3%nat -> length c = 3%nat -> a <> b -> a <> c ->
  (forall k, (k < 3)%nat -> cross (away a b) (away a c) k = 0) ->
  exists hp, half_plane_points a b c = Ok hp /\ forall q, side (hp_point hp) (hp_normal hp) q = 0.
Proof.
  intros La Lb Lc Nab Nac H. unfold half_plane_points.
  destruct (veqb a b) eqn:E1; [apply veqb_spec in E1; tauto|]. destruct (veqb a c) eqn:E2; [apply veqb_spec in E2; tauto|].
  destruct (vsub_away a b La Lb) as (L1 & S1). destruct (vsub_away a c La Lc) as (L2 & S2).
  eexists. split; [reflexivity|]. cbn [hp_point hp_normal].
  assert (N : vcross (vsub b a) (vsub c a) = [0; 0; 0]).
  { rewrite vcross_cross. unfold cross. rewrite !S1, !S2 by lia. f_equal; [|f_equal; [|f_equal]].
    - exact (H 0%nat ltac:(lia)). - exact (H 1%nat ltac:(lia)). - exact (H 2%nat ltac:(lia)). }
  rewrite N. unfold vnormalize, vsqr, n0. cbn [fold_left]. rnum. replace (0 + 0 * 0 + 0 * 0 + 0 * 0) with 0 by ring.
  rewrite (proj2 (Rltb_false 0 0)) by lra. intros q. unfold side, dot3, entries. cbn [nth]. ring.
Qed.
Print Assumptions C56_points_on_a_line.

(** Finding: a segment with a negative duration, or with polynomials without
    coefficients, meets every plane constraint. *)
Theorem C56_negative_time_finding rf (ck : checker R) (s : segment R) : seg_wf s -> (seg_N s <= 22)%nat -> (seg_D s = 3 \/ seg_D s = 4)%nat ->
  (forall hp, In hp (ck_planes ck) -> length (hp_normal hp) = 3%nat) ->
  seg_time s < 0 \/ seg_N s = 0%nat -> checkHalfPlaneSegment rf ck s = Ok true.
Proof.
  intros Hw HN HD Hn HT. unfold checkHalfPlaneSegment. rewrite (proj2 (dimension_ok_iff s) HD). cbn [negb].
  induction (ck_planes ck) as [|hp l IH]; [reflexivity|]. cbn [hp_check_planes].
  destruct (hp_projection_ok s hp Hw ltac:(lia) (Hn hp (or_introl eq_refl))) as (p & Ep & Lp & _). rewrite Ep. cbn [obind].
  destruct (computeMinMaxCandidates_cases rf p 0 (seg_time s) 0 ltac:(lia)) as (C1 & C2). change (Z.of_nat 0) with 0%Z in C1, C2. change (@n0 R R_ops) with 0.
  assert (E : computeMinMaxCandidates rf p 0 (seg_time s) 0 = Ok None).
  { destruct (le_lt_dec (length p) 0) as [L|L]; [apply C1, L|]. destruct (C2 L) as (cs & _ & _ & ->). f_equal.
    apply selectCandidates_spec. destruct HT; [assumption|lia]. }
  rewrite E. cbn [obind hp_check_times]. apply IH. intros; apply Hn; right; assumption.
Qed.
Print Assumptions C56_negative_time_finding.

(** *** Examples: the segment (t, 0, 1), 0 <= t <= 1, in a box and below a plane. *)
Definition ex_flat : segment R := mkSegment 2 [[0; 1]; [0; 0]; [1; 0]] 1.
Lemma ex_flat_checkable : checkable ex_flat.
Proof. unfold checkable, ex_flat, seg_wf, seg_D. cbn. repeat split; try lia; try lra. repeat constructor. Qed.
Example C56_example : checkable ex_flat /\ exists ck, planes_ok perfect_rf ck ex_flat /\ length (ck_planes ck) = 6%nat /\ stays_inside ck ex_flat /\
  checkHalfPlaneSegment perfect_rf ck ex_flat = Ok true.
Proof.
  split; [exact ex_flat_checkable|]. destruct (C56_bounding_box [0; 0; 0] [4; 4; 4] eq_refl eq_refl) as (box & E & L & H).
  exists (mkChecker [] box []).
  assert (P : planes_ok perfect_rf (mkChecker [] box []) ex_flat).
  { intros hp Hi. cbn [ck_planes] in Hi. destruct (L hp Hi) as (A & B). repeat split; try assumption. intros. apply perfect_rf_ok. }
  split; [exact P|]. cbn [ck_planes]. split.
  { clear - E. unfold createBoundingBox in E. cbn [seq ofold] in E.
    repeat match type of E with context [half_plane_new ?p ?n] => destruct (half_plane_new p n); [cbn [obind app] in E|discriminate..] end.
    apply Ok_inj in E. subst box. reflexivity. }
  assert (S : stays_inside (mkChecker [] box []) ex_flat).
  { intros hp t Hi Ht. cbn [ck_planes] in Hi. apply (proj2 (H (fun k => seg_fun ex_flat k 0 t))); [|exact Hi]. intros k Hk.
    unfold seg_fun, ex_flat in *. cbn [seg_polys seg_time] in *. cbn [Derive_n]. destruct k as [|[|[|k]]]; [..|lia]; unfold poly_fun, entries; cbn [length nth rsum pow];
    apply Rabs_def1; lra. }
  split; [exact S|]. destruct (C56_segment _ _ _ ex_flat_checkable P) as (b & Eb & Hb). rewrite Eb. f_equal. apply Hb, S.
Qed.
Example C56_points_example : length [0; 0; 0] = 3%nat /\ exists k, (k < 3)%nat /\ cross (away [0; 0; 0] [1; 0; 0]) (away [0; 0; 0] [0; 2; 0]) k <> 0.
Proof. split; [reflexivity|]. exists 2%nat. split; [lia|]. unfold cross, away, entries. cbn [nth]. lra. Qed.
Example C56_line_example : [0; 0; 0] <> [1; 0; 0] /\ [0; 0; 0] <> [2; 0; 0] /\ forall k, (k < 3)%nat -> cross (away [0; 0; 0] [1; 0; 0]) (away [0; 0; 0] [2; 0; 0]) k = 0.
Proof.
  assert (A : 0 <> 1) by lra. assert (B : 0 <> 2) by lra. split; [congruence|]. split; [congruence|]. intros k Hk. destruct k as [|[|[|k]]]; [..|lia]; unfold cross, away, entries; cbn [nth]; ring.
Qed.
Example C56_trajectory_example : let tr := mkTraj 3 2 [ex_flat; ex_flat] 2 in
  forall s, In s (tr_segments tr) -> checkable s /\ planes_ok perfect_rf (mkChecker [] [mkHalfPlane [0; 0; 0] [0; 0; 1]] []) s.
Proof.
  intros tr s [<-|[<-|[]]]; (split; [exact ex_flat_checkable|]); intros hp [<-|[]]; repeat split; intros; apply perfect_rf_ok.
Qed.
Example C56_negative_time_example : seg_wf (mkSegment 2 [[0; 1]; [0; 0]; [1; 0]] (-1)) /\ seg_time (mkSegment 2 [[0; 1]; [0; 0]; [1; 0]] (-1)) < 0.
Proof. split; [repeat constructor|cbn; lra]. Qed.

(** *** C60, for every check of a segment and every number type (doubles too) *)
Lemma check_segments_feasible {T} {ops : NumOps T} (check : segment T -> outcome feasibility) pre segs r :
  (forall s, In s pre -> check s = Ok kInputFeasible) ->
  check_segments check (pre ++ segs) r = check_segments check segs (match pre with [] => r | _ => kInputFeasible end).
Proof.
  revert r. induction pre as [|s pre IH]; intros r H; [reflexivity|]. cbn [app check_segments]. rewrite (H s (or_introl eq_refl)). cbn [obind].
  rewrite IH by (intros; apply H; right; assumption). destruct pre; reflexivity.
Qed.
Lemma check_segments_first {T} {ops : NumOps T} (check : segment T -> outcome feasibility) segs :
  (forall s, In s segs -> check s = Ok kInputFeasible) \/
  exists pre x post, segs = pre ++ x :: post /\ (forall s, In s pre -> check s = Ok kInputFeasible) /\ check x <> Ok kInputFeasible.
Proof.
  induction segs as [|s segs IH]; [left; intros ? []|].
  assert (D : check s = Ok kInputFeasible \/ check s <> Ok kInputFeasible).
  { destruct (check s) as [v| | |]; try (right; discriminate). destruct v; [left; reflexivity|right; discriminate..]. }
  destruct D as [D|D]; [|right; exists [], s, segs; split; [reflexivity|]; split; [intros ? []|exact D]].
  destruct IH as [A|(pre & x & post & E & A & B)].
  - left. intros y [<-|Hy]; auto.
  - right. exists (s :: pre), x, post. split; [cbn; congruence|]. split; [intros y [<-|Hy]; auto|exact B].
Qed.
Theorem C60_trajectory {T} {ops : NumOps T} (check : segment T -> outcome feasibility) (tr : trajectory T) :
  (checkInputFeasibilityTrajectory check tr = Ok kInputFeasible <->
     tr_segments tr <> [] /\ forall s, In s (tr_segments tr) -> check s = Ok kInputFeasible) /\
  (tr_segments tr = [] -> checkInputFeasibilityTrajectory check tr = Ok kInputIndeterminable) /\
  (forall pre s post, tr_segments tr = pre ++ s :: post -> (forall x, In x pre -> check x = Ok kInputFeasible) ->
     check s <> Ok kInputFeasible -> checkInputFeasibilityTrajectory check tr = check s).
Proof.
  unfold checkInputFeasibilityTrajectory. set (segs := tr_segments tr).
  assert (F : forall pre s post, segs = pre ++ s :: post -> (forall x, In x pre -> check x = Ok kInputFeasible) ->
    check s <> Ok kInputFeasible -> check_segments check segs kInputIndeterminable = check s).
  { intros pre s post -> H Hs. rewrite check_segments_feasible by exact H. cbn [check_segments].
    destruct (check s) as [v| | |]; cbn [obind]; try reflexivity. destruct v; try reflexivity. congruence. }
  split; [split|split; [intros ->; reflexivity|exact F]].
  - intros H. split; [intros E; rewrite E in H; discriminate|]. intros s Hs.
    destruct (check_segments_first check segs) as [A|(pre & x & post & E & A & B)]; [apply A, Hs|].
    rewrite (F _ _ _ E A B) in H. congruence.
  - intros (Hn & H). pose proof (check_segments_feasible check segs [] kInputIndeterminable H) as E. rewrite app_nil_r in E. rewrite E.
    destruct segs; [congruence|reflexivity].
Qed.
Print Assumptions C60_trajectory.

(** The base class itself checks nothing. *)
Theorem C60_base {T} {ops : NumOps T} (tr : trajectory T) : checkInputFeasibilityTrajectory base_check tr = Ok kInputIndeterminable.
Proof. unfold checkInputFeasibilityTrajectory. destruct (tr_segments tr); reflexivity. Qed.
Print Assumptions C60_base.

Theorem C60_names (a b : feasibility) : getInputFeasibilityResultName a = getInputFeasibilityResultName b -> a = b.
Proof. destruct a, b; intros H; try reflexivity; discriminate H. Qed.
Print Assumptions C60_names.

Example C60_example :
  let check := fun s : segment R => Ok (if Rltb (seg_time s) 2 then kInputFeasible else kInputInfeasibleVelocity) in
  let slow := mkSegment 2 [[0; 1]; [0; 0]; [1; 0]] 3 in
  tr_segments (mkTraj 3 2 [ex_flat; slow; ex_flat] 5) = [ex_flat] ++ slow :: [ex_flat] /\
  (forall x, In x [ex_flat] -> check x = Ok kInputFeasible) /\ check slow <> Ok kInputFeasible.
Proof.
  cbv zeta. split; [reflexivity|]. split.
  - intros x [<-|[]]. cbn [seg_time ex_flat]. rewrite (proj2 (Rltb_true 1 2)) by lra. reflexivity.
  - cbn [seg_time]. rewrite (proj2 (Rltb_false 3 2)) by lra. discriminate.
Qed.
