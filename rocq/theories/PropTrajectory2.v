(** Properties C19-C25, C64, C65: trajectories built from trajectories, extrema,
    time scaling and vertices read back. *)
From Coq Require Import ZArith Reals List Bool Lia Lra.
From Coquelicot Require Import Coquelicot.
From Verif Require Import Num RSum SpecPoly ModelPolynomial ModelSegment SpecSegment ModelVertex SpecVertex
  ModelTrajectory SpecTrajectory ProofPolynomial ProofPolynomial2 ProofSegment ProofTrajectory ProofTrajectory2
  ProofTrajectory3 ProofRoots ProofTrajectory4 PropTrajectory.
Import ListNotations.
Open Scope R_scope.

(** ** C19: extracting a single dimension *)
(** What holds: the polynomials are the k-th ones, segment by segment.  Missing
    from the full statement: equal segment times and duration, hence equal
    evaluation of the trajectory; see the refutation. *)
Theorem C19_single_dimension_partial (tr : trajectory R) (k : nat) :
  traj_consistent tr -> (k < tr_D tr)%nat -> (0 < tr_K tr)%nat ->
  exists r, traj_single tr (Z.of_nat k) = Ok r /\ tr_D r = 1%nat /\ tr_N r = tr_N tr /\ tr_K r = tr_K tr /\
    forall i t d, (i < tr_K tr)%nat -> seg_value (seg_at r i) t d = [seg_fun (seg_at tr i) k d t].
Proof.
  intros Hc Hk HK. rewrite (traj_single_ok tr k Hc Hk HK). eexists. split; [reflexivity|].
  split; [reflexivity|]. split; [reflexivity|]. split; [unfold tr_K; cbn; apply map_length|].
  intros i t d Hi. unfold seg_at at 1. cbn [tr_segments].
  rewrite (nth_indep _ _ ((fun s => mkSegment (tr_N tr) [nth k (seg_polys s) []] 0) no_segment))
    by (rewrite map_length; exact Hi).
  rewrite (nth_map_dflt (fun s => mkSegment (tr_N tr) [nth k (seg_polys s) []] 0)). reflexivity.
Qed.
Print Assumptions C19_single_dimension_partial.
(** The segment times and the duration of the result are always zero. *)
Theorem C19_times_lost (tr : trajectory R) (k : nat) :
  traj_consistent tr -> (k < tr_D tr)%nat -> (0 < tr_K tr)%nat ->
  exists r, traj_single tr (Z.of_nat k) = Ok r /\ tr_max_time r = 0 /\
    traj_getSegmentTimes r = repeat 0 (tr_K tr) /\
    forall t d, 0 < t -> traj_evaluate r t d = Ok [0].
Proof.
  intros Hc Hk HK. rewrite (traj_single_ok tr k Hc Hk HK). eexists. split; [reflexivity|].
  split; [reflexivity|].
  assert (E : forall l : list (segment R), map seg_time (map (fun s => mkSegment (tr_N tr) [nth k (seg_polys s) []] 0) l)
              = repeat 0 (length l)).
  { induction l; simpl; congruence. }
  split; [apply E|]. intros t d Ht. rewrite evaluate_out; auto.
  - unfold times_nonneg. cbn [tr_segments]. apply Forall_map, List.Forall_forall. intros s _. simpl. lra.
  - unfold duration. cbn [tr_segments]. rewrite E.
    assert (Z0 : forall n, lsum (repeat 0 n) = 0) by (induction n; simpl; lra). rewrite Z0. exact Ht.
Qed.
Print Assumptions C19_times_lost.
Example C19_example : traj_consistent ex_tr /\ (1 < tr_D ex_tr)%nat /\ (0 < tr_K ex_tr)%nat.
Proof. split; [exact ex_consistent|]. split; cbv; lia. Qed.
Theorem C19_single_dimension_refuted :
  exists (tr : trajectory R) (k : nat) t d r v,
    traj_consistent tr /\ traj_wf tr /\ times_nonneg tr /\ (k < tr_D tr)%nat /\ 0 <= t <= tr_max_time tr /\
    traj_single tr (Z.of_nat k) = Ok r /\ traj_evaluate tr t (Z.of_nat d) = Ok v /\
    traj_evaluate r t (Z.of_nat d) <> Ok [nth k v 0] /\ tr_max_time r <> tr_max_time tr.
Proof.
  destruct C19_example as (Hc & Hk & HK).
  destruct (C19_times_lost ex_tr 1 Hc Hk HK) as (r & E & Hm & _ & He).
  exists ex_tr, 1%nat, 2, 0%nat, r, [2; 4].
  split; [exact Hc|]. split; [exact ex_wf|]. split; [exact ex_nonneg|]. split; [exact Hk|].
  split; [simpl; lra|]. split; [exact E|]. split; [apply C14_example|].
  rewrite He by lra. split; [|rewrite Hm; simpl; lra].
  intro H. injection H. simpl. lra.
Qed.
Print Assumptions C19_single_dimension_refuted.
(** Dimensions that do not exist, and empty trajectories, abort. *)
Theorem C19_bad_dimension_aborts (tr : trajectory R) (k : Z) :
  ~ (0 <= k < Z.of_nat (tr_D tr))%Z \/ tr_K tr = 0%nat -> traj_single tr k = Abort.
Proof. exact (traj_single_abort tr k). Qed.
Print Assumptions C19_bad_dimension_aborts.
Example C19_bad_dimension_example : traj_single ex_tr 2 = Abort.
Proof. apply C19_bad_dimension_aborts. left. cbv. intuition congruence. Qed.

(** ** C20: appending dimensions *)
Theorem C20_append (a b : trajectory R) :
  traj_wf a -> traj_wf b -> traj_consistent a -> traj_consistent b ->
  (1 <= tr_N a)%nat -> (1 <= tr_N b)%nat -> (1 <= tr_D a)%nat -> (1 <= tr_D b)%nat ->
  (0 < tr_K a)%nat -> traj_getSegmentTimes a = traj_getSegmentTimes b ->
  List.Forall (fun t => 0 < t) (traj_getSegmentTimes a) ->
  exists r, traj_append a b = Ok (Some r) /\
    tr_D r = (tr_D a + tr_D b)%nat /\ tr_N r = Nat.max (tr_N a) (tr_N b) /\
    traj_getSegmentTimes r = traj_getSegmentTimes a /\ tr_max_time r = tr_max_time a /\
    forall t d, exists va vb,
      traj_evaluate a t (Z.of_nat d) = Ok va /\ traj_evaluate b t (Z.of_nat d) = Ok vb /\
      traj_evaluate r t (Z.of_nat d) = Ok (va ++ vb).
Proof.
  intros. destruct (traj_append_spec a b) as (r & E & _ & _ & R1 & R2 & R3 & R4 & R5); auto.
  exists r. auto 10.
Qed.
Print Assumptions C20_append.
Definition ex_yaw : trajectory R :=
  mkTraj 1 2 [mkSegment 2 [[0; 1]] 1; mkSegment 2 [[1; -1]] 2] (0 + 1 + 2).
Example C20_example :
  traj_wf ex_tr /\ traj_wf ex_yaw /\ traj_consistent ex_tr /\ traj_consistent ex_yaw /\
  (0 < tr_K ex_tr)%nat /\ traj_getSegmentTimes ex_tr = traj_getSegmentTimes ex_yaw /\
  List.Forall (fun t => 0 < t) (traj_getSegmentTimes ex_tr).
Proof.
  split; [exact ex_wf|]. split; [split; [repeat constructor|cbv; lia]|].
  split; [exact ex_consistent|]. split; [split; [repeat constructor|reflexivity]|].
  split; [cbv; lia|]. split; [reflexivity|].
  change (List.Forall (fun t => 0 < t) [1; 2]). repeat constructor; lra.
Qed.
(** Different numbers of segments abort; an empty operand (N or D zero) is
    ignored. *)
Theorem C20_append_other {T} {ops : NumOps T} (a b : trajectory T) :
  (tr_N a <> 0%nat -> tr_D a <> 0%nat -> tr_N b <> 0%nat -> tr_D b <> 0%nat ->
   tr_K a <> tr_K b -> traj_append a b = Abort) /\
  (tr_N a = 0%nat \/ tr_D a = 0%nat -> traj_append a b = Ok (Some b)) /\
  (tr_N a <> 0%nat -> tr_D a <> 0%nat -> tr_N b = 0%nat \/ tr_D b = 0%nat -> traj_append a b = Ok (Some a)).
Proof.
  split; [exact (traj_append_abort a b)|]. unfold traj_append. split.
  - intros [->| ->]; cbn; [|rewrite orb_true_r]; reflexivity.
  - intros Hn Hd Hb. destruct (Nat.eqb_spec (tr_N a) 0); [tauto|]. destruct (Nat.eqb_spec (tr_D a) 0); [tauto|].
    cbn [orb]. destruct Hb as [->| ->]; cbn; [|rewrite orb_true_r]; reflexivity.
Qed.
Print Assumptions C20_append_other.
Example C20_append_other_example :
  traj_append ex_tr (mkTraj 1 2 [mkSegment 2 [[0; 1]] 1] 1) = Abort /\
  traj_append traj_new ex_tr = Ok (Some ex_tr).
Proof. split; reflexivity. Qed.

(** ** C21: addTrajectories concatenates *)
(** For an output object different from all inputs. *)
Theorem C21_concatenates {T} {ops : NumOps T} (this : trajectory T) (trajs : list (trajectory T)) :
  traj_consistent this ->
  (forall t, In t trajs -> traj_consistent t /\ tr_D t = tr_D this /\ tr_N t = tr_N this) ->
  exists r, traj_addTrajectories MergeOther this trajs = Ok (true, r) /\
    tr_segments r = tr_segments this ++ concat (map tr_segments trajs) /\
    tr_D r = tr_D this /\ tr_N r = tr_N this /\
    tr_max_time r = fold_left nadd (map seg_time (tr_segments r)) n0.
Proof.
  intros Hc H.
  destruct (merge_other_ok (tr_D this) (tr_N this) trajs (length trajs) 0 this eq_refl Hc eq_refl eq_refl H)
    as (r & E & [_ Hm] & HD & HN & Hs).
  exists r. repeat split; auto.
Qed.
Print Assumptions C21_concatenates.

Theorem C21_evaluation (this r : trajectory R) (trajs : list (trajectory R)) :
  traj_consistent this ->
  (forall t, In t trajs -> traj_consistent t /\ tr_D t = tr_D this /\ tr_N t = tr_N this) ->
  times_nonneg this -> (forall t, In t trajs -> times_nonneg t) ->
  traj_addTrajectories MergeOther this trajs = Ok (true, r) ->
  duration r = lsum (map duration (this :: trajs)) /\ tr_max_time r = duration r /\
  forall j part t d, nth_error (this :: trajs) j = Some part -> 0 <= t < duration part ->
    traj_evaluate r (lsum (map duration (firstn j (this :: trajs))) + t) d = traj_evaluate part t d.
Proof.
  intros Hc H Hn Hns E. destruct (C21_concatenates this trajs Hc H) as (r' & E' & Hs & _ & _ & Hm).
  rewrite E' in E. apply Ok_inj in E. injection E as <-.
  assert (S : forall l : list (trajectory R), lsum (map seg_time (concat (map tr_segments l))) = lsum (map duration l)).
  { induction l as [|x l IH]; [reflexivity|]. cbn [map concat]. rewrite map_app, lsum_app, IH. reflexivity. }
  assert (Hs' : tr_segments r' = concat (map tr_segments (this :: trajs))) by exact Hs.
  split; [unfold duration at 1; rewrite Hs', S; reflexivity|]. split.
  { rewrite Hm. unfold duration. unfold n0. rnum. rewrite fold_left_lsum. simpl. lra. }
  intros j part t d Hj Ht. rewrite <- S.
  apply nth_error_split in Hj as (l1 & l2 & El & Hlen).
  rewrite El, <- Hlen, firstn_app, Nat.sub_diag, firstn_all. cbn [firstn]. rewrite app_nil_r.
  apply evaluate_part with (c := concat (map tr_segments l2)).
  - rewrite Hs', El, map_app, concat_app. reflexivity.
  - unfold times_nonneg. rewrite Hs'. apply List.Forall_forall. intros s Hin.
    apply in_concat in Hin as (l & Hl & Hin). apply in_map_iff in Hl as (x & <- & Hx).
    assert (Hx' : times_nonneg x) by (destruct Hx as [<-|Hx]; auto).
    unfold times_nonneg in Hx'. rewrite List.Forall_forall in Hx'. auto.
  - left. exact Ht.
Qed.
Print Assumptions C21_evaluation.
Example C21_example :
  traj_consistent ex_tr /\
  (forall t, In t [ex_tr; ex_tr] -> traj_consistent t /\ tr_D t = tr_D ex_tr /\ tr_N t = tr_N ex_tr) /\
  exists r, traj_addTrajectories MergeOther ex_tr [ex_tr; ex_tr] = Ok (true, r) /\ tr_K r = 6%nat.
Proof.
  split; [exact ex_consistent|].
  assert (H : forall t, In t [ex_tr; ex_tr] -> traj_consistent t /\ tr_D t = tr_D ex_tr /\ tr_N t = tr_N ex_tr).
  { intros t [<-|[<-|[]]]; (split; [exact ex_consistent|]); split; reflexivity. }
  split; [exact H|]. destruct (C21_concatenates ex_tr [ex_tr; ex_tr] ex_consistent H) as (r & E & Hs & _).
  exists r. split; auto. unfold tr_K. rewrite Hs. reflexivity.
Qed.
Theorem C21_mismatch_false {T} {ops : NumOps T} (this : trajectory T) (trajs : list (trajectory T)) :
  traj_consistent this -> (forall t, In t trajs -> traj_consistent t) ->
  (exists t, In t trajs /\ ~ (tr_D t = tr_D this /\ tr_N t = tr_N this)) ->
  exists r, traj_addTrajectories MergeOther this trajs = Ok (false, r).
Proof.
  intros Hc H He.
  exact (merge_other_mismatch (tr_D this) (tr_N this) trajs (length trajs) 0 this eq_refl Hc eq_refl eq_refl H He).
Qed.
Print Assumptions C21_mismatch_false.
Example C21_mismatch_example :
  exists t, In t [ex_tr; ex_yaw] /\ ~ (tr_D t = tr_D ex_tr /\ tr_N t = tr_N ex_tr).
Proof. exists ex_yaw. split; [right; now left|]. intros [H _]. discriminate H. Qed.

(** Writing into the object itself empties it first: with D, N > 0 the call then
    fails on the first argument and the trajectory is lost. *)
Theorem C21_output_is_this_loses_segments {T} {ops : NumOps T} (this t : trajectory T) (l : list (trajectory T)) :
  ~ (tr_D t = 0%nat /\ tr_N t = 0%nat) ->
  traj_addTrajectories MergeThis this (t :: l) = Ok (false, traj_new).
Proof.
  intro Hne. unfold traj_addTrajectories, merge_loop. cbn [length seq ofold fst snd].
  change (oget (t :: l) 0) with (Ok t). cbn [obind].
  assert (E : negb (Nat.eqb (tr_D t) (tr_D (traj_clear this))) || negb (Nat.eqb (tr_N t) (tr_N (traj_clear this))) = true).
  { simpl. destruct (Nat.eqb_spec (tr_D t) 0), (Nat.eqb_spec (tr_N t) 0); tauto. }
  rewrite E. cbn [obind].
  exact (merge_loop_false MergeThis 0 0 (t :: l) (seq 1 (length l)) traj_new).
Qed.
Print Assumptions C21_output_is_this_loses_segments.
Example C21_output_is_this_example : ~ (tr_D ex_tr = 0%nat /\ tr_N ex_tr = 0%nat).
Proof. simpl. lia. Qed.
Theorem C21_aliasing_this_refuted :
  exists (this : trajectory R) trajs r1 r2,
    traj_consistent this /\
    (forall t, In t trajs -> traj_consistent t /\ tr_D t = tr_D this /\ tr_N t = tr_N this) /\
    traj_addTrajectories MergeOther this trajs = Ok (true, r1) /\
    traj_addTrajectories MergeThis this trajs = Ok (false, r2) /\ tr_K r2 = 0%nat.
Proof.
  destruct C21_example as (Hc & H & r & E & _).
  exists ex_tr, [ex_tr; ex_tr], r, traj_new. split; [exact Hc|]. split; [exact H|]. split; [exact E|].
  split; [|reflexivity]. apply C21_output_is_this_loses_segments. exact C21_output_is_this_example.
Qed.
Print Assumptions C21_aliasing_this_refuted.
(** Writing into an element of the list repeats this trajectory's segments
    instead of the element's. *)
Theorem C21_aliasing_element_refuted :
  exists (this : trajectory R) trajs j r1 r2,
    traj_consistent this /\
    (forall t, In t trajs -> traj_consistent t /\ tr_D t = tr_D this /\ tr_N t = tr_N this) /\
    (j < length trajs)%nat /\
    traj_addTrajectories MergeOther this trajs = Ok (true, r1) /\
    traj_addTrajectories (MergeElement j) this trajs = Ok (true, r2) /\
    tr_segments r1 <> tr_segments r2.
Proof.
  pose (tr1 := mkTraj 2 3 [ex_s1] (0 + 2)).
  exists ex_tr, [tr1], 0%nat. eexists. eexists.
  split; [exact ex_consistent|]. split.
  { intros t [<-|[]]. split; [|split; reflexivity]. split; [repeat constructor|reflexivity]. }
  split; [cbv; lia|]. split; [reflexivity|]. split; [reflexivity|].
  cbn. intro H. discriminate (f_equal (@length _) H).
Qed.
Print Assumptions C21_aliasing_element_refuted.

(** ** C22: scaleSegmentTimes *)
Theorem C22_scaleSegmentTimes (tr : trajectory R) (s : R) :
  traj_wf tr -> 1 / 1000000 <= s ->
  exists tr', traj_scale tr s = (true, tr') /\
    traj_getSegmentTimes tr' = map (fun t => t * s) (traj_getSegmentTimes tr) /\
    duration tr' = s * duration tr /\ tr_max_time tr' = duration tr' /\
    tr_D tr' = tr_D tr /\ tr_N tr' = tr_N tr /\
    forall t d, (0 < tr_K tr)%nat \/ 0 < t ->
      exists v, traj_evaluate tr t (Z.of_nat d) = Ok v /\
        traj_evaluate tr' (s * t) (Z.of_nat d) = Ok (map (fun x => x / s ^ d) v).
Proof.
  intros Hw Hs. exists (traj_stretch tr s). split.
  { unfold traj_scale. replace (nltb s (nlit 1 1000000)) with false; auto.
    symmetry. unfold nlit. rnum. apply Rltb_false. exact Hs. }
  split; [apply stretch_times|]. split; [apply stretch_duration|]. split.
  { unfold traj_stretch, duration. cbn [tr_max_time tr_segments]. unfold n0. rnum. rewrite fold_left_lsum. simpl. lra. }
  split; [reflexivity|]. split; [reflexivity|].
  intros t d Ht. destruct (evaluate_total tr t d Hw Ht) as (v & E & _).
  exists v. split; auto. apply evaluate_stretch; auto. lra.
Qed.
Print Assumptions C22_scaleSegmentTimes.
Theorem C22_small_scaling {T} {ops : NumOps T} (tr : trajectory T) (s : T) :
  nltb s (nlit 1 1000000) = true -> traj_scale tr s = (false, tr).
Proof. intro H. unfold traj_scale. now rewrite H. Qed.
Print Assumptions C22_small_scaling.
Example C22_example : traj_wf ex_tr /\ 1 / 1000000 <= 2.
Proof. split; [exact ex_wf|lra]. Qed.
Example C22_small_example : nltb 0 (nlit (T:=R) 1 1000000) = true /\
  @nltb b64 B64_ops (@nopp b64 B64_ops (@n1 b64 B64_ops)) (@nlit b64 B64_ops 1 1000000) = true.
Proof. split; [unfold nlit; rnum; apply Rltb_true; lra|vm_compute; reflexivity]. Qed.

(** ** C24: computeMinMaxMagnitude is global *)
(** [perfect_root_finder] states that the root finder reports all real roots; one
    exists (perfect_rf). *)
Theorem C24_global_extrema (rf : root_oracle) (tr : trajectory R) (d : nat) (dims : list Z)
  (mn mx : extremum R) :
  perfect_root_finder rf -> traj_wf tr -> times_nonneg tr -> (0 < tr_K tr)%nat ->
  dims_in tr dims -> (2 <= length dims)%nat -> (d < tr_N tr)%nat -> (d < 21)%nat ->
  norm_finite tr dims d ->
  exists mn' mx', traj_minmax rf tr (Z.of_nat d) dims mn mx = Ok (true, mn', mx') /\
    norm_at_most tr dims d (ext_value mx') /\ attained_at tr dims d mx' /\
    norm_at_least tr dims d (ext_value mn') /\ attained_at tr dims d mn'.
Proof.
  intros Hrf Hw Hn HK Hd Hl Hdn H21 Hf.
  destruct (traj_minmax_spec rf tr d dims mn mx Hrf Hw Hn Hd ltac:(lia) Hdn H21 Hf)
    as (mn' & mx' & E & H1 & H2 & _ & H3).
  destruct (H3 Hl) as [H4 H5]. exists mn', mx'. auto 10.
Qed.
Print Assumptions C24_global_extrema.
(** The maximum holds for one dimension too, and without any bound on the values. *)
Theorem C24_maximum (rf : root_oracle) (tr : trajectory R) (d : nat) (dims : list Z)
  (mn mx : extremum R) :
  perfect_root_finder rf -> traj_wf tr -> times_nonneg tr -> (0 < tr_K tr)%nat ->
  dims_in tr dims -> dims <> [] -> (d < tr_N tr)%nat -> (d < 21)%nat ->
  exists mn' mx', traj_minmax rf tr (Z.of_nat d) dims mn mx = Ok (true, mn', mx') /\
    norm_at_most tr dims d (ext_value mx') /\ attained_at tr dims d mx'.
Proof.
  intros Hrf Hw Hn HK Hd Hne Hdn H21.
  assert (Hl : (1 <= length dims)%nat) by (destruct dims; [contradiction|simpl; lia]).
  destruct (traj_maximum_spec rf tr d dims mn mx Hrf Hw Hn Hd Hl Hdn H21)
    as (mn' & mx' & E & H1 & H2 & _). exists mn', mx'. auto 10.
Qed.
Print Assumptions C24_maximum.

Lemma big_bound : 100 < IZR (2 ^ 1024 - 2 ^ 971).
Proof. apply IZR_lt. reflexivity. Qed.
Lemma sqrt_lt_1_alt_neg x y : 0 < y -> x < y -> sqrt x < sqrt y.
Proof.
  intros Hy H. destruct (Rle_or_lt 0 x).
  - apply sqrt_lt_1; lra.
  - rewrite sqrt_neg_0 by lra. apply sqrt_lt_R0; lra.
Qed.
Lemma sqrt_small x : x < 10000 -> sqrt x < 100.
Proof.
  intro H. assert (E : sqrt 10000 = 100) by (replace 10000 with (100 * 100) by lra; apply sqrt_square; lra).
  rewrite <- E. apply sqrt_lt_1_alt_neg; lra.
Qed.
Lemma ex_norm_finite d : (d = 1 \/ d = 2)%nat -> norm_finite ex_tr (all_dims ex_tr) d.
Proof.
  intros Hd i t Hi Ht. apply Rlt_trans with 100; [|exact big_bound]. apply sqrt_small.
  assert (HK : (i = 0 \/ i = 1)%nat) by (cbv [tr_K length tr_segments ex_tr] in Hi; lia).
  destruct HK as [-> | ->], Hd as [-> | ->]; cbn [seg_at nth tr_segments ex_tr seg_time ex_s0 ex_s1] in Ht |- *;
    cbn [all_dims tr_D ex_tr seq map lsum Z.of_nat Z.to_nat].
  all: rewrite !seg_fun_dpoly; rcompute; change (Pos.to_nat 1) with 1%nat; nra.
Qed.
Example C24_example :
  perfect_root_finder perfect_rf /\ traj_wf ex_tr /\ times_nonneg ex_tr /\ (0 < tr_K ex_tr)%nat /\
  dims_in ex_tr [0; 1]%Z /\ (1 < tr_N ex_tr)%nat /\ norm_finite ex_tr [0; 1]%Z 1.
Proof.
  split; [exact perfect_rf_ok|]. split; [exact ex_wf|]. split; [exact ex_nonneg|].
  split; [cbv; lia|]. split; [repeat constructor; simpl; lia|]. split; [cbv; lia|].
  exact (ex_norm_finite 1 (or_introl eq_refl)).
Qed.

(** ** C23: scaleSegmentTimesToMeetConstraints *)
(** [scalable]: 3 <= N <= 22, D >= 1, non-negative segment times.  The loop bound of 20 iterations is never
    reached. *)
Theorem C23_limits_met (rf : root_oracle) (tr : trajectory R) (v a : R) :
  perfect_root_finder rf -> scalable tr -> 0 < v -> 0 < a ->
  exists tr' s, traj_scaleToMeet rf tr v a = Ok (true, tr') /\ 1 <= s /\
    norm_at_most tr' (all_dims tr') 1 ((1 + 1 / 1000) * v) /\
    norm_at_most tr' (all_dims tr') 2 ((1 + 1 / 1000) * a) /\
    tr_K tr' = tr_K tr /\ duration tr' = s * duration tr /\ duration tr <= duration tr' /\
    forall t, (0 < tr_K tr)%nat \/ 0 < t ->
      exists x, traj_evaluate tr t 0 = Ok x /\ traj_evaluate tr' (s * t) 0 = Ok x.
Proof.
  intros Hrf Hs Hv Ha. destruct (scaleToMeet_spec rf tr v a Hrf Hs Hv Ha) as (tr' & s & E & H1 & Hor & Hb1 & Hb2).
  assert (Hd : 0 <= duration tr).
  { unfold duration. apply lsum_nonneg, Forall_map. apply Hs. }
  exists tr', s. split; [exact E|]. split; [exact H1|]. split; [exact Hb1|]. split; [exact Hb2|].
  assert (HD : tr_K tr' = tr_K tr /\ duration tr' = s * duration tr).
  { destruct Hor as [[-> ->]| ->]; split; auto; [lra|apply stretch_K|apply stretch_duration]. }
  destruct HD as [HK HD]. split; [exact HK|]. split; [exact HD|]. split; [rewrite HD; nra|].
  intros t Ht. destruct Hs as (Hw & _).
  destruct (evaluate_total tr t 0 Hw Ht) as (x & Ex & _). exists x. split; [exact Ex|].
  destruct Hor as [[-> ->]| ->]; [rewrite Rmult_1_l; exact Ex|].
  pose proof (evaluate_stretch tr s t 0 x ltac:(lra) Hw Ex) as G. change (Z.of_nat 0) with 0%Z in G.
  rewrite G. f_equal. rewrite <- (map_id x) at 2. apply map_ext. intro. simpl. lra.
Qed.
Print Assumptions C23_limits_met.
(** The scaling factor: 1 if both limits are already met within 0.1%, otherwise
    the largest of 1, V/v and sqrt(A/a), where V and A are the largest velocity and
    acceleration norms of the input. *)
Theorem C23_factor (rf : root_oracle) (tr : trajectory R) (v a V A : R) :
  perfect_root_finder rf -> scalable tr -> (0 < tr_K tr)%nat -> 0 < v -> 0 < a ->
  norm_at_most tr (all_dims tr) 1 V -> norm_at_most tr (all_dims tr) 2 A ->
  (exists i t, (i < tr_K tr)%nat /\ 0 <= t <= seg_time (seg_at tr i) /\ seg_norm (seg_at tr i) (all_dims tr) 1 t = V) ->
  (exists i t, (i < tr_K tr)%nat /\ 0 <= t <= seg_time (seg_at tr i) /\ seg_norm (seg_at tr i) (all_dims tr) 2 t = A) ->
  exists tr', traj_scaleToMeet rf tr v a = Ok (true, tr') /\
    (V <= (1 + 1 / 1000) * v -> A <= (1 + 1 / 1000) * a -> tr' = tr) /\
    (~ (V <= (1 + 1 / 1000) * v /\ A <= (1 + 1 / 1000) * a) ->
     map seg_time (tr_segments tr') = map (fun s => seg_time s * Rmax 1 (Rmax (V / v) (sqrt (A / a)))) (tr_segments tr)).
Proof.
  intros Hrf Hs HK Hv Ha BV BA (i1 & t1 & I1 & I2 & I3) (i2 & t2 & J1 & J2 & J3).
  destruct (scaleToMeet_exact rf tr v a Hrf Hs Hv Ha) as (V' & A' & tr' & s & (UV & TV) & (UA & TA) & E & H1 & Hor & _).
  assert (EV : V' = V).
  { apply Rle_antisym.
    - destruct TV as [(i & t & T1 & T2 & <-)|(T1 & _)]; [apply BV; assumption|lia].
    - rewrite <- I3. apply UV; assumption. }
  assert (EA : A' = A).
  { apply Rle_antisym.
    - destruct TA as [(i & t & T1 & T2 & <-)|(T1 & _)]; [apply BA; assumption|lia].
    - rewrite <- J3. apply UA; assumption. }
  subst V' A'.
  assert (Hd : forall x y, 0 < y -> (x / y <= 1 + 1 / 1000 <-> x <= (1 + 1 / 1000) * y)).
  { intros x y Hy. split; intros H.
    - apply Rmult_le_compat_r with (r := y) in H; [|lra]. replace (x / y * y) with x in H by (field; lra). lra.
    - apply Rmult_le_reg_r with y; [exact Hy|]. replace (x / y * y) with x by (field; lra). lra. }
  rewrite (Hd V v Hv), (Hd A a Ha) in Hor. exists tr'. split; [exact E|]. split.
  - intros Q1 Q2. destruct Hor as [(_ & _ & X & _)|(X & _)]; [exact X|]. exfalso. apply X. split; assumption.
  - intros Hn. destruct Hor as [(X & Y & _)|(_ & Es & ->)]; [exfalso; apply Hn; split; assumption|].
    unfold traj_stretch. cbn [tr_segments]. rewrite map_map. apply map_ext. intros sg. cbn [seg_stretch seg_time]. rewrite Es. reflexivity.
Qed.
Print Assumptions C23_factor.
Example C23_example : perfect_root_finder perfect_rf /\ scalable ex_tr.
Proof.
  split; [exact perfect_rf_ok|]. split; [exact ex_wf|]. split; [exact ex_nonneg|].
  split; cbv; lia.
Qed.
Example C23_factor_example : exists V A, scalable ex_tr /\ (0 < tr_K ex_tr)%nat /\
  norm_at_most ex_tr (all_dims ex_tr) 1 V /\ norm_at_most ex_tr (all_dims ex_tr) 2 A /\
  (exists i t, (i < tr_K ex_tr)%nat /\ 0 <= t <= seg_time (seg_at ex_tr i) /\ seg_norm (seg_at ex_tr i) (all_dims ex_tr) 1 t = V) /\
  (exists i t, (i < tr_K ex_tr)%nat /\ 0 <= t <= seg_time (seg_at ex_tr i) /\ seg_norm (seg_at ex_tr i) (all_dims ex_tr) 2 t = A).
Proof.
  destruct C23_example as (Hrf & Hs). destruct (maxVelAcc_spec perfect_rf ex_tr Hrf Hs) as (V & A & _ & (U1 & T1) & (U2 & T2)).
  assert (HK : (0 < tr_K ex_tr)%nat) by (cbv; lia). exists V, A. split; [exact Hs|]. split; [exact HK|]. split; [exact U1|]. split; [exact U2|].
  split; [destruct T1 as [T1|(T1 & _)]; [exact T1|lia]|destruct T2 as [T2|(T2 & _)]; [exact T2|lia]].
Qed.
(** computeMaxVelocityAndAcceleration: the exact maxima over the whole trajectory
    with complete roots; for any root finder and any numbers, success is reported
    exactly if both computations of the extrema succeed, and the values are theirs. *)
Theorem C23_max_values (rf : root_oracle) (tr : trajectory R) : perfect_root_finder rf -> scalable tr -> (0 < tr_K tr)%nat ->
  exists V A, traj_maxVelAcc rf tr = Ok (true, V, A) /\ norm_at_most tr (all_dims tr) 1 V /\ norm_at_most tr (all_dims tr) 2 A /\
    (exists i t, (i < tr_K tr)%nat /\ 0 <= t <= seg_time (seg_at tr i) /\ seg_norm (seg_at tr i) (all_dims tr) 1 t = V) /\
    (exists i t, (i < tr_K tr)%nat /\ 0 <= t <= seg_time (seg_at tr i) /\ seg_norm (seg_at tr i) (all_dims tr) 2 t = A).
Proof.
  intros Hrf Hs HK. destruct (maxVelAcc_spec rf tr Hrf Hs) as (V & A & E & (U1 & T1) & (U2 & T2)). exists V, A. split; [exact E|]. split; [exact U1|]. split; [exact U2|].
  split; [destruct T1 as [T1|(T1 & _)]; [exact T1|lia]|destruct T2 as [T2|(T2 & _)]; [exact T2|lia]].
Qed.
Print Assumptions C23_max_values.
Theorem C23_max_success {T : Type} {ops : NumOps T} (rf : root_oracle) (tr : trajectory T) (f : bool) (v a : T) :
  traj_maxVelAcc rf tr = Ok (f, v, a) ->
  exists f1 mn1 mx1 f2 mn2 mx2, traj_minmax rf tr 1 (map Z.of_nat (seq 0 (tr_D tr))) extremum_zero extremum_zero = Ok (f1, mn1, mx1) /\
    traj_minmax rf tr 2 (map Z.of_nat (seq 0 (tr_D tr))) extremum_zero extremum_zero = Ok (f2, mn2, mx2) /\
    v = ext_value mx1 /\ a = ext_value mx2 /\ (f = true <-> f1 = true /\ f2 = true).
Proof.
  unfold traj_maxVelAcc. destruct (traj_minmax rf tr 1 _ _ _) as [[[f1 mn1] mx1]| | |]; try discriminate. cbn [obind].
  destruct (traj_minmax rf tr 2 _ _ _) as [[[f2 mn2] mx2]| | |]; try discriminate. cbn [obind fst snd]. intros E. injection E as <- <- <-.
  exists f1, mn1, mx1, f2, mn2, mx2. rewrite andb_true_iff. tauto.
Qed.
Print Assumptions C23_max_success.
Example C23_max_example : exists V A, perfect_root_finder perfect_rf /\ scalable ex_tr /\ (0 < tr_K ex_tr)%nat /\ traj_maxVelAcc perfect_rf ex_tr = Ok (true, V, A).
Proof.
  destruct C23_example as (Hrf & Hs). assert (HK : (0 < tr_K ex_tr)%nat) by (cbv; lia). destruct (C23_max_values perfect_rf ex_tr Hrf Hs HK) as (V & A & E & _). exists V, A. auto.
Qed.
(** Polynomials of degree less than two: computing the acceleration extrema
    allocates a vector of negative size, although the motion has a well-defined
    (zero) acceleration. *)
Theorem C23_low_degree_undefined (rf : root_oracle) (tr : trajectory R) (v a : R) :
  perfect_root_finder rf -> traj_wf tr -> times_nonneg tr -> (0 < tr_K tr)%nat -> (2 <= tr_D tr)%nat ->
  (tr_N tr <= 2)%nat ->
  traj_maxVelAcc rf tr = UB /\ traj_scaleToMeet rf tr v a = UB.
Proof.
  intros. assert (E : traj_maxVelAcc rf tr = UB) by now apply maxVelAcc_linear.
  split; [exact E|]. unfold traj_scaleToMeet. cbn [scale_to_meet_loop]. rewrite E. reflexivity.
Qed.
Print Assumptions C23_low_degree_undefined.
Definition ex_linear : trajectory R := mkTraj 2 2 [mkSegment 2 [[0; 1]; [0; 2]] 1] 1.
Example C23_low_degree_example :
  perfect_root_finder perfect_rf /\ traj_wf ex_linear /\ times_nonneg ex_linear /\ (0 < tr_K ex_linear)%nat /\
  (2 <= tr_D ex_linear)%nat /\ (tr_N ex_linear <= 2)%nat.
Proof.
  split; [exact perfect_rf_ok|]. split; [split; [repeat constructor|cbv; lia]|].
  split; [repeat constructor; simpl; lra|]. split; [cbv; lia|]. split; cbv; lia.
Qed.
Theorem C23_low_degree_refuted :
  exists (rf : root_oracle) (tr : trajectory R) v a,
    perfect_root_finder rf /\ traj_wf tr /\ times_nonneg tr /\ (2 <= tr_D tr)%nat /\ 0 < v /\ 0 < a /\
    traj_scaleToMeet rf tr v a = UB.
Proof.
  destruct C23_low_degree_example as (H1 & H2 & H3 & H4 & H5 & H6).
  exists perfect_rf, ex_linear, 1, 1. split; [exact H1|]. split; [exact H2|]. split; [exact H3|].
  split; [exact H5|]. split; [lra|]. split; [lra|]. now apply C23_low_degree_undefined.
Qed.
Print Assumptions C23_low_degree_refuted.

(** ** C25: vertices read back from a trajectory *)
Theorem C25_getVertices (tr : trajectory R) (k : nat) : traj_wf tr -> (0 < tr_K tr)%nat ->
  exists vs, traj_getVertices tr (Z.of_nat k) = Ok vs /\ length vs = S (tr_K tr) /\
    forall i, (i <= tr_K tr)%nat ->
      let v := nth i vs no_vertex in
      vertex_wf v /\ v_D v = tr_D tr /\
      (forall j, (j <= k)%nat -> exists x,
         traj_evaluate tr (start_time tr i) (Z.of_nat j) = Ok x /\ vertex_get v (Z.of_nat j) = Some x) /\
      (forall j, (j < 0 \/ Z.of_nat k < j)%Z -> vertex_get v j = None).
Proof. exact (getVertices_spec tr k). Qed.
Print Assumptions C25_getVertices.
Theorem C25_start_and_goal (tr : trajectory R) (k : nat) : traj_wf tr -> (0 < tr_K tr)%nat ->
  traj_consistent tr ->
  exists v w, traj_startVertex tr (Z.of_nat k) = Ok v /\ traj_goalVertex tr (Z.of_nat k) = Ok w /\
    vertex_matches tr k 0 v /\ vertex_matches tr k (duration tr) w.
Proof.
  intros Hw HK Hc. destruct (vertexAtTime_ok tr 0 k Hw HK) as (v & E & H).
  destruct (vertexAtTime_ok tr (duration tr) k Hw HK) as (w & E' & H').
  exists v, w. unfold traj_startVertex, traj_goalVertex. rewrite (consistent_max tr Hc). auto.
Qed.
Print Assumptions C25_start_and_goal.
Theorem C25_position_yaw (tr : trajectory R) (kp ky : nat) : traj_wf tr -> (0 < tr_K tr)%nat ->
  ((tr_D tr < 4)%nat -> traj_getVertices_pos_yaw tr (Z.of_nat kp) (Z.of_nat ky) = Ok None) /\
  ((4 <= tr_D tr)%nat ->
  exists ps ys, traj_getVertices_pos_yaw tr (Z.of_nat kp) (Z.of_nat ky) = Ok (Some (ps, ys)) /\
    length ps = S (tr_K tr) /\ length ys = S (tr_K tr) /\
    forall i, (i <= tr_K tr)%nat ->
      v_D (nth i ps no_vertex) = 3%nat /\ v_D (nth i ys no_vertex) = 1%nat /\
      (forall j, (j <= kp)%nat -> exists x, traj_evaluate tr (start_time tr i) (Z.of_nat j) = Ok x /\
         vertex_get (nth i ps no_vertex) (Z.of_nat j) = Some [nth 0 x 0; nth 1 x 0; nth 2 x 0]) /\
      (forall j, (j <= ky)%nat -> exists x, traj_evaluate tr (start_time tr i) (Z.of_nat j) = Ok x /\
         vertex_get (nth i ys no_vertex) (Z.of_nat j) = Some [nth 3 x 0]) /\
      (forall j, (j < 0 \/ Z.of_nat kp < j)%Z -> vertex_get (nth i ps no_vertex) j = None) /\
      (forall j, (j < 0 \/ Z.of_nat ky < j)%Z -> vertex_get (nth i ys no_vertex) j = None)).
Proof.
  intros Hw HK. split; intro HD.
  - now apply getVertices_pos_yaw_false.
  - now apply getVertices_pos_yaw_spec.
Qed.
Print Assumptions C25_position_yaw.
Definition ex_4d : trajectory R :=
  mkTraj 4 2 [mkSegment 2 [[0; 1]; [0; 2]; [1; 0]; [3; -1]] 1; mkSegment 2 [[1; 1]; [2; 2]; [1; 0]; [2; -1]] 2] 3.
Example C25_example : traj_wf ex_tr /\ (0 < tr_K ex_tr)%nat /\ traj_consistent ex_tr /\ (tr_D ex_tr < 4)%nat /\
  traj_wf ex_4d /\ (0 < tr_K ex_4d)%nat /\ (4 <= tr_D ex_4d)%nat.
Proof.
  split; [exact ex_wf|]. split; [cbv; lia|]. split; [exact ex_consistent|]. split; [cbv; lia|].
  split; [split; [repeat constructor|cbv; lia]|]. split; cbv; lia.
Qed.

(** ** C64: replacing or extending a trajectory by its own segments *)
(** tr.setSegments(tr.segments()) silently loses all segments. *)
Theorem C64_setSegments_self_loses_segments {T} {ops : NumOps T} (tr : trajectory T) :
  (0 < tr_K tr)%nat ->
  exists tr', traj_setSegments_self tr = Ok tr' /\ tr_K tr' = 0%nat /\ tr_max_time tr' = n0.
Proof.
  unfold tr_K, traj_setSegments_self. destruct (tr_segments tr) as [|s l]; [simpl; lia|]. intros _.
  eexists. split; [reflexivity|]. split; reflexivity.
Qed.
Print Assumptions C64_setSegments_self_loses_segments.
Example C64_example : (0 < tr_K ex_tr)%nat.
Proof. cbv; lia. Qed.
Theorem C64_setSegments_self_refuted :
  exists tr tr' : trajectory R, traj_consistent tr /\ (0 < tr_K tr)%nat /\
    traj_setSegments tr (tr_segments tr) = Ok tr /\
    traj_setSegments_self tr = Ok tr' /\ tr_segments tr' <> tr_segments tr.
Proof.
  exists ex_tr. eexists. split; [exact ex_consistent|]. split; [exact C64_example|].
  split; [reflexivity|]. split; [reflexivity|]. discriminate.
Qed.
Print Assumptions C64_setSegments_self_refuted.
Theorem C64_addSegments_self_refuted :
  exists tr : trajectory R, traj_consistent tr /\
    (exists tr', traj_addSegments tr (tr_segments tr) = Ok tr') /\ traj_addSegments_self tr = UB.
Proof.
  exists ex_tr. split; [exact ex_consistent|]. split; [eexists; reflexivity|]. reflexivity.
Qed.
Print Assumptions C64_addSegments_self_refuted.

(** ** C65: comparison of trajectories *)
Lemma polys_eqb_spec ps : forall qs, length ps = length qs ->
  (forall p q, In p ps -> In q qs -> length p = length q) ->
  exists b, polys_eqb ps qs = Ok b /\ (b = true <-> ps = qs).
Proof.
  induction ps as [|p ps IH]; intros [|q qs] Hl Hn; try discriminate.
  - exists true. split; [reflexivity|tauto].
  - cbn [polys_eqb]. unfold poly_eqb. rewrite (Hn p q) by (now left). rewrite Nat.eqb_refl. cbn [obind].
    destruct (forallb _ (combine p q)) eqn:F; cbn [obind].
    + destruct (IH qs) as (b & E & Hb); [simpl in Hl; lia|intros; apply Hn; now right|].
      exists b. split; [exact E|]. rewrite Hb.
      apply (forallb_combine_eq p q) in F; [|apply Hn; now left]. subst. split; [now intros ->|].
      intro G. now injection G.
    + exists false. split; [reflexivity|]. split; [discriminate|]. intro G. injection G as -> ->.
      assert (X : forallb (fun x : R * R => neqb (fst x) (snd x)) (combine q q) = true)
        by (apply forallb_combine_eq; reflexivity).
      rewrite X in F. discriminate.
Qed.
(** Two well-formed trajectories with the same N compare equal exactly when
    they have the same segments; D_, N_ and max_time_ are then equal too. *)
Theorem C65_equality (a b : trajectory R) :
  traj_wf a -> traj_wf b -> tr_N a = tr_N b ->
  exists e, traj_eqb a b = Ok e /\ (e = true <-> tr_segments a = tr_segments b).
Proof.
  intros [Ha _] [Hb _] HN. unfold traj_eqb, tr_K.
  destruct (Nat.eqb_spec (length (tr_segments a)) (length (tr_segments b))) as [E|E]; cbn [negb].
  2:{ exists false. split; [reflexivity|]. split; [discriminate|]. intro G. rewrite G in E. tauto. }
  revert E Ha Hb. generalize (tr_segments b). induction (tr_segments a) as [|s l IH]; intros [|r m] E Ha Hb; try discriminate.
  - exists true. split; [reflexivity|tauto].
  - apply Forall_cons_iff in Ha as [(D1 & N1 & W1) Ha]. apply Forall_cons_iff in Hb as [(D2 & N2 & W2) Hb].
    destruct (IH m) as (e & Ee & He); auto. cbn [segs_eqb]. unfold seg_eqb.
    destruct (Nat.eqb_spec (seg_D s) (seg_D r)) as [ED|ED]; cbn [negb orb].
    2:{ exists false. split; [reflexivity|]. split; [discriminate|]. intro G. injection G as <- _. tauto. }
    destruct (neqb (seg_time s) (seg_time r)) eqn:ET; cbn [negb obind].
    2:{ exists false. split; [reflexivity|]. split; [discriminate|]. intro G. injection G as <- _.
        assert (X : neqb (seg_time s) (seg_time s) = true) by (apply Reqb_true; reflexivity). congruence. }
    apply Reqb_true in ET.
    destruct (polys_eqb_spec (seg_polys s) (seg_polys r)) as (b0 & E0 & H0); [exact ED| |].
    { intros p q Hp Hq. unfold seg_wf in *. rewrite List.Forall_forall in W1, W2. rewrite W1, W2 by auto. congruence. }
    rewrite E0. cbn [obind]. destruct b0.
    + exists e. split; [exact Ee|]. rewrite He. assert (G : seg_polys s = seg_polys r) by now apply H0.
      assert (s = r). { destruct s, r; cbn in *; f_equal; congruence. } subst r.
      split; [now intros ->|]. intro X. now injection X.
    + exists false. split; [reflexivity|]. split; [discriminate|]. intro X. injection X as <- _.
      assert (false = true) by (now apply H0). discriminate.
Qed.
Print Assumptions C65_equality.
Definition ex_tr' : trajectory R := mkTraj 2 3 [ex_s0; mkSegment 3 [[1; 1; 0]; [1; 2; 2]] 2] (0 + 1 + 2).
Example C65_example : traj_wf ex_tr /\ traj_wf ex_tr' /\ tr_N ex_tr = tr_N ex_tr' /\
  tr_segments ex_tr <> tr_segments ex_tr'.
Proof.
  split; [exact ex_wf|]. split; [split; [repeat constructor|cbv; lia]|]. split; [reflexivity|].
  intro H. injection H. lra.
Qed.
(** For different N the comparison reaches Eigen vectors of different sizes. *)
Theorem C65_different_N_refuted :
  exists a b : trajectory R, traj_wf a /\ traj_wf b /\ traj_consistent a /\ traj_consistent b /\ traj_eqb a b = UB.
Proof.
  exists (mkTraj 1 2 [mkSegment 2 [[0; 1]] 0] (0 + 0)), (mkTraj 1 3 [mkSegment 3 [[0; 1; 0]] 0] (0 + 0)).
  split; [split; [repeat constructor|cbv; lia]|]. split; [split; [repeat constructor|cbv; lia]|].
  split; [split; [repeat constructor|reflexivity]|]. split; [split; [repeat constructor|reflexivity]|].
  unfold traj_eqb. cbn [negb Nat.eqb tr_K length tr_segments segs_eqb]. unfold seg_eqb. cbn [seg_D seg_polys length Nat.eqb negb orb seg_time].
  assert (X : neqb (T:=R) 0 0 = true) by (apply Reqb_true; reflexivity). rewrite X. reflexivity.
Qed.
Print Assumptions C65_different_N_refuted.
