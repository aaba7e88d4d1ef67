(** C78, C79: drawing vertices; C80: marker groups; C81: drawing a trajectory. *)
From Coq Require Import ZArith Reals List Bool Lia Lra String Sorting.Sorted.
From Coquelicot Require Import Coquelicot.
From Verif Require Import Num RSum SpecPoly ModelPolynomial ModelSegment SpecSegment ModelVertex SpecVertex
  ModelTrajectory SpecTrajectory ProofSegment ProofTrajectory ProofTrajectory2 ProofTrajectory3 PropTrajectory
  ModelMotion ModelSampling PropSampling ModelVis SpecVis PropVis.
Import ListNotations.
Notation length := List.length.
Notation concat := List.concat.
Open Scope R_scope.

(** ** C78: vertices *)
(** Positions of the vertices that have one. *)
Definition vertex_positions {T} (vs : list (vertex T)) : list (list T) :=
  flat_map (fun v => match map_find (v_con v) 0 with Some x => [x] | None => [] end) vs.
Definition drawable {T} (v : vertex T) : Prop := v_D v = 3%nat /\ (forall x, map_find (v_con v) 0 = Some x -> length x = 3%nat).
Lemma vertex_points_ok {T} {ops : NumOps T} : forall (vs : list (vertex T)) m, List.Forall drawable vs ->
  vertex_points vs m = (true, set_points m (mk_points m ++ vertex_positions vs)).
Proof.
  induction vs as [|v vs IH]; intros m H.
  - cbn. rewrite app_nil_r. destruct m. reflexivity.
  - inversion H as [|? ? (D & L) F]; subst. cbn [vertex_points]. rewrite D. cbn [Nat.eqb negb]. unfold vertex_get, vertex_positions. cbn [flat_map].
    destruct (map_find (v_con v) 0) as [x|] eqn:E.
    + rewrite IH by exact F. rewrite point_msg_id by (apply L; reflexivity). cbn. rewrite <- app_assoc. reflexivity.
    + rewrite IH by exact F. reflexivity.
Qed.
(** On an empty array: one green line strip through the positions, labelled. *)
Theorem C78_new_array_partial {T} {ops : NumOps T} (vs : list (vertex T)) frame : List.Forall drawable vs ->
  exists m, drawVertices vs frame [] = [m] /\ labelled frame [m] /\ mk_type m = 4%Z /\ mk_ns m = "straight_path"%string /\
    mk_color m = [n0; n1; n0; n1] /\ mk_position m = [n0; n0; n0] /\ mk_points m = vertex_positions vs.
Proof.
  intros H. unfold drawVertices. rewrite vertex_points_ok by exact H. cbn [fst snd]. eexists. split; [cbn [setMarkerProperties]; reflexivity|].
  split; [intros [|i] d Hi; cbn in Hi |- *; [auto|lia]|]. cbn. auto 6.
Qed.
Print Assumptions C78_new_array_partial.
(** In general the array is cut down to its first marker, which keeps its pose and
    its points: the vertices are drawn after whatever it showed before. *)
Theorem C78_reused_array {T} {ops : NumOps T} (vs : list (vertex T)) frame first rest : List.Forall drawable vs ->
  exists m, drawVertices vs frame (first :: rest) = [m] /\ mk_points m = mk_points first ++ vertex_positions vs /\
    mk_position m = mk_position first /\ mk_orientation m = mk_orientation first.
Proof.
  intros H. unfold drawVertices. rewrite vertex_points_ok by exact H. cbn [fst snd]. eexists. split; [cbn [setMarkerProperties]; reflexivity|]. cbn. auto.
Qed.
Print Assumptions C78_reused_array.
(** A vertex of another dimension: what was collected before it stays, and the marker
    is never given the frame. *)
Theorem C78_wrong_dimension {T} {ops : NumOps T} (vs vs' : list (vertex T)) v frame : List.Forall drawable vs -> v_D v <> 3%nat ->
  exists m, drawVertices (vs ++ v :: vs') frame [] = [m] /\ mk_frame m = ""%string /\ mk_points m = vertex_positions vs.
Proof.
  intros H Hv. unfold drawVertices.
  assert (G : forall vs m, List.Forall drawable vs -> vertex_points (vs ++ v :: vs') m = (false, set_points m (mk_points m ++ vertex_positions vs))).
  { clear vs H. induction vs as [|w vs IH]; intros m H.
    - cbn [app vertex_points]. rewrite (proj2 (Nat.eqb_neq (v_D v) 3) Hv). cbn. rewrite app_nil_r. destruct m. reflexivity.
    - inversion H as [|? ? (D & L) F]; subst. cbn [app vertex_points]. rewrite D. cbn [Nat.eqb negb]. unfold vertex_get, vertex_positions. cbn [flat_map].
      destruct (map_find (v_con w) 0) as [x|] eqn:E.
      + rewrite IH by exact F. rewrite point_msg_id by (apply L; reflexivity). cbn. rewrite <- app_assoc. reflexivity.
      + rewrite IH by exact F. reflexivity. }
  rewrite (G vs _ H). eexists. split; [reflexivity|]. cbn. auto.
Qed.
Print Assumptions C78_wrong_dimension.
Definition ex_vertices : list (vertex R) := [mkVertex 3 [(0%Z, [1; 2; 3])]; mkVertex 3 [(1%Z, [0; 0; 1])]; mkVertex 3 [(0%Z, [4; 5; 6]); (1%Z, [0; 0; 0])]].
Lemma ex_vertices_drawable : List.Forall drawable ex_vertices.
Proof. repeat constructor; cbn; intros x [=]; subst; reflexivity. Qed.
Example C78_example : List.Forall drawable ex_vertices /\ vertex_positions ex_vertices = [[1; 2; 3]; [4; 5; 6]] /\ v_D (mkVertex 1 [(0%Z, [7])]) <> 3%nat.
Proof. split; [exact ex_vertices_drawable|]. split; [reflexivity|discriminate]. Qed.
(** Drawing the same vertices twice into one array doubles the line. *)
Theorem C78_redraw_refuted : exists (vs : list (vertex R)) frame m m', List.Forall drawable vs /\
  drawVertices vs frame [] = [m] /\ drawVertices vs frame [m] = [m'] /\ mk_points m = [[1; 2; 3]; [4; 5; 6]] /\
  mk_points m' = [[1; 2; 3]; [4; 5; 6]; [1; 2; 3]; [4; 5; 6]].
Proof.
  destruct (C78_new_array_partial ex_vertices "world" ex_vertices_drawable) as (m & E & _ & _ & _ & _ & _ & P).
  destruct (C78_reused_array ex_vertices "world" m [] ex_vertices_drawable) as (m' & E' & P' & _).
  exists ex_vertices, "world"%string, m, m'. split; [exact ex_vertices_drawable|]. split; [exact E|]. split; [exact E'|].
  split; [exact P|]. rewrite P', P. reflexivity.
Qed.
Print Assumptions C78_redraw_refuted.

(** ** C79: vertices of a trajectory *)
Lemma start_time_range tr i : times_nonneg tr -> (i <= tr_K tr)%nat -> 0 <= start_time tr i <= duration tr.
Proof.
  intros Hn Hi. split; [exact (tsum_nonneg (tr_segments tr) i Hn)|]. rewrite <- start_time_K. exact (tsum_mono (tr_segments tr) i (tr_K tr) Hn Hi).
Qed.
Lemma drawn_vertices tr frame arr : traj_wf tr -> times_nonneg tr -> traj_consistent tr -> (0 < tr_K tr)%nat ->
  exists vs, drawVerticesFromTrajectory tr frame arr = Ok (drawVertices vs frame arr) /\
    Forall2 (vertex_matches tr 0) (map (start_time tr) (seq 0 (S (tr_K tr)))) vs.
Proof.
  intros Hw Hn Hc HK. unfold drawVerticesFromTrajectory. destruct (tr_segments tr) as [|s segs] eqn:Es.
  { exfalso. unfold tr_K in HK. rewrite Es in HK. cbn in HK. lia. }
  rewrite <- Es, all_boundaries. rewrite seq_S, map_app. cbn [map]. rewrite removelast_last.
  destruct (omap_exists (fun t => traj_vertexAtTime tr t 0) (vertex_matches tr 0) (map (start_time tr) (seq 0 (tr_K tr)))) as (r & Er & Fr).
  { intros t _. exact (vertexAtTime_ok tr t 0 Hw HK). }
  destruct (vertexAtTime_ok tr (duration tr) 0 Hw HK) as (g & Eg & Mg).
  unfold traj_goalVertex. rewrite (consistent_max tr Hc), Er. cbn [obind]. change (Z.of_nat 0) with 0%Z in Eg. rewrite Eg. cbn [obind].
  exists (r ++ [g]). split; [reflexivity|]. apply Forall2_app; [exact Fr|]. constructor; [|constructor].
  cbn [Nat.add]. rewrite start_time_K. exact Mg.
Qed.
(** The line goes through the positions of the trajectory at the times where the
    segments meet, first and last one included. *)
Theorem C79_vertices_partial (tr : trajectory R) frame : traj_wf tr -> times_nonneg tr -> traj_consistent tr -> (0 < tr_K tr)%nat -> tr_D tr = 3%nat ->
  exists m, drawVerticesFromTrajectory tr frame [] = Ok [m] /\ labelled frame [m] /\ mk_type m = 4%Z /\
    length (mk_points m) = S (tr_K tr) /\
    forall i, (i <= tr_K tr)%nat -> value_at tr 0 (start_time tr i) (nth i (mk_points m) []).
Proof.
  intros Hw Hn Hc HK HD. destruct (drawn_vertices tr frame [] Hw Hn Hc HK) as (vs & E & F).
  assert (G : forall ts vs, Forall2 (vertex_matches tr 0) ts vs -> (forall t, In t ts -> 0 <= t <= duration tr) ->
     List.Forall drawable vs /\ Forall2 (value_at tr 0) ts (vertex_positions vs)).
  { clear -Hw Hn HK HD. induction 1 as [|t v ts vs Hv F IH]; intros Ht; [split; constructor|].
    destruct (IH ltac:(intros; apply Ht; right; assumption)) as (A & B). destruct Hv as (_ & Dv & Gv & _).
    destruct (Gv 0%nat (le_n 0)) as (x & Ex & Gx). change (Z.of_nat 0) with 0%Z in Gx. unfold vertex_get in Gx.
    destruct (evaluate_active tr t Hw Hn HK (Ht t (or_introl eq_refl))) as (i & Hi & Hb & Hv). rewrite (Hv 0%nat) in Ex. apply Ok_inj in Ex.
    split.
    - constructor; [|exact A]. split; [congruence|]. intros y Hy. rewrite Gx in Hy. apply Some_inj in Hy. subst y. rewrite <- Ex, seg_value_length.
      destruct (traj_wf_seg tr i Hw Hi) as (-> & _). exact HD.
    - unfold vertex_positions. cbn [flat_map]. rewrite Gx. cbn [app]. constructor; [|exact B]. exists i. auto. }
  destruct (G _ _ F) as (A & B).
  { intros t Ht. apply in_map_iff in Ht. destruct Ht as (i & <- & Hi). apply in_seq in Hi. apply start_time_range; [exact Hn|lia]. }
  destruct (C78_new_array_partial vs frame A) as (m & Em & Lm & Tm & _ & _ & _ & Pm). exists m. rewrite E, Em.
  destruct (Forall2_nth_both _ _ _ 0 [] B) as (L & N). rewrite map_length, seq_length in *.
  split; [reflexivity|]. split; [exact Lm|]. split; [exact Tm|]. rewrite Pm. split; [auto|]. intros i Hi. specialize (N i ltac:(lia)).
  rewrite nth_indep with (d' := start_time tr 0) in N by (rewrite map_length, seq_length; lia).
  rewrite map_nth, seq_nth in N by lia. exact N.
Qed.
Print Assumptions C79_vertices_partial.
Example C79_example : traj_wf line_tr /\ times_nonneg line_tr /\ traj_consistent line_tr /\ (0 < tr_K line_tr)%nat /\ tr_D line_tr = 3%nat.
Proof. split; [exact line_wf|]. split; [exact line_nonneg|]. split; [exact line_consistent|]. split; [cbn; lia|reflexivity]. Qed.
(** A trajectory with yaw (four dimensions), or any other number than three, is not
    drawn: the marker has no points and no frame; an empty trajectory leaves the
    array as it was. *)
Theorem C79_other_dimension (tr : trajectory R) frame : traj_wf tr -> times_nonneg tr -> traj_consistent tr -> (0 < tr_K tr)%nat -> tr_D tr <> 3%nat ->
  exists m, drawVerticesFromTrajectory tr frame [] = Ok [m] /\ mk_points m = [] /\ mk_frame m = ""%string.
Proof.
  intros Hw Hn Hc HK HD. destruct (drawn_vertices tr frame [] Hw Hn Hc HK) as (vs & E & F). cbn [seq map] in F.
  inversion F as [|? v ? vs' Hv _]; subst. destruct Hv as (_ & Dv & _).
  destruct (C78_wrong_dimension [] vs' v frame ltac:(constructor) ltac:(congruence)) as (m & Em & Fm & Pm). cbn [app] in Em. rewrite E, Em. exists m. auto.
Qed.
Print Assumptions C79_other_dimension.
Theorem C79_empty {T} {ops : NumOps T} (tr : trajectory T) frame arr : tr_K tr = 0%nat -> drawVerticesFromTrajectory tr frame arr = Ok arr.
Proof. unfold tr_K, drawVerticesFromTrajectory. destruct (tr_segments tr); [reflexivity|discriminate]. Qed.
Print Assumptions C79_empty.
Definition yaw_tr : trajectory R := mkTraj 4 2 [mkSegment 2 [[0; 1]; [0; 2]; [1; 0]; [3; -1]] 1; mkSegment 2 [[1; 1]; [2; 2]; [1; 0]; [2; -1]] 2] (0 + 1 + 2).
Lemma yaw_ok : traj_wf yaw_tr /\ times_nonneg yaw_tr /\ traj_consistent yaw_tr /\ (0 < tr_K yaw_tr)%nat /\ tr_D yaw_tr <> 3%nat.
Proof.
  split; [split; [repeat constructor|cbv; lia]|]. split; [repeat constructor; cbn; lra|]. split; [split; [repeat constructor|reflexivity]|].
  split; [cbv; lia|discriminate].
Qed.
Example C79_other_dimension_example : traj_wf yaw_tr /\ times_nonneg yaw_tr /\ traj_consistent yaw_tr /\ (0 < tr_K yaw_tr)%nat /\ tr_D yaw_tr <> 3%nat.
Proof. exact yaw_ok. Qed.
Example C79_empty_example : tr_K (mkTraj 3 2 [] 0) = 0%nat. Proof. reflexivity. Qed.
Theorem C79_yaw_refuted : exists (tr : trajectory R) frame m, traj_wf tr /\ times_nonneg tr /\ traj_consistent tr /\ (0 < tr_K tr)%nat /\ (3 <= tr_D tr)%nat /\
  drawVerticesFromTrajectory tr frame [] = Ok [m] /\ mk_points m = [].
Proof.
  destruct yaw_ok as (A & B & C & D & E). destruct (C79_other_dimension yaw_tr "world" A B C D E) as (m & Em & Pm & _).
  exists yaw_tr, "world"%string, m. split; [exact A|]. split; [exact B|]. split; [exact C|]. split; [exact D|]. split; [cbv; lia|]. auto.
Qed.
Print Assumptions C79_yaw_refuted.

(** ** C81: drawing a trajectory *)
(** The line goes through the positions at 0, 0.1, 0.2, ... before the end. *)
Theorem C81_path (mp : point R -> list R) (mav : mav_functions R) (tr : trajectory R) distance frame additional arr :
  traj_wf tr -> times_nonneg tr -> traj_consistent tr -> (3 <= tr_D tr)%nat -> 10 ^ 9 * duration tr < IZR (2 ^ 63) -> 0 < duration tr ->
  exists fuel0 before line, (forall fuel, (fuel0 <= fuel)%nat ->
      drawTrajectoryWithMarker mp mav fuel tr distance frame additional arr = Ok (Some (before ++ [line]))) /\
    labelled frame (before ++ [line]) /\ mk_type line = 4%Z /\
    (forall k, (k < length (mk_points line))%nat <-> INR k / 10 < duration tr) /\
    (forall k, (k < length (mk_points line))%nat -> exists x, value_at tr 0 (INR k / 10) x /\ nth k (mk_points line) [] = firstn 3 x).
Proof.
  intros Hw Hn Hc HD Hs Hp. destruct (C51_whole_trajectory mav tr (1 / 10) [] Hw Hn Hc HD Hs ltac:(lra) Hp) as (f0 & sts & E & N & V).
  { replace (duration tr / (1 / 10) + 1) with (10 * duration tr + 1) by field.
    assert (Q : IZR (2 ^ 63) = IZR (2 ^ 59) * 16) by (rewrite <- mult_IZR; reflexivity). assert (Q2 : 100 <= IZR (2 ^ 59)) by (apply IZR_le; discriminate). lra. }
  assert (H3 : List.Forall (fun p => length (pt_position p) = 3%nat) sts).
  { apply List.Forall_forall. intros p Hp'. destruct (In_nth _ _ point_new Hp') as (k & Hk & <-). destruct (V k Hk) as (f & A & B & _). rewrite B.
    destruct (A 0%nat ltac:(lia)) as (i & Hi & _ & ->). rewrite firstn_length, seg_value_length. destruct (traj_wf_seg tr i Hw Hi) as (-> & _). lia. }
  destruct (C75_path mp sts distance frame additional arr arr H3) as (_ & Lb & before & line & Ed & Ty & _ & Pt & _).
  exists f0, before, line. split.
  { intros fuel Hf. unfold drawTrajectoryWithMarker. replace (@kDefaultSamplingTime R R_ops) with (1 / 10) by (unfold kDefaultSamplingTime, nlit; rnum; reflexivity).
    rewrite (E fuel Hf). cbn [obind]. rewrite Ed. reflexivity. }
  split; [rewrite <- Ed; exact Lb|]. split; [exact Ty|]. rewrite Pt, map_length. split.
  - intros k. rewrite N. replace (INR k * (1 / 10)) with (INR k / 10) by field. tauto.
  - intros k Hk. destruct (V k Hk) as (f & A & B & _). exists (f 0%nat). replace (INR k / 10) with (INR k * (1 / 10)) by field. split; [apply A; lia|].
    rewrite <- B. rewrite nth_indep with (d' := pt_position (@point_new R R_ops)) by (rewrite map_length; exact Hk). apply map_nth.
Qed.
Print Assumptions C81_path.
Example C81_example : traj_wf line_tr /\ times_nonneg line_tr /\ traj_consistent line_tr /\ (3 <= tr_D line_tr)%nat /\
  10 ^ 9 * duration line_tr < IZR (2 ^ 63) /\ 0 < duration line_tr.
Proof.
  split; [exact line_wf|]. split; [exact line_nonneg|]. split; [exact line_consistent|]. split; [cbn; lia|]. split; [exact line_small|].
  rewrite line_duration. lra.
Qed.
(** With fewer than three dimensions nothing is touched. *)
Theorem C81_low_dimension mp (mav : mav_functions R) fuel (tr : trajectory R) distance frame additional arr :
  (tr_D tr < 3)%nat -> drawTrajectoryWithMarker mp mav fuel tr distance frame additional arr = Ok (Some arr).
Proof.
  intros H. unfold drawTrajectoryWithMarker, sampleWholeTrajectory, sampleTrajectoryInRange. destruct (_ || _)%bool; [reflexivity|].
  rewrite (proj2 (Nat.ltb_lt _ _) H). reflexivity.
Qed.
Print Assumptions C81_low_dimension.
Example C81_low_dimension_example : (tr_D (mkTraj 2 2 [mkSegment 2 [[0; 1]; [0; 2]] 1] (0 + 1)) < 3)%nat. Proof. cbn. lia. Qed.
(** The drawn line stops short of the end of the trajectory. *)
Theorem C81_goal_refuted : exists (tr : trajectory R) goal, traj_wf tr /\ times_nonneg tr /\ traj_consistent tr /\ (3 <= tr_D tr)%nat /\ 0 < duration tr /\
  (forall x, value_at tr 0 (duration tr) x -> x = goal) /\
  forall mp mav distance frame arr, exists fuel0, forall fuel, (fuel0 <= fuel)%nat -> exists before line,
    drawTrajectory mp mav fuel tr distance frame arr = Ok (Some (before ++ [line])) /\ ~ In goal (mk_points line).
Proof.
  destruct C81_example as (A & B & C & D & E & F). destruct line_starts as (S0 & S1 & S2).
  assert (V : forall t x, value_at line_tr 0 t x -> x = [t; 2 * t; 3]).
  { intros t x (i & Hi & _ & ->). assert (Hi' : (i = 0 \/ i = 1)%nat) by (cbv [tr_K line_tr tr_segments length] in Hi; lia).
    destruct Hi' as [-> | ->]; rewrite ?S0, ?S1; cbn [seg_at line_tr tr_segments nth seg_value seg_D seg_polys seq map length]; unfold seg_value;
      cbn [seg_D seg_polys length seq map]; rewrite !seg_fun_dpoly; repeat (f_equal; try (rcompute; ring)). }
  exists line_tr, [3; 2 * 3; 3]. split; [exact A|]. split; [exact B|]. split; [exact C|]. split; [exact D|]. split; [exact F|]. split.
  { intros x Hx. rewrite line_duration in Hx. apply V, Hx. }
  intros mp mav distance frame arr. destruct (C81_path mp mav line_tr distance frame [] arr A B C D E F) as (f0 & before & line & Ed & _ & _ & N & P).
  exists f0. intros fuel Hf. exists before, line. split; [exact (Ed fuel Hf)|]. intros Hin. destruct (In_nth _ _ [] Hin) as (k & Hk & Ek).
  destruct (P k Hk) as (x & Hx & Ex). apply V in Hx. subst x. rewrite Ek in Ex. cbn [firstn] in Ex. injection Ex as X _. apply N in Hk. rewrite line_duration in Hk. lra.
Qed.
Print Assumptions C81_goal_refuted.
