(** C90: the results and markers of one run of the benchmark. *)
From Coq Require Import ZArith Reals List Bool Lia Lra Psatz String Sorted.
From Flocq Require Import Core BinarySingleNaN.
From Verif Require Import Num RSum SpecPoly ModelPolynomial ModelSegment ModelVertex ModelTrajectory ModelIO ModelSampling ModelVis ModelLinear ModelNonlinear ModelPlanner ModelBench
  SpecSegment SpecVertex SpecTrajectory SpecVis SpecBench ProofPolynomial ProofSegment ProofVertex ProofTrajectory ProofTrajectory2 PropSampling PropBench PropBench3.
Import ListNotations.
Notation length := List.length.
Open Scope R_scope.

(** Two results agree in everything evaluateTrajectory measures. *)
Definition same_measures {T} (r r0 : bench_result T) : Prop :=
  br_violated r = br_violated r0 /\ br_time r = br_time r0 /\ br_length r = br_length r0 /\ br_v_max r = br_v_max r0 /\ br_a_max r = br_a_max r0 /\
  br_max_dist r = br_max_dist r0 /\ br_area r = br_area r0.

Lemma evaluate_from {T} {ops : NumOps T} rf mav (v a : T) fuel name tr ct r0 r :
  evaluateTrajectory rf mav v a fuel name tr ct r0 = Ok (Some r) ->
  br_trial r = br_trial r0 /\ br_method r = name /\ br_segments r = br_segments r0 /\ br_nominal r = br_nominal r0 /\
  br_success r = br_success r0 /\ br_cost r = br_cost r0 /\ br_computation r = ct /\
  forall r1, exists r', evaluateTrajectory rf mav v a fuel name tr ct r1 = Ok (Some r') /\ same_measures r r'.
Proof.
  intros E. unfold evaluateTrajectory in E |- *.
  destruct (sampleWholeTrajectory _ _ _ _ _) as [[(b, path)|]| | |]; cbn [obind] in E |- *; try discriminate.
  destruct (traj_minmax rf tr kVelocity _ _ _) as [v1| | |]; cbn [obind] in E |- *; try discriminate.
  destruct (traj_minmax rf tr kAcceleration _ _ _) as [a1| | |]; cbn [obind] in E |- *; try discriminate.
  destruct (line_segments _ _ _ _) as [[(((m1, d1), ar), p1)|]| | |]; cbn [obind] in E |- *; try discriminate.
  apply Ok_inj, Some_inj in E. subst r. cbn. repeat (split; [reflexivity|]). intros r1. eexists. split; [reflexivity|]. repeat split.
Qed.

Section Results.
  Context {T : Type} {ops : NumOps T}.
  Context (inv : mat T -> mat T) (solve : mat T -> list T -> list T) (rf : root_oracle (T := T)) (fexp : T -> T) (mav : mav_functions T) (v a : T).
  Context (fuel : nat) (nlopt : bench_method -> nlopt_algorithm (T := T)) (clock : bench_method -> T) (frame : string) (vs : list (vertex T)).

  (** What the result of one method reports. *)
  Definition reports (trial segments : Z) (nominal : T) (m : bench_method) (r : bench_result T) : Prop :=
    br_trial r = trial /\ br_method r = method_name m /\ br_segments r = segments /\ br_nominal r = nominal /\ br_computation r = clock m /\
    exists tr r0, run_method inv solve rf fexp v a (nlopt m) m vs traj_new = Ok (br_success r, tr, br_cost r) /\
      evaluateTrajectory rf mav v a fuel (method_name m) tr (clock m) result_new = Ok (Some r0) /\ same_measures r r0.
  (** The marker of one method. *)
  Definition marks (m : bench_method) (mk : marker T) : Prop :=
    mk_ns mk = method_name m /\ mk_color mk = method_color m /\ mk_frame mk = frame /\ mk_type mk = kLINE_STRIP /\
    exists success tr cost b path, run_method inv solve rf fexp v a (nlopt m) m vs traj_new = Ok (success, tr, cost) /\
      sampleWholeTrajectory mav fuel tr (nlit 1 10) [] = Ok (Some (b, path)) /\ mk_points mk = marker_points path 0.

  Lemma bench_loop_reports visualize ms : forall r0 results markers results' markers',
    bench_loop inv solve rf fexp mav v a fuel nlopt clock visualize frame vs ms r0 results markers = Ok (Some (results', markers')) ->
    exists rs mks, results' = results ++ rs /\ markers' = markers ++ mks /\
      Forall2 (reports (br_trial r0) (br_segments r0) (br_nominal r0)) ms rs /\ (if visualize then Forall2 marks ms mks else mks = []).
  Proof.
    induction ms as [|m ms IH]; intros r0 results markers results' markers' E; cbn [bench_loop] in E.
    - apply Ok_inj, Some_inj in E. injection E as <- <-. exists [], []. rewrite !app_nil_r. split; [reflexivity|]. split; [reflexivity|]. split; [constructor|].
      destruct visualize; [constructor|reflexivity].
    - destruct (run_method _ _ _ _ _ _ _ _ _ _) as [((success, tr), cost)| | |] eqn:Er; cbn [obind] in E; try discriminate.
      destruct (evaluateTrajectory _ _ _ _ _ _ _ _ _) as [[r2|]| | |] eqn:Ee; cbn [obind] in E; try discriminate.
      destruct (evaluate_from _ _ _ _ _ _ _ _ _ _ Ee) as (A1 & A2 & A3 & A4 & A5 & A6 & A7 & A8). cbn [br_trial br_segments br_nominal br_success br_cost] in *.
      assert (Hr : reports (br_trial r0) (br_segments r0) (br_nominal r0) m r2).
      { destruct (A8 result_new) as (r' & E' & S'). unfold reports. do 5 (split; [assumption|]). exists tr, r'. rewrite A5, A6. split; [exact Er|]. split; [exact E'|exact S']. }
      destruct visualize.
      + unfold visualizeTrajectory in E. destruct (sampleWholeTrajectory mav fuel tr (nlit 1 10) []) as [[(b, path)|]| | |] eqn:Ep; cbn [obind] in E; try discriminate.
        apply IH in E. destruct E as (rs & mks & -> & -> & F & G). rewrite A1, A3, A4 in F.
        eexists (r2 :: rs), (_ :: mks). rewrite <- !app_assoc. split; [reflexivity|]. split; [reflexivity|]. split; [constructor; assumption|].
        constructor; [|exact G]. unfold marks. do 4 (split; [reflexivity|]). exists success, tr, cost, b, path. split; [exact Er|]. split; [exact Ep|reflexivity].
      + cbn [obind] in E. apply IH in E. destruct E as (rs & mks & -> & -> & F & ->). rewrite A1, A3, A4 in F.
        exists (r2 :: rs), []. rewrite <- app_assoc. split; [reflexivity|]. split; [reflexivity|]. split; [constructor; assumption|reflexivity].
  Qed.
End Results.

Lemma Forall2_map_fst {A B C} (P : A -> B -> Prop) (f : A -> C) (g : B -> C) l l' : (forall x y, P x y -> g y = f x) -> Forall2 P l l' -> map g l' = map f l.
Proof. intros H. induction 1; cbn [map]; [reflexivity|]. f_equal; auto. Qed.

(** ** C90: what one run of the benchmark appends, for every number type. *)
Theorem C90_results {T} {ops : NumOps T} inv solve rf fexp mav (v a : T) fuel nlopt clock visualize frame trial segments vs results results' markers :
  runBenchmark inv solve rf fexp mav v a fuel nlopt clock visualize frame trial segments vs results = Ok (Some (results', markers)) ->
  exists nominal rs mks, nominalLength vs = Ok nominal /\ results' = results ++ rs /\
    (* one result per method, with its own trajectory, cost, flag and computation time *)
    Forall2 (reports inv solve rf fexp mav v a fuel nlopt clock vs trial segments nominal) all_methods rs /\
    map br_method rs = ["nfabian"; "trapezoidal"; "segment_violation_scaling"; "nonlinear_time_only"; "nonlinear"; "nonlinear_richter";
                        "mellinger_outer_loop"; "mellinger_outer_loop_trapezoidal_init"]%string /\
    (* one marker per method after that of the vertices *)
    (visualize = false -> markers = []) /\
    (visualize = true -> Forall2 (marks inv solve rf fexp mav v a fuel nlopt frame vs) all_methods mks /\
       (exists mv, markers = mv :: mks /\ mk_ns mv = "straight_path"%string /\ nth 0 (mk_scale mv) n0 = nlit 1 10) /\
       NoDup (map mk_ns markers)).
Proof.
  unfold runBenchmark. intros E. destruct (nominalLength vs) as [nominal| | |] eqn:En; cbn [obind] in E; try discriminate.
  apply bench_loop_reports in E. destruct E as (rs & mks & -> & -> & F & G). cbn [br_trial br_segments br_nominal] in F.
  exists nominal, rs, mks. split; [reflexivity|]. split; [reflexivity|]. split; [exact F|].
  split; [rewrite (Forall2_map_fst (reports inv solve rf fexp mav v a fuel nlopt clock vs trial segments nominal) method_name br_method all_methods rs); [reflexivity| |exact F]; intros ? ? (_ & H & _); exact H|].
  destruct visualize; (split; [|]).
  - discriminate.
  - intros _. split; [exact G|].
    assert (V : exists mv, map (fun m => set_scale m [nlit 1 10; vx (mk_scale m) 1; vx (mk_scale m) 2]) (drawVertices vs frame []) = [mv] /\ mk_ns mv = "straight_path"%string /\ nth 0 (mk_scale mv) n0 = nlit 1 10).
    { unfold drawVertices. set (m1 := set_ns _ _). assert (Hn : forall l (m : marker T), mk_ns (snd (vertex_points l m)) = mk_ns m).
      { induction l as [|x l IH]; intros m; [reflexivity|]. cbn [vertex_points]. destruct (negb _); [reflexivity|]. destruct (vertex_get x 0); [|apply IH]. rewrite IH. reflexivity. }
      destruct (fst (vertex_points vs m1)); cbn [setMarkerProperties map]; eexists; (split; [reflexivity|]); (split; [|reflexivity]); cbn [mk_ns set_scale set_life set_id set_action set_frame]; rewrite Hn; reflexivity. }
    destruct V as (mv & -> & Nv & Sv). cbn [app]. split; [exists mv; auto|]. cbn [map].
    rewrite Nv. rewrite (Forall2_map_fst (marks inv solve rf fexp mav v a fuel nlopt frame vs) method_name mk_ns all_methods mks); [|intros ? ? (H & _); exact H|exact G]. cbn [map all_methods method_name].
    repeat (constructor; [cbn; intuition discriminate|]). constructor.
  - intros _. rewrite G. reflexivity.
  - discriminate.
Qed.
Print Assumptions C90_results.

(** ** C90: the points of the marker of one method. *)
Lemma filter_seq_S {g : nat -> bool} n : forall a, filter g (seq (S a) n) = map S (filter (fun k => g (S k)) (seq a n)).
Proof. induction n as [|n IH]; intros a; [reflexivity|]. cbn [seq filter]. destruct (g (S a)); cbn [map]; rewrite IH; reflexivity. Qed.
Lemma sorted_filter_seq (g : nat -> bool) n : forall a, StronglySorted lt (filter g (seq a n)).
Proof.
  induction n as [|n IH]; intros a; cbn [seq filter]; [constructor|]. destruct (g a); [|apply IH]. constructor; [apply IH|].
  apply List.Forall_forall. intros x Hx. apply filter_In in Hx as (Hx & _). apply in_seq in Hx. lia.
Qed.
Definition in_view (p : list R) : bool := negb (Rltb 100 (maxCoeff p) || Rltb (minCoeff p) (- (100))).
Lemma in_view_spec p : length p = 3%nat -> in_view p = true <-> within_100 p.
Proof.
  intros L. destruct p as [|a [|b [|c [|? ?]]]]; try discriminate. unfold in_view, maxCoeff, minCoeff, coeff_extremum, within_100. cbn [tl fold_left vx nth In].
  rnum. rewrite negb_true_iff, orb_false_iff, !Rltb_false. split.
  - intros (H1 & H2) x Hx.
    destruct (Rltb_spec a b) in H1, H2; destruct (Rltb_spec b a) in H1, H2;
    repeat match goal with H : context [Rltb ?x ?y] |- _ => destruct (Rltb_spec x y) end; destruct Hx as [<-|[<-|[<-|[]]]]; lra.
  - intros H. assert (Ha := H a ltac:(auto)). assert (Hb := H b ltac:(auto)). assert (Hc := H c ltac:(auto)).
    split; repeat match goal with |- context [Rltb ?x ?y] => destruct (Rltb_spec x y) end; lra.
Qed.
Lemma marker_points_R (ps : list (point R)) : List.Forall (fun p => length (pt_position p) = 3%nat) ps -> forall i,
  marker_points ps i = map (fun k => nth k (map pt_position ps) origin)
    (filter (fun k => Nat.eqb (Nat.modulo (S (i + k)) 10) 0 && in_view (nth k (map pt_position ps) origin)) (seq 0 (length ps))).
Proof.
  induction 1 as [|p ps Hp H IH]; intros i; [reflexivity|]. cbn [marker_points length seq filter map nth]. rewrite Nat.add_0_r.
  rewrite filter_seq_S.
  assert (E : map (fun k => nth k (pt_position p :: map pt_position ps) origin)
    (map S (filter (fun k => (Nat.eqb (Nat.modulo (S (i + S k)) 10) 0 && in_view (nth (S k) (pt_position p :: map pt_position ps) origin))%bool) (seq 0 (length ps)))) = marker_points ps (S i)).
  { rewrite map_map, IH. f_equal. apply filter_ext. intros k. cbn [nth]. replace (i + S k)%nat with (S i + k)%nat by lia. reflexivity. }
  destruct (Nat.eqb (Nat.modulo (S i) 10) 0); cbn [negb andb].
  - unfold in_view at 1. rnum. change (nofZ 100) with 100. destruct (Rltb 100 (maxCoeff (pt_position p)) || Rltb (minCoeff (pt_position p)) (- (100)))%bool; cbn [negb]; [symmetry; exact E|].
    cbn [map]. f_equal; [|symmetry; exact E]. cbn [nth]. unfold point_msg, vx. destruct (pt_position p) as [|x [|y [|z [|? ?]]]]; try discriminate. reflexivity.
  - symmetry. exact E.
Qed.
Lemma marker_points_spec (ps : list (point R)) : List.Forall (fun p => length (pt_position p) = 3%nat) ps -> every_tenth (map pt_position ps) (marker_points ps 0).
Proof.
  intros H. rewrite (marker_points_R ps H 0). eexists. split; [reflexivity|]. split; [apply sorted_filter_seq|].
  intros i. rewrite filter_In, in_seq, andb_true_iff, Nat.eqb_eq, map_length. cbn [Nat.add].
  assert (M : (S i mod 10 = 0)%nat <-> exists q, i = (10 * q + 9)%nat).
  { split; [intros M; exists (i / 10)%nat|intros (q & ->)].
    - assert (A := Nat.div_mod i 10 ltac:(lia)). assert (B := Nat.mod_upper_bound i 10 ltac:(lia)).
      apply Nat.mod_divides in M as (c & M); [|lia]. lia.
    - replace (S (10 * q + 9)) with ((q + 1) * 10)%nat by lia. apply Nat.mod_mul. lia. }
  rewrite M. split.
  - intros (A & B & C). split; [lia|]. split; [exact B|]. apply in_view_spec; [|exact C].
    change origin with (pt_position (point_new (T := R))). rewrite map_nth. apply (proj1 (List.Forall_forall _ _) H), nth_In. lia.
  - intros (A & B & C). split; [lia|]. split; [exact B|]. apply in_view_spec; [|exact C].
    change origin with (pt_position (point_new (T := R))). rewrite map_nth. apply (proj1 (List.Forall_forall _ _) H), nth_In. lia.
Qed.

Theorem C90_marker (mav : mav_functions R) (m : bench_method) (tr : trajectory R) (frame : string) (arr : list (marker R)) :
  traj_wf tr -> traj_consistent tr -> times_nonneg tr -> tr_D tr = 3%nat -> 0 < duration tr -> 10 ^ 9 * duration tr < IZR (2 ^ 63) -> 10 * duration tr + 1 < IZR (2 ^ 59) ->
  exists fuel0 path mk, (forall fuel, (fuel0 <= fuel)%nat -> visualizeTrajectory mav fuel m tr frame arr = Ok (Some (arr ++ [mk]))) /\
    (* the samples every 0.1 s, of which every tenth is drawn *)
    (forall k, (k < length path)%nat <-> INR k * (1 / 10) < duration tr) /\
    (forall k, (k < length path)%nat -> value_at tr 0 (INR k * (1 / 10)) (nth k path origin)) /\
    every_tenth path (mk_points mk) /\
    mk_ns mk = method_name m /\ mk_color mk = method_color m /\ mk_frame mk = frame /\ mk_type mk = kLINE_STRIP /\ nth 0 (mk_scale mk) 0 = 5 / 100.
Proof.
  intros Hw Hc Hn HD H0 H63 H59.
  destruct (C51_whole_trajectory mav tr (1 / 10) [] Hw Hn Hc ltac:(lia) H63 ltac:(lra) H0) as (f1 & sts & E1 & N1 & V1).
  { replace (duration tr / (1 / 10)) with (10 * duration tr) by field. exact H59. }
  assert (P : forall k, (k < length sts)%nat -> value_at tr 0 (INR k * (1 / 10)) (pt_position (nth k sts point_new)) /\ length (pt_position (nth k sts point_new)) = 3%nat).
  { intros k Hk. destruct (V1 k Hk) as (g & G1 & G2). destruct G2 as (-> & _).
    assert (G := G1 0%nat ltac:(lia)). assert (Lg : length (g 0%nat) = 3%nat).
    { destruct G as (i & Hi & _ & ->). rewrite seg_value_length. rewrite <- HD. apply (traj_wf_seg tr i Hw Hi). }
    assert (Ef : firstn 3 (g 0%nat) = g 0%nat) by (rewrite <- Lg; apply firstn_all). rewrite Ef. split; [exact G|exact Lg]. }
  exists f1, (map pt_position sts), (createMarkerForPath sts (method_color m) (method_name m) frame (nlit 5 100)). split; [|rewrite map_length; split; [exact N1|split; [|split; [apply (marker_points_spec sts)|]]]].
  - intros fuel Hf. unfold visualizeTrajectory. replace (nlit 1 10) with (1 / 10) by (unfold nlit; rnum; reflexivity). rewrite E1 by exact Hf. cbn [obind]. reflexivity.
  - intros k Hk. change origin with (pt_position (point_new (T := R))). rewrite map_nth. apply P, Hk.
  - apply List.Forall_forall. intros p Hp. apply (In_nth _ _ point_new) in Hp as (k & Hk & <-). apply P, Hk.
  - do 4 (split; [reflexivity|]). cbn. unfold nlit. rnum. reflexivity.
Qed.
Print Assumptions C90_marker.
Example C90_marker_example : traj_wf line_tr /\ traj_consistent line_tr /\ times_nonneg line_tr /\ tr_D line_tr = 3%nat /\ 0 < duration line_tr /\
  10 ^ 9 * duration line_tr < IZR (2 ^ 63) /\ 10 * duration line_tr + 1 < IZR (2 ^ 59).
Proof.
  split; [exact line_wf|]. split; [exact line_consistent|]. split; [exact line_nonneg|]. split; [reflexivity|]. split; [rewrite line_duration; lra|].
  split; [exact line_small|]. rewrite line_duration. apply Rle_lt_trans with (IZR 31); [lra|apply IZR_lt; reflexivity].
Qed.

(** ** C90 finding: nothing is drawn of a trajectory that lasts at most 0.9 s. *)
Theorem C90_short_path_invisible (mav : mav_functions R) (m : bench_method) (tr : trajectory R) (frame : string) (arr : list (marker R)) :
  traj_wf tr -> traj_consistent tr -> times_nonneg tr -> tr_D tr = 3%nat -> 0 < duration tr <= 9 / 10 ->
  exists fuel0 mk, (forall fuel, (fuel0 <= fuel)%nat -> visualizeTrajectory mav fuel m tr frame arr = Ok (Some (arr ++ [mk]))) /\ mk_points mk = [].
Proof.
  intros Hw Hc Hn HD H0.
  destruct (C90_marker mav m tr frame arr Hw Hc Hn HD ltac:(lra)) as (f0 & path & mk & E & N & _ & (idx & P & _ & I) & _).
  - apply Rle_lt_trans with (IZR 1000000000); [lra|apply IZR_lt; reflexivity].
  - apply Rle_lt_trans with (IZR 10); [lra|apply IZR_lt; reflexivity].
  - exists f0, mk. split; [exact E|]. rewrite P. destruct idx as [|i idx]; [reflexivity|]. exfalso.
    destruct (proj1 (I i) (or_introl eq_refl)) as (Li & (q & ->) & _). apply N in Li. rewrite plus_INR, mult_INR in Li.
    assert (Q := pos_INR q). cbn [INR] in Li. nra.
Qed.
Print Assumptions C90_short_path_invisible.
Definition short_tr : trajectory R := mkTraj 3 2 [mkSegment 2 [[0; 1]; [0; 2]; [3; 0]] (9 / 10)] (0 + 9 / 10).
Example C90_short_example : traj_wf short_tr /\ traj_consistent short_tr /\ times_nonneg short_tr /\ tr_D short_tr = 3%nat /\ 0 < duration short_tr <= 9 / 10.
Proof.
  split; [split; [repeat constructor|cbn; lia]|]. split; [split; [repeat constructor|reflexivity]|]. split; [repeat constructor; cbn; lra|].
  split; [reflexivity|]. unfold duration. cbn. lra.
Qed.
Theorem C90_path_drawn_refuted : exists (mav : mav_functions R) (m : bench_method) (tr : trajectory R),
  traj_wf tr /\ traj_consistent tr /\ times_nonneg tr /\ 0 < duration tr /\
  exists fuel0 mk, (forall fuel, (fuel0 <= fuel)%nat -> visualizeTrajectory mav fuel m tr "world" [] = Ok (Some [mk])) /\ mk_points mk = [].
Proof.
  exists no_mav, Nfabian, short_tr. destruct C90_short_example as (A1 & A2 & A3 & A4 & A5). do 3 (split; [assumption|]). split; [lra|].
  exact (C90_short_path_invisible no_mav Nfabian short_tr "world" [] A1 A2 A3 A4 A5).
Qed.
Print Assumptions C90_path_drawn_refuted.

(** ** C90: the colours tell the methods apart. *)
Theorem C90_colors : NoDup (map (method_color (T := R)) all_methods) /\ forall m, length (method_color (T := R) m) = 4%nat.
Proof.
  split; [|intros []; reflexivity]. cbn [map all_methods method_color]. unfold rgb, Red, Blue, Orange, rgb, nlit, n0, n1. rnum.
  repeat (constructor; [cbn [In]; intros H; repeat (destruct H as [H|H]; [injection H; intros; lra|]); exact H|]). constructor.
Qed.
Print Assumptions C90_colors.

(** A complete run of the benchmark in fixed point numbers of nine decimals, with
    an optimizer that fails after one evaluation. *)
Definition Fix_ops : NumOps Z := {|
  nadd := Z.add; nsub := Z.sub; nmul := fun x y => (x * y / 10 ^ 9)%Z; ndiv := fun x y => (x * 10 ^ 9 / y)%Z; nopp := Z.opp; nabs := Z.abs;
  nsqrt := fun x => Z.sqrt (x * 10 ^ 9); nltb := Z.ltb; nleb := Z.leb; neqb := Z.eqb; nofZ := fun z => (z * 10 ^ 9)%Z; ntoZ := fun x => Some (x / 10 ^ 9)%Z |}.
Definition ex_vertex (x : Z) : vertex Z := mkVertex 3 (map (fun d => (Z.of_nat d, [if Nat.eqb d 0 then x else 0%Z; 0%Z; 0%Z])) (seq 0 5)).
Definition ex_nlopt (gradient : bool) : nlopt_algorithm (T := Z) := fun _ _ _ x => NlObjective gradient x (fun _ _ => NlThrow x (@dbl_max Z Fix_ops)).
Definition ex_mav : mav_functions Z := mkMav _ (fun _ => []) (fun _ => []) (fun _ => []) (fun _ => []) (fun _ _ => []) (fun _ _ _ => []).
Definition ex_run : outcome (option (list (bench_result Z) * list (marker Z))) :=
  @runBenchmark Z Fix_ops (fun m => m) (fun A b => map (fun _ => 0%Z) b) (fun _ => (true, [])) (fun _ => 0%Z) ex_mav
    (10 * 10 ^ 9)%Z (10 * 10 ^ 9)%Z 40 (fun m => ex_nlopt (match m with MellingerOuterLoop | MellingerTrapezoidalInit => true | _ => false end)) (fun _ => 7%Z) true "world" 3 1
    [ex_vertex 0%Z; ex_vertex (125 * 10 ^ 6)%Z] [].
Definition ex_counts (x : outcome (option (list (bench_result Z) * list (marker Z)))) : bool :=
  match x with Ok (Some (rs, ms)) => Nat.eqb (length rs) 8 && Nat.eqb (length ms) 9 | _ => false end.
Lemma ex_counts_inv x : ex_counts x = true -> exists rs ms, x = Ok (Some (rs, ms)) /\ length rs = 8%nat /\ length ms = 9%nat.
Proof.
  destruct x as [[(rs, ms)|]| | |]; intros H; try discriminate. cbn [ex_counts] in H. apply andb_true_iff in H as (H1 & H2).
  exists rs, ms. split; [reflexivity|]. split; apply Nat.eqb_eq; assumption.
Qed.
Lemma ex_counts_true : ex_counts ex_run = true. Proof. vm_compute. reflexivity. Qed.
Example C90_results_example : exists rs ms, ex_run = Ok (Some (rs, ms)) /\ length rs = 8%nat /\ length ms = 9%nat.
Proof. exact (ex_counts_inv ex_run ex_counts_true). Qed.
