(** C89: the evaluation of a trajectory in the benchmark. *)
From Coq Require Import ZArith Reals List Bool Lia Lra Psatz String.
From Coquelicot Require Import Coquelicot.
From Flocq Require Import Core BinarySingleNaN.
From Verif Require Import Num RSum SpecPoly ModelPolynomial ModelSegment ModelVertex ModelTrajectory ModelIO ModelSampling ModelVis ModelLinear ModelNonlinear ModelPlanner ModelBench
  SpecSegment SpecVertex SpecTrajectory SpecVis SpecBench ProofPolynomial ProofSegment ProofVertex ProofTrajectory ProofTrajectory2 ProofTrajectory4 ProofRoots PropTrajectory PropTrajectory2
  PropSampling ProofFloat ProofBench PropBench.
Import ListNotations.
Notation length := List.length.
Open Scope R_scope.

Lemma eval3_R s t : seg_wf s -> (seg_N s <= 22)%nat -> seg_D s = 3%nat -> eval3 s t = Ok (seg_value s t 0).
Proof.
  intros W N D. unfold eval3. change 0%Z with (Z.of_nat 0). rewrite seg_evaluate_value by assumption. cbn [obind]. rewrite seg_value_length, D. reflexivity.
Qed.
Lemma sample_count dt T : 0 < dt -> exists n, forall k, (k < n)%nat <-> INR k * dt < T.
Proof.
  intros Hd. destruct (steps_exist dt T Hd) as (m & Hm). induction m as [|m IH].
  - exists 0%nat. intros k. split; [lia|]. intros Hk. cbn [INR] in Hm. assert (0 <= INR k * dt) by (apply Rmult_le_pos; [apply pos_INR|lra]). lra.
  - destruct (Rle_lt_dec T (INR m * dt)) as [H|H]; [apply IH, H|]. exists (S m). intros k. split.
    + intros Hk. apply Rle_lt_trans with (INR m * dt); [|exact H]. apply Rmult_le_compat_r; [lra|]. apply le_INR. lia.
    + intros Hk. apply INR_lt. apply Rmult_lt_reg_r with dt; [exact Hd|]. lra.
Qed.

(** The running maximum and the area of one segment. *)
Definition top (f : list R -> R) (m : R) (Q : list (list R)) : R := fold_left (fun m p => Rmax m (f p)) Q m.
Fixpoint strip (f : list R -> R) (pd : R) (pp : list R) (Q : list (list R)) : R :=
  match Q with [] => 0 | p :: Q' => (f p + pd) / 2 * dist3 pp p + strip f (f p) p Q' end.
Lemma strip_trapezoids f Q : forall p, strip f (f p) p Q = trapezoids f (p :: Q).
Proof.
  induction Q as [|q Q IH]; intros p; [reflexivity|]. cbn [strip]. rewrite IH. unfold trapezoids. cbn [length]. 
  replace (S (S (length Q)) - 1)%nat with (S (length Q)) by lia. replace (S (length Q) - 1)%nat with (length Q) by lia.
  cbn [seq map lsum]. rewrite <- seq_shift, map_map. cbn [nth]. f_equal. lra.
Qed.
Lemma line_loop_R s a b dt n : seg_wf s -> (seg_N s <= 22)%nat -> seg_D s = 3%nat -> (forall k, (k < n)%nat <-> INR k * dt < seg_time s) ->
  forall m k fuel mx pd ar pp, (k + m = n)%nat -> (m < fuel)%nat ->
  let Q := map (fun k => seg_value s (INR k * dt) 0) (seq k m) in
  exists pd' pp', line_loop fuel s a b dt (INR k * dt) (mx, pd, ar, pp) =
    Ok (Some (top (fun p => pointLineDistance p a b) mx Q, pd', ar + strip (fun p => pointLineDistance p a b) pd pp Q, pp')).
Proof.
  intros W N D Hn. induction m as [|m IH]; intros k fuel mx pd ar pp Hk Hf; (destruct fuel as [|fuel]; [lia|]); cbn [line_loop seq map].
  - unfold nltb at 1. rnum. rewrite (proj2 (Rltb_false _ _)). 2:{ apply Rnot_lt_le. rewrite <- Hn. lia. }
    exists pd, pp. cbn [top fold_left strip]. repeat f_equal. ring.
  - rnum. rewrite (proj2 (Rltb_true _ _)) by (apply Hn; lia). rewrite eval3_R by assumption. cbn [obind].
    set (p := seg_value s (INR k * dt) 0). set (f := fun p => pointLineDistance p a b).
    replace (INR k * dt + dt) with (INR (S k) * dt) by (rewrite S_INR; ring).
    destruct (IH (S k) fuel (Rmax mx (f p)) (f p) (ar + (f p + pd) / 2 * dist3 pp p) p ltac:(lia) ltac:(lia)) as (pd' & pp' & E).
    exists pd', pp'. cbv zeta in E |- *. cbn [top fold_left strip] in E |- *. fold f in E |- *.
    match goal with |- line_loop _ _ _ _ _ _ ?st = _ => replace st with (Rmax mx (f p), f p, ar + (f p + pd) / 2 * dist3 pp p, p) end.
    + rewrite E. fold p. match goal with |- Ok (Some (_, _, ?x, _)) = Ok (Some (_, _, ?y, _)) => replace x with y by ring end. reflexivity.
    + change (pointLineDistance p a b) with (f p). rewrite norm_dist3, (dist3_sym p pp). unfold nlit. rnum.
      assert (Em : Rmax mx (f p) = if Rltb mx (f p) then f p else mx) by (destruct (Rltb_spec mx (f p)); [apply Rmax_right|apply Rmax_left]; lra).
      rewrite Em. replace ((f p + pd) / 2) with (1 / 2 * (f p + pd)) by field. reflexivity.
Qed.

Definition ends_apart (s : segment R) : Prop := 0 < dist3 (seg_value s 0 0) (seg_value s (seg_time s) 0).
Definition pld_of (s : segment R) (p : list R) : R := pointLineDistance p (seg_value s 0 0) (seg_value s (seg_time s) 0).

Lemma line_segments_R dt segs : 0 < dt -> List.Forall (fun s => seg_wf s /\ (seg_N s <= 22)%nat /\ seg_D s = 3%nat) segs ->
  exists fuel0 Qs, Forall2 (fun s Q => position_samples s dt Q) segs Qs /\
    forall fuel mx pd ar pp, (fuel0 <= fuel)%nat -> exists pd' pp',
      line_segments fuel segs dt (mx, pd, ar, pp) =
      Ok (Some (fold_left (fun m c => top (pld_of (fst c)) m (snd c)) (combine segs Qs) mx, pd',
                ar + lsum (map (fun c => trapezoids (pld_of (fst c)) (snd c)) (combine segs Qs)), pp')).
Proof.
  intros Hd. induction 1 as [|s segs (W & N & D) H IH].
  - exists 0%nat, []. split; [constructor|]. intros. exists pd, pp. cbn. repeat f_equal. ring.
  - destruct IH as (fuel0 & Qs & HQ & IH). destruct (sample_count dt (seg_time s) Hd) as (n & Hn).
    set (Q := map (fun k => seg_value s (INR k * dt) 0) (seq 0 n)).
    exists (S (Nat.max n fuel0)), (Q :: Qs). split.
    { constructor; [|exact HQ]. unfold position_samples, Q. rewrite map_length, seq_length. split; [exact Hn|].
      intros k Hk. rewrite nth_map_seq by exact Hk. reflexivity. }
    intros fuel mx pd ar pp Hf. cbn [line_segments combine fold_left map lsum fst snd]. change (@n0 R R_ops) with 0.
    rewrite !eval3_R by assumption. cbn [obind].
    destruct (line_loop_R s (seg_value s 0 0) (seg_value s (seg_time s) 0) dt n W N D Hn n 0 fuel mx pd ar (seg_value s 0 0) eq_refl ltac:(lia)) as (pd1 & pp1 & E).
    cbn [INR] in E. rewrite Rmult_0_l in E. rewrite E. cbn [obind]. fold Q. change (fun p => pointLineDistance p (seg_value s 0 0) (seg_value s (seg_time s) 0)) with (pld_of s).
    destruct (IH fuel (top (pld_of s) mx Q) pd1 (ar + strip (pld_of s) pd (seg_value s 0 0) Q) pp1 ltac:(lia)) as (pd2 & pp2 & E2).
    exists pd2, pp2. rewrite E2.
    assert (Es : strip (pld_of s) pd (seg_value s 0 0) Q = trapezoids (pld_of s) Q).
    { unfold Q. destruct n as [|n]; [reflexivity|]. cbn [seq map strip INR]. rewrite Rmult_0_l, dist3_refl, Rmult_0_r, Rplus_0_l. apply strip_trapezoids. }
    rewrite Es, Rplus_assoc. reflexivity.
Qed.

Lemma top_spec f Q : forall m, m <= top f m Q /\ (forall k, (k < length Q)%nat -> f (nth k Q origin) <= top f m Q) /\
  (top f m Q = m \/ exists k, (k < length Q)%nat /\ top f m Q = f (nth k Q origin)).
Proof.
  induction Q as [|q Q IH]; intros m; cbn [top fold_left length].
  - split; [lra|]. split; [intros; lia|]. left. reflexivity.
  - destruct (IH (Rmax m (f q))) as (A & B & C). change (fold_left (fun m p => Rmax m (f p)) Q (Rmax m (f q))) with (top f (Rmax m (f q)) Q).
    assert (M1 := Rmax_l m (f q)). assert (M2 := Rmax_r m (f q)). split; [lra|]. split.
    + intros [|k] Hk; cbn [nth]; [lra|apply B; lia].
    + destruct C as [C|(k & Hk & C)]; [|right; exists (S k); split; [lia|exact C]].
      rewrite C. destruct (Rle_dec (f q) m); [left; apply Rmax_left; lra|right; exists 0%nat; split; [apply Nat.lt_0_succ|cbn [nth]; apply Rmax_right; lra]].
Qed.
Lemma tops_spec g cs : forall m, let M := fold_left (fun m (c : segment R * list (list R)) => top (g (fst c)) m (snd c)) cs m in
  m <= M /\ (forall s Q k, In (s, Q) cs -> (k < length Q)%nat -> g s (nth k Q origin) <= M) /\
  (M = m \/ exists s Q k, In (s, Q) cs /\ (k < length Q)%nat /\ M = g s (nth k Q origin)).
Proof.
  induction cs as [|(s, Q) cs IH]; intros m; cbn [fold_left fst snd].
  - cbv zeta. split; [lra|]. split; [intros ? ? ? []|]. left. reflexivity.
  - destruct (IH (top (g s) m Q)) as (A & B & C). destruct (top_spec (g s) Q m) as (A' & B' & C'). cbv zeta in *.
    set (M := fold_left _ cs _) in *. split; [lra|]. split.
    + intros s' Q' k [E|Hi] Hk; [injection E as <- <-; specialize (B' k Hk); lra|exact (B s' Q' k Hi Hk)].
    + destruct C as [C|(s' & Q' & k & Hi & Hk & C)]; [|right; exists s', Q', k; split; [right; exact Hi|auto]].
      destruct C' as [C'|(k & Hk & C')]; [left; lra|]. right. exists s, Q, k. split; [left; reflexivity|]. split; [exact Hk|lra].
Qed.

(** ** C89: the measures of one result. *)
Theorem C89_measures (rf : root_oracle (T := R)) (mav : mav_functions R) (v a : R) (name : string) (tr : trajectory R) (ct : R) (r0 : bench_result R)
        (f : segment R -> list R -> R) :
  perfect_root_finder rf -> traj_wf tr -> traj_consistent tr -> times_nonneg tr -> tr_D tr = 3%nat -> (3 <= tr_N tr)%nat ->
  0 < duration tr -> 10 ^ 9 * duration tr < IZR (2 ^ 63) -> 100 * duration tr + 1 < IZR (2 ^ 59) ->
  (* the ends of every segment differ; f: the distance from the line through them *)
  List.Forall ends_apart (tr_segments tr) ->
  (forall s p, In s (tr_segments tr) -> distance_to_line p (seg_value s 0 0) (seg_value s (seg_time s) 0) (f s p)) ->
  exists fuel0 r path Qs, (forall fuel, (fuel0 <= fuel)%nat -> evaluateTrajectory rf mav v a fuel name tr ct r0 = Ok (Some r)) /\
    br_trial r = br_trial r0 /\ br_method r = name /\ br_segments r = br_segments r0 /\ br_nominal r = br_nominal r0 /\
    br_success r = br_success r0 /\ br_cost r = br_cost r0 /\ br_computation r = ct /\
    br_time r = duration tr /\
    (norm_at_most tr xyz 1 (br_v_max r) /\ exists i t, (i < tr_K tr)%nat /\ 0 <= t <= seg_time (seg_at tr i) /\ seg_norm (seg_at tr i) xyz 1 t = br_v_max r) /\
    (norm_at_most tr xyz 2 (br_a_max r) /\ exists i t, (i < tr_K tr)%nat /\ 0 <= t <= seg_time (seg_at tr i) /\ seg_norm (seg_at tr i) xyz 2 t = br_a_max r) /\
    (br_violated r = false <-> norm_at_most tr xyz 1 (v + 1 / 10000) /\ norm_at_most tr xyz 2 (a + 1 / 10000)) /\
    (* the path length: of the polygon through the samples at 0, 0.01, 0.02, ... *)
    br_length r = polyline path /\ (forall k, (k < length path)%nat <-> INR k * (1 / 100) < duration tr) /\
    (forall k, (k < length path)%nat -> value_at tr 0 (INR k * (1 / 100)) (nth k path origin)) /\
    (* comparison with the straight lines *)
    Forall2 (fun s Q => position_samples s (1 / 100) Q) (tr_segments tr) Qs /\
    br_area r = lsum (map (fun c => trapezoids (f (fst c)) (snd c)) (combine (tr_segments tr) Qs)) /\
    (forall i k, (i < tr_K tr)%nat -> (k < length (nth i Qs []))%nat -> f (seg_at tr i) (nth k (nth i Qs []) origin) <= br_max_dist r) /\
    exists i k, (i < tr_K tr)%nat /\ (k < length (nth i Qs []))%nat /\ br_max_dist r = f (seg_at tr i) (nth k (nth i Qs []) origin).
Proof.
  intros Hrf Hw Hc Hn HD HN H0 H63 H59 Ha Hf.
  assert (HK : (0 < tr_K tr)%nat). { unfold tr_K. destruct (tr_segments tr) eqn:E; [|cbn; lia]. unfold duration in H0. rewrite E in H0. cbn in H0. lra. }
  destruct (C51_whole_trajectory mav tr (1 / 100) [] Hw Hn Hc ltac:(lia) H63 ltac:(lra) H0) as (f1 & sts & E1 & N1 & V1).
  { replace (duration tr / (1 / 100)) with (100 * duration tr) by field. exact H59. }
  assert (Hdi : dims_in tr xyz) by (unfold dims_in, xyz; rewrite HD; repeat constructor; lia).
  destruct (C24_maximum rf tr 1 xyz extremum_zero extremum_zero Hrf Hw Hn HK Hdi ltac:(discriminate) ltac:(lia) ltac:(lia)) as (mn1 & mx1 & Ev & Bv & Av).
  destruct (C24_maximum rf tr 2 xyz extremum_zero extremum_zero Hrf Hw Hn HK Hdi ltac:(discriminate) ltac:(lia) ltac:(lia)) as (mn2 & mx2 & Ea & Ba & Aa).
  destruct (line_segments_R (1 / 100) (tr_segments tr) ltac:(lra)) as (f2 & Qs & HQ & EL).
  { destruct Hw as (Hw1 & Hw2). eapply List.Forall_impl; [|exact Hw1]. cbn beta. intros s (A & B & C). split; [exact C|]. split; lia. }
  assert (Em : tr_max_time tr = duration tr). { rewrite (proj2 Hc). unfold n0. rnum. rewrite fold_left_lsum. unfold duration. lra. }
  destruct (tops_spec pld_of (combine (tr_segments tr) Qs) 0) as (T1 & T2 & T3). cbv zeta in *.
  set (M := fold_left _ (combine _ Qs) 0) in *. set (AR := lsum (map (fun c => trapezoids (pld_of (fst c)) (snd c)) (combine (tr_segments tr) Qs))) in *.
  set (viol := (Rltb (v + 1 / 10000) (ext_value mx1) || Rltb (a + 1 / 10000) (ext_value mx2))%bool).
  exists (Nat.max f1 f2), (mkResult (br_trial r0) name (br_segments r0) (br_nominal r0) (br_success r0) viol (duration tr) (computePathLength sts) ct
    (ext_value mx1) (ext_value mx2) (br_cost r0) M AR), (map pt_position sts), Qs.
  assert (Pf : forall s p, In s (tr_segments tr) -> pld_of s p = f s p).
  { intros s p Hs. rewrite List.Forall_forall in Ha. destruct (C88_line_distance p _ _ (Ha s Hs)) as (L1 & s1 & L2). destruct (Hf s p Hs) as (L3 & s2 & L4).
    unfold pld_of. apply Rle_antisym; [rewrite L4; apply L1|rewrite L2; apply L3]. }
  assert (LQ : length Qs = length (tr_segments tr)) by (symmetry; clear -HQ; induction HQ; cbn [length]; congruence).
  assert (InQ : forall s Q, In (s, Q) (combine (tr_segments tr) Qs) -> exists i, (i < tr_K tr)%nat /\ s = seg_at tr i /\ Q = nth i Qs []).
  { intros s Q Hi. apply (In_nth _ _ (no_segment, [])) in Hi as (i & Hi & E). rewrite combine_length, LQ in Hi. rewrite combine_nth in E by (symmetry; exact LQ).
    injection E as <- <-. exists i. unfold tr_K, seg_at. split; [lia|]. split; reflexivity. }
  assert (InC : forall i, (i < tr_K tr)%nat -> In (seg_at tr i, nth i Qs []) (combine (tr_segments tr) Qs)).
  { intros i Hi. unfold seg_at, tr_K in *. rewrite <- (combine_nth (tr_segments tr) Qs i no_segment []) by (symmetry; exact LQ). apply nth_In. rewrite combine_length. lia. }
  split; [|cbn [br_trial br_method br_segments br_nominal br_success br_cost br_computation br_time br_v_max br_a_max br_violated br_length br_area br_max_dist]].
  { intros fuel Hfu. unfold evaluateTrajectory. replace kSample with (1 / 100) by (unfold kSample, nlit; rnum; reflexivity). rewrite E1 by lia. cbn [obind].
    change kVelocity with (Z.of_nat 1). change kAcceleration with (Z.of_nat 2). rewrite Ev. cbn [obind]. rewrite Ea. cbn [obind fst snd].
    change (@n0 R R_ops) with 0. destruct (EL fuel 0 0 0 [] ltac:(lia)) as (pd & pp & ->). cbn [obind]. rewrite Em, Rplus_0_l. unfold nlit. rnum. reflexivity. }
  do 7 (split; [reflexivity|]). split; [reflexivity|].
  assert (AT : forall d e, attained_at tr xyz d e -> exists i t, (i < tr_K tr)%nat /\ 0 <= t <= seg_time (seg_at tr i) /\ seg_norm (seg_at tr i) xyz d t = ext_value e).
  { intros d e (i & _ & A & B & C). exists i, (ext_time e). auto. }
  split; [split; [exact Bv|apply AT, Av]|]. split; [split; [exact Ba|apply AT, Aa]|]. split.
  { unfold viol. rewrite orb_false_iff, !Rltb_false. destruct (AT _ _ Av) as (i1 & t1 & I1 & J1 & K1). destruct (AT _ _ Aa) as (i2 & t2 & I2 & J2 & K2). split.
    - intros (X & Y). split; intros i t Hi Ht; [specialize (Bv i t Hi Ht)|specialize (Ba i t Hi Ht)]; lra.
    - intros (X & Y). split; [rewrite <- K1; apply X; assumption|rewrite <- K2; apply Y; assumption]. }
  split; [apply computePathLength_R|]. rewrite map_length. split; [exact N1|]. split.
  { intros k Hk. destruct (V1 k Hk) as (g & G1 & G2). change origin with (pt_position (point_new (T := R))). rewrite map_nth. destruct G2 as (-> & _).
    assert (G := G1 0%nat ltac:(lia)). assert (Lg : length (g 0%nat) = 3%nat).
    { destruct G as (i & Hi & _ & ->). rewrite seg_value_length. rewrite <- HD. apply (traj_wf_seg tr i Hw Hi). }
    rewrite <- Lg, firstn_all. exact G. }
  split; [exact HQ|]. split.
  { unfold AR. f_equal. apply map_ext_in. intros (s, Q) Hi. cbn [fst snd]. apply in_combine_l in Hi. unfold trapezoids. f_equal. apply map_ext. intros k. rewrite !Pf by exact Hi. reflexivity. }
  split.
  { intros i k Hi Hk. rewrite <- Pf by (apply nth_In; exact Hi). exact (T2 (seg_at tr i) (nth i Qs []) k (InC i Hi) Hk). }
  assert (P0 : exists s Q k, In (s, Q) (combine (tr_segments tr) Qs) /\ (k < length Q)%nat /\ M = pld_of s (nth k Q origin)).
  { destruct T3 as [T3|T3]; [|exact T3].
    exists (seg_at tr 0), (nth 0 Qs []), 0%nat. split; [apply InC; exact HK|].
    assert (HQ0 : position_samples (seg_at tr 0) (1 / 100) (nth 0 Qs [])).
    { unfold seg_at. clear -HQ HK. unfold tr_K in HK. destruct HQ; [cbn in HK; lia|]. cbn [nth]. assumption. }
    assert (A0 := proj1 (List.Forall_forall _ _) Ha (seg_at tr 0) ltac:(apply nth_In; exact HK)).
    assert (T0 : 0 < seg_time (seg_at tr 0)).
    { assert (Q := proj1 (List.Forall_forall _ _) Hn (seg_at tr 0) ltac:(apply nth_In; exact HK)). cbn beta in Q. destruct (Rle_lt_or_eq_dec _ _ Q) as [|E]; [assumption|].
      exfalso. unfold ends_apart in A0. rewrite <- E, dist3_refl in A0. lra. }
    assert (L0 : (0 < length (nth 0 Qs []))%nat) by (apply (proj1 HQ0); cbn [INR]; lra). split; [exact L0|].
    rewrite (proj2 HQ0) by exact L0. cbn [INR]. rewrite Rmult_0_l. rewrite T3. unfold pld_of. symmetry.
    destruct (C88_line_distance (seg_value (seg_at tr 0) 0 0) _ _ A0) as (L1 & s1 & L2).
    apply Rle_antisym; [|rewrite L2; apply dist3_nonneg]. eapply Rle_trans; [apply (L1 0)|].
    unfold dist3, line_point. cbn [nth]. match goal with |- sqrt ?x <= _ => replace x with 0 by ring end. rewrite sqrt_0. lra. }
  destruct P0 as (s & Q & k & Hi & Hk & E). destruct (InQ s Q Hi) as (i & Hii & -> & ->). exists i, k. split; [exact Hii|]. split; [exact Hk|].
  rewrite E. apply Pf. apply nth_In. exact Hii.
Qed.
Print Assumptions C89_measures.

(** A motion along the x axis from 0 to 1 that overshoots: x = 5 t - 4 t^2. *)
Definition over_seg : segment R := mkSegment 3 [[0; 5; -4]; [0; 0; 0]; [0; 0; 0]] 1.
Definition over_tr : trajectory R := mkTraj 3 3 [over_seg] (0 + 1).
Lemma over_value t : seg_value over_seg t 0 = [5 * t - 4 * t ^ 2; 0; 0].
Proof. unfold seg_value, over_seg, seg_D. cbn [seg_polys seq map length]. unfold seg_fun. cbn [Derive_n nth seg_polys]. unfold poly_fun. cbn.
  match goal with |- [?a; ?b; ?c] = _ => replace a with (5 * t - 4 * t ^ 2) by ring; replace b with 0 by ring end. reflexivity. Qed.
Lemma over_apart : ends_apart over_seg.
Proof.
  unfold ends_apart. cbn [seg_time over_seg]. fold over_seg. rewrite !over_value. unfold dist3. cbn [nth]. apply sqrt_lt_R0. lra.
Qed.
Lemma over_conditions : traj_wf over_tr /\ traj_consistent over_tr /\ times_nonneg over_tr /\ tr_D over_tr = 3%nat /\ (3 <= tr_N over_tr)%nat /\
  0 < duration over_tr /\ 10 ^ 9 * duration over_tr < IZR (2 ^ 63) /\ 100 * duration over_tr + 1 < IZR (2 ^ 59) /\ List.Forall ends_apart (tr_segments over_tr) /\
  (forall s p, In s (tr_segments over_tr) -> distance_to_line p (seg_value s 0 0) (seg_value s (seg_time s) 0) (pld_of s p)).
Proof.
  assert (D : duration over_tr = 1) by (unfold duration; cbn; lra). rewrite D.
  split; [split; [repeat constructor|cbn; lia]|]. split; [split; [repeat constructor|cbn; reflexivity]|]. split; [repeat constructor; cbn; lra|].
  split; [reflexivity|]. split; [cbn; lia|]. split; [lra|]. split; [apply Rle_lt_trans with (IZR (10 ^ 9)); [change (10 ^ 9)%Z with 1000000000%Z; lra|apply IZR_lt; reflexivity]|].
  split; [apply Rle_lt_trans with (IZR 101); [lra|apply IZR_lt; reflexivity]|]. split; [repeat constructor; exact over_apart|].
  intros s p [<-|[]]. apply C88_line_distance, over_apart.
Qed.
Example C89_example : perfect_root_finder perfect_rf /\ exists fuel r, evaluateTrajectory perfect_rf no_mav 2 20 fuel "nfabian" over_tr 0 result_new = Ok (Some r) /\
  br_time r = 1 /\ br_violated r = true.
Proof.
  split; [exact perfect_rf_ok|]. destruct over_conditions as (A1 & A2 & A3 & A4 & A5 & A6 & A7 & A8 & A9 & A10).
  destruct (C89_measures perfect_rf no_mav 2 20 "nfabian" over_tr 0 result_new pld_of perfect_rf_ok A1 A2 A3 A4 A5 A6 A7 A8 A9 A10)
    as (f0 & r & path & Qs & E & _ & _ & _ & _ & _ & _ & _ & Ht & _ & _ & Hv & _).
  exists f0, r. split; [apply E; lia|]. split; [rewrite Ht; unfold duration; cbn; lra|]. destruct (br_violated r); [reflexivity|].
  exfalso. destruct (proj1 Hv eq_refl) as (V & _). specialize (V 0%nat 0 ltac:(cbn; lia) ltac:(cbn; lra)).
  unfold seg_norm, xyz, seg_at in V. cbn [over_tr tr_segments nth map lsum] in V. unfold seg_fun in V. cbn [over_seg seg_polys] in V.
  rewrite !dpoly_ext_derive_n in V. change (Z.to_nat 0) with 0%nat in V. change (Z.to_nat 1) with 1%nat in V. change (Z.to_nat 2) with 2%nat in V. cbn [nth] in V.
  assert (D1 : dpoly [0; 5; -4] 1 0 = 5) by (unfold dpoly; cbn; ring). assert (D2 : dpoly [0; 0; 0] 1 0 = 0) by (unfold dpoly; cbn; ring). rewrite D1, D2 in V.
  replace (5 ^ 2 + (0 ^ 2 + (0 ^ 2 + 0))) with (5 ^ 2) in V by ring. rewrite sqrt_pow2 in V by lra. lra.
Qed.

(** ** C89 finding: an overshoot beyond the ends of the straight segment is not
    seen, because the distance is taken from the infinite line. *)
Theorem C89_overshoot_refuted : exists (rf : root_oracle (T := R)) (mav : mav_functions R) (tr : trajectory R),
  perfect_root_finder rf /\ traj_wf tr /\ traj_consistent tr /\ times_nonneg tr /\ (tr_K tr = 1)%nat /\
  exists fuel0 r, (forall fuel, (fuel0 <= fuel)%nat -> evaluateTrajectory rf mav 10 10 fuel "nfabian" tr 0 result_new = Ok (Some r)) /\
    br_max_dist r = 0 /\ br_area r = 0 /\
    exists k v, INR k * (1 / 100) < duration tr /\ value_at tr 0 (INR k * (1 / 100)) v /\
      forall s, 0 <= s <= 1 -> 1 / 2 <= dist3 v (line_point (seg_value (seg_at tr 0) 0 0) (seg_value (seg_at tr 0) (seg_time (seg_at tr 0)) 0) s).
Proof.
  exists perfect_rf, no_mav, over_tr. destruct over_conditions as (A1 & A2 & A3 & A4 & A5 & A6 & A7 & A8 & A9 & A10).
  do 4 (split; [assumption || exact perfect_rf_ok|]). split; [reflexivity|].
  destruct (C89_measures perfect_rf no_mav 10 10 "nfabian" over_tr 0 result_new pld_of perfect_rf_ok A1 A2 A3 A4 A5 A6 A7 A8 A9 A10)
    as (f0 & r & path & Qs & E & _ & _ & _ & _ & _ & _ & _ & _ & _ & _ & _ & _ & _ & _ & HQ & Ha & _ & i & k & Hi & Hk & Hm).
  exists f0, r. split; [exact E|].
  assert (Z : forall t, pld_of over_seg (seg_value over_seg t 0) = 0).
  { intros t. destruct (C88_line_distance (seg_value over_seg t 0) _ _ over_apart) as (L1 & s1 & L2). unfold pld_of.
    apply Rle_antisym; [|rewrite L2; apply dist3_nonneg]. eapply Rle_trans; [apply (L1 (5 * t - 4 * t ^ 2))|].
    cbn [seg_time over_seg]. fold over_seg. rewrite !over_value. unfold dist3, line_point. cbn [nth]. match goal with |- sqrt ?x <= _ => replace x with 0 by ring end. rewrite sqrt_0. lra. }
  cbn [over_tr tr_segments] in HQ. destruct Qs as [|Q [|Q' Qs]]; [inversion HQ| |inversion HQ; subst; match goal with H : Forall2 _ [] (_ :: _) |- _ => inversion H end].
  assert (HQ0 : position_samples over_seg (1 / 100) Q) by (inversion HQ; subst; assumption).
  assert (i = 0%nat) by (cbn in Hi; lia). subst i. cbn [nth] in Hk, Hm. unfold seg_at in Hm. cbn [over_tr tr_segments nth] in Hm.
  rewrite (proj2 HQ0) in Hm by exact Hk. rewrite Z in Hm. split; [exact Hm|]. split.
  - rewrite Ha. cbn [over_tr tr_segments combine map lsum fst snd]. rewrite Rplus_0_r. unfold trapezoids.
    assert (G : forall l, (forall k, In k l -> (S k < length Q)%nat) -> lsum (map (fun k => (pld_of over_seg (nth k Q origin) + pld_of over_seg (nth (S k) Q origin)) / 2 * dist3 (nth k Q origin) (nth (S k) Q origin)) l) = 0).
    { induction l as [|x l IH]; intros H; [reflexivity|]. cbn [map lsum]. rewrite IH by (intros y Hy; apply H; right; exact Hy).
      assert (Hx := H x (or_introl eq_refl)). rewrite (proj2 HQ0 x ltac:(lia)), (proj2 HQ0 (S x) ltac:(lia)), !Z. field. }
    apply G. intros x Hx. apply in_seq in Hx. lia.
  - exists 62%nat, (seg_value over_seg (62 / 100) 0). assert (D : duration over_tr = 1) by (unfold duration; cbn; lra). rewrite D.
    assert (I62 : INR 62 = 62) by (rewrite INR_IZR_INZ; reflexivity). rewrite I62. split; [lra|]. split.
    + exists 0%nat. split; [cbn; lia|]. unfold start_time, seg_at. cbn [over_tr tr_segments firstn map lsum nth over_seg seg_time]. fold over_seg. split; [lra|].
      replace (62 * (1 / 100) - 0) with (62 / 100) by field. reflexivity.
    + intros s Hs. unfold seg_at. cbn [over_tr tr_segments nth]. cbn [seg_time over_seg]. fold over_seg. rewrite !over_value. unfold dist3, line_point. cbn [nth].
      rewrite <- (sqrt_pow2 (1 / 2)) by lra. apply sqrt_le_1_alt. nra.
Qed.
Print Assumptions C89_overshoot_refuted.

(** ** C89 in binary64: one segment whose computed ends are equal makes the area
    not a number, whatever the other segments are. *)
Lemma line_loop_nan fuel s a b dt : forall t mx pd pp mx' pd' ar' pp',
  @line_loop b64 B64_ops fuel s a b dt t (mx, pd, B754_nan, pp) = Ok (Some (mx', pd', ar', pp')) -> ar' = B754_nan.
Proof.
  induction fuel as [|fuel IH]; intros t mx pd pp mx' pd' ar' pp' E; cbn [line_loop] in E; [discriminate|].
  destruct (nltb t (seg_time s)); [|injection E; congruence].
  destruct (eval3 s t) as [p| | |]; cbn [obind] in E; try discriminate. rewrite nan_add_l in E. exact (IH _ _ _ _ _ _ _ _ E).
Qed.
Lemma line_segments_nan fuel segs dt : forall mx pd pp mx' pd' ar' pp',
  @line_segments b64 B64_ops fuel segs dt (mx, pd, B754_nan, pp) = Ok (Some (mx', pd', ar', pp')) -> ar' = B754_nan.
Proof.
  induction segs as [|s segs IH]; intros mx pd pp mx' pd' ar' pp' E; cbn [line_segments] in E; [injection E; congruence|].
  destruct (eval3 s _) as [a| | |]; cbn [obind] in E; try discriminate. destruct (eval3 s (seg_time s)) as [b| | |]; cbn [obind] in E; try discriminate.
  destruct (line_loop _ _ _ _ _ _ _) as [[(((m1, d1), a1), p1)|]| | |] eqn:E1; cbn [obind] in E; try discriminate.
  apply line_loop_nan in E1. subst a1. exact (IH _ _ _ _ _ _ _ E).
Qed.
Lemma line_segments_closed fuel s dt : forall segs st mx' pd' ar' pp',
  In s segs -> @nltb b64 B64_ops (@n0 b64 B64_ops) (seg_time s) = true -> @eval3 b64 B64_ops s (@n0 b64 B64_ops) = @eval3 b64 B64_ops s (seg_time s) ->
  @line_segments b64 B64_ops fuel segs dt st = Ok (Some (mx', pd', ar', pp')) -> ar' = B754_nan.
Proof.
  induction segs as [|s' segs IH]; intros st mx' pd' ar' pp' Hin Ht He E; [destruct Hin|]; destruct Hin as [->|Hi]; cbn [line_segments] in E.
  - rewrite He in E. destruct (eval3 s (seg_time s)) as [b| | |] eqn:Eb; cbn [obind] in E; try discriminate. destruct st as (((m0, d0), a0), p0).
    destruct fuel as [|fuel]; [discriminate|]. cbn [line_loop] in E. rewrite Ht in E. rewrite He in E. cbn [obind] in E.
    rewrite C88_equal_points_nan in E. rewrite nan_add_l, nan_mul_r, nan_mul_l, nan_add_r in E.
    destruct (line_loop _ _ _ _ _ _ _) as [[(((m1, d1), a1), p1)|]| | |] eqn:E1; cbn [obind] in E; try discriminate.
    apply line_loop_nan in E1. subst a1. exact (line_segments_nan _ _ _ _ _ _ _ _ _ _ E).
  - destruct (eval3 s' _) as [a| | |]; cbn [obind] in E; try discriminate. destruct (eval3 s' (seg_time s')) as [b| | |]; cbn [obind] in E; try discriminate.
    destruct st as (((m0, d0), a0), p0).
    destruct (line_loop _ _ _ _ _ _ _) as [[(((m1, d1), a1), p1)|]| | |] eqn:E1; cbn [obind] in E; try discriminate.
    exact (IH _ _ _ _ _ Hi Ht He E).
Qed.
Theorem C89_area_nan (rf : root_oracle (T := b64)) (mav : mav_functions b64) (v a : b64) (fuel : nat) (name : string) (tr : trajectory b64) (ct : b64)
        (r0 r : bench_result b64) (s : segment b64) :
  @evaluateTrajectory b64 B64_ops rf mav v a fuel name tr ct r0 = Ok (Some r) ->
  In s (tr_segments tr) -> @nltb b64 B64_ops (@n0 b64 B64_ops) (seg_time s) = true ->
  @seg_evaluate b64 B64_ops s (@n0 b64 B64_ops) 0 = @seg_evaluate b64 B64_ops s (seg_time s) 0 ->
  br_area r = B754_nan.
Proof.
  intros E Hi Ht He. unfold evaluateTrajectory in E.
  destruct (sampleWholeTrajectory _ _ _ _ _) as [[(b, path)|]| | |]; cbn [obind] in E; try discriminate.
  destruct (traj_minmax rf tr kVelocity _ _ _) as [v1| | |]; cbn [obind] in E; try discriminate.
  destruct (traj_minmax rf tr kAcceleration _ _ _) as [a1| | |]; cbn [obind] in E; try discriminate.
  destruct (line_segments _ _ _ _) as [[(((m1, d1), ar), p1)|]| | |] eqn:E1; cbn [obind] in E; try discriminate.
  apply Ok_inj, Some_inj in E. subst r. cbn [br_area]. apply (line_segments_closed _ s) in E1; [exact E1|exact Hi|exact Ht|]. unfold eval3. rewrite He. reflexivity.
Qed.
Print Assumptions C89_area_nan.

(** The origin held for 1/64 s. *)
Definition hold_seg : segment b64 := mkSegment 3 (repeat (repeat (@n0 b64 B64_ops) 3) 3) (@nlit b64 B64_ops 1 64).
Definition hold_tr : trajectory b64 := mkTraj 3 3 [hold_seg] (@nlit b64 B64_ops 1 64).
Definition hold_mav : mav_functions b64 := mkMav _ (fun _ => []) (fun _ => []) (fun _ => []) (fun _ => []) (fun _ _ => []) (fun _ _ _ => []).
Definition hold_result : outcome (option (bench_result b64)) :=
  @evaluateTrajectory b64 B64_ops (fun _ => (true, [])) hold_mav (@n1 b64 B64_ops) (@n1 b64 B64_ops) 10 "nfabian" hold_tr (@n0 b64 B64_ops) (@result_new b64 B64_ops).

Definition area_is_nan (x : outcome (option (bench_result b64))) : bool := match x with Ok (Some r) => is_nan (br_area r) | _ => false end.
Lemma area_is_nan_inv x : area_is_nan x = true -> exists r, x = Ok (Some r) /\ is_nan (br_area r) = true.
Proof. destruct x as [[r|]| | |]; intros H; try discriminate. exists r. split; [reflexivity|exact H]. Qed.
Lemma hold_nan_true : area_is_nan hold_result = true. Proof. vm_compute. reflexivity. Qed.
Lemma hold_finite : List.Forall (fun s => List.Forall (List.Forall (fun x => is_finite x = true)) (seg_polys s) /\ is_finite (seg_time s) = true) (tr_segments hold_tr).
Proof.
  constructor; [|constructor]. split; [|vm_compute; reflexivity]. unfold hold_seg. cbn [seg_polys repeat].
  repeat (constructor; [constructor; [vm_compute; reflexivity|constructor; [vm_compute; reflexivity|constructor; [vm_compute; reflexivity|constructor]]]|]). constructor.
Qed.
Lemma hold_value : exists r, hold_result = Ok (Some r) /\ is_nan (br_area r) = true.
Proof. exact (area_is_nan_inv hold_result hold_nan_true). Qed.
Theorem C89_area_refuted : exists (rf : root_oracle (T := b64)) (mav : mav_functions b64) (tr : trajectory b64) (v a : b64) (fuel : nat) (r : bench_result b64),
  List.Forall (fun s => List.Forall (List.Forall (fun x => is_finite x = true)) (seg_polys s) /\ is_finite (seg_time s) = true) (tr_segments tr) /\
  @evaluateTrajectory b64 B64_ops rf mav v a fuel "nfabian" tr (@n0 b64 B64_ops) (@result_new b64 B64_ops) = Ok (Some r) /\ is_nan (br_area r) = true.
Proof.
  destruct hold_value as (r & E & H). unfold hold_result in E.
  exists (fun _ => (true, [])), hold_mav, hold_tr, (@n1 b64 B64_ops), (@n1 b64 B64_ops), 10%nat, r. exact (conj hold_finite (conj E H)).
Qed.
Print Assumptions C89_area_refuted.
Example C89_area_nan_example : (exists r, hold_result = Ok (Some r)) /\ In hold_seg (tr_segments hold_tr) /\
  @nltb b64 B64_ops (@n0 b64 B64_ops) (seg_time hold_seg) = true /\
  @seg_evaluate b64 B64_ops hold_seg (@n0 b64 B64_ops) 0 = @seg_evaluate b64 B64_ops hold_seg (seg_time hold_seg) 0.
Proof.
  split; [destruct hold_value as (r & E & _); exists r; exact E|]. split; [left; reflexivity|]. split; vm_compute; reflexivity.
Qed.
