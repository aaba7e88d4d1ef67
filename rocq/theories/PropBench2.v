(** C87: the segment violation scaling of the benchmark. *)
From Coq Require Import ZArith Reals List Bool Lia Lra Psatz.
From Coquelicot Require Import Coquelicot.
From Verif Require Import Num RSum SpecPoly ModelPolynomial ModelSegment ModelVertex ModelTrajectory ModelLinear
  SpecSegment SpecVertex SpecTrajectory SpecLinear ProofPolynomial ProofSegment ProofSegment2 ProofVertex ProofVertex2
  ProofTrajectory ProofTrajectory2 ProofTrajectory3 ProofTrajectory4
  ProofRoots ProofMatrix ProofHermite ProofReorder ProofLinear ProofLinear2 ProofLinear3 ProofLinear4 ProofLinear5 ProofLinear6 ProofLinear7
  PropLinear PropLinear2
  ModelNonlinear SpecNonlinear ProofNonlinear ProofNonlinear2 ProofNonlinear3 ProofNonlinear4 ProofNonlinear5 ProofNonlinear6 ProofNonlinear7
  PropNonlinear PropNonlinear3 PropNonlinear4 ModelPlanner ModelSampling ModelVis ModelBench SpecVis SpecBench ProofBench2.
Import ListNotations.
Notation length := List.length.
Open Scope R_scope.

(** The largest relative violation of the two limits v and a. *)
Definition violation (v a V A : R) : R := Rmax ((A - a) / a) ((V - v) / v).
Definition new_time (v a t V A : R) : R := Rmax (1 / 10) (t / (1 - violation v a V A)).

Lemma violation_time_R v a t V A : violation_time v a t V A = new_time v a t V A.
Proof.
  unfold violation_time, new_time, violation, kTimeLowerBound, nlit, n1, nmax. rnum.
  assert (M : forall x y, (if Rltb x y then y else x) = Rmax x y).
  { intros x y. destruct (Rltb_spec x y); [rewrite Rmax_right; lra|rewrite Rmax_left; lra]. }
  rewrite !M. reflexivity.
Qed.

(** Vertices that the benchmark can use: three dimensions, positions everywhere,
    no two consecutive ones equal. *)
Definition bench_vertices (vs : list (vertex R)) : Prop :=
  (2 <= length vs)%nat /\ List.Forall (fun v => vertex_wf v /\ v_D v = 3%nat) vs /\ has_positions 3 vs /\
  forall i, (S i < length vs)%nat -> pos_of (nth i vs SpecLinear.no_vertex) <> pos_of (nth (S i) vs SpecLinear.no_vertex).

Lemma nfabian_pos d v a : 0 < d -> 0 < v -> 0 < a -> 2 * d / v < nfabian_time exp d v a (nlit 65 10).
Proof.
  intros Hd Hv Ha. unfold nfabian_time, nlit, n1. rnum. assert (E := exp_pos (- d / v * 2)).
  assert (0 < d / v * 2 * (65 / 10 * v / a * exp (- d / v * 2))).
  { apply Rmult_lt_0_compat; [apply Rmult_lt_0_compat; [apply Rdiv_lt_0_compat; assumption|lra]|].
    apply Rmult_lt_0_compat; [|exact E]. apply Rdiv_lt_0_compat; [nra|assumption]. }
  replace (2 * d / v) with (d / v * 2 * 1) by (field; lra). lra.
Qed.

Lemma nominal_solution inv solve vs v a : bench_vertices vs -> (forall A b, length (solve A b) = length b) -> 0 < v -> 0 < a ->
  exists ts o, estimateSegmentTimes exp vs v a = Ok ts /\ linear_run inv solve vs ts = Ok o /\ o_times o = ts /\
    length ts = (length vs - 1)%nat /\ List.Forall (fun t => 0 < t) ts /\ computed 5 inv solve 3 vs 3 o /\
    forall i, (S i < length vs)%nat ->
      nth i ts 0 = nfabian_time exp (dist (pos_of (nth (S i) vs SpecLinear.no_vertex)) (pos_of (nth i vs SpecLinear.no_vertex))) v a (nlit 65 10).
Proof.
  intros (Hl & Hvs & Hp & Hne) Hsol Hv Ha. unfold estimateSegmentTimes. rewrite (nfabian_eq 3) by assumption.
  set (ts := map _ (pairs vs)). assert (Lt : length ts = (length vs - 1)%nat) by (unfold ts; rewrite map_length, pairs_length; lia).
  assert (Nt : forall i, (S i < length vs)%nat ->
      nth i ts 0 = nfabian_time exp (dist (pos_of (nth (S i) vs SpecLinear.no_vertex)) (pos_of (nth i vs SpecLinear.no_vertex))) v a (nlit 65 10)).
  { intros i Hi. unfold ts. rewrite (nth_map_lt _ _ _ (SpecLinear.no_vertex, SpecLinear.no_vertex)) by (rewrite pairs_length; lia).
    rewrite pairs_nth by exact Hi. reflexivity. }
  assert (Pt : List.Forall (fun t => 0 < t) ts).
  { apply List.Forall_forall. intros t Ht. apply (In_nth _ _ 0) in Ht as (i & Hi & <-). rewrite Nt by lia.
    unfold has_positions in Hp. rewrite List.Forall_forall in Hp.
    assert (PL : forall j, (j < length vs)%nat -> length (pos_of (nth j vs SpecLinear.no_vertex)) = 3%nat).
    { intros j Hj. destruct (Hp _ (nth_In vs SpecLinear.no_vertex Hj)) as (x & Ex & Lx). unfold pos_of. rewrite Ex. exact Lx. }
    assert (D : 0 < dist (pos_of (nth (S i) vs SpecLinear.no_vertex)) (pos_of (nth i vs SpecLinear.no_vertex))).
    { apply dist_pos; [rewrite !PL by lia; reflexivity|]. intros E. apply (Hne i ltac:(lia)). symmetry. exact E. }
    eapply Rlt_trans; [|apply nfabian_pos; assumption]. apply Rdiv_lt_0_compat; lra. }
  destruct (C31_setup_and_solve_succeed 5 inv solve 3 vs ts kJerk [] (opt_new 3)) as (o1 & H1 & T1 & H2); try assumption; try reflexivity; try (unfold kJerk; cbn; lia); try lia.
  destruct (H2 (or_introl eq_refl)) as (o2 & E2 & T2). exists ts, o2. split; [reflexivity|]. unfold linear_run. rewrite H1. cbn [obind].
  split; [exact E2|]. split; [exact T2|]. split; [exact Lt|]. split; [exact Pt|]. split; [|exact Nt].
  exists o1, CallSolve. split; [|split; [exact I|exact E2]]. exists [], ts, [], (opt_new 3), o1. split; [reflexivity|]. split; [exact H1|]. split; [constructor|reflexivity].
Qed.

Lemma Forall2_same_length {A B} (P : A -> B -> Prop) l m : Forall2 P l m -> length l = length m.
Proof. induction 1; cbn [length]; congruence. Qed.

(** ** C87: the result of the method. *)
Theorem C87_result (inv : mat R -> mat R) (solve : mat R -> list R -> list R) (rf : root_oracle (T := R)) (vs : list (vertex R)) (v a : R) (tr : trajectory R) :
  perfect_root_finder rf -> inverse_ok 5 inv -> (forall A b, length (solve A b) = length b) -> bench_vertices vs -> 0 < v -> 0 < a ->
  exists ts o, estimateSegmentTimes exp vs v a = Ok ts /\ linear_run inv solve vs ts = Ok o /\ o_times o = ts /\
    forall Vs As, Forall2 (fun s V => segment_maximum s xyz 1 V) (o_segments o) Vs ->
      Forall2 (fun s A => segment_maximum s xyz 2 A) (o_segments o) As ->
      (forall i, (i < length ts)%nat -> violation v a (nth i Vs 0) (nth i As 0) <> 1) ->
      exists tr' c, run_violation inv solve rf exp v a vs tr = Ok (1%Z, tr', c) /\
        traj_wf tr' /\ traj_consistent tr' /\ tr_D tr' = 3%nat /\ tr_N tr' = 10%nat /\ length (tr_segments tr') = length ts /\
        (forall i, (i < length ts)%nat -> seg_time (seg_at tr' i) = new_time v a (nth i ts 0) (nth i Vs 0) (nth i As 0)) /\
        meets_constraints 5 3 vs (tr_segments tr') /\ smooth_chain 5 3 (tr_segments tr') /\
        exists V A, is_peak 3 1 (tr_segments tr') V /\ is_peak 3 2 (tr_segments tr') A /\
          c = integral_cost 3 3 (tr_segments tr') + 500 * duration tr' ^ 2 + (soft_cost 100 (10 ^ 9) V v + soft_cost 100 (10 ^ 9) A a).
Proof.
  intros Hrf Hinv Hsol Hb Hv Ha. destruct (nominal_solution inv solve vs v a Hb Hsol Hv Ha) as (ts & o & Et & Eo & To & Lt & Pt & Hc & _).
  exists ts, o. split; [exact Et|]. split; [exact Eo|]. split; [exact To|]. intros Vs As HV HA _.
  destruct Hb as (Hl & Hvs & Hp & Hne). assert (Hwf : List.Forall vertex_wf vs) by (eapply List.Forall_impl; [|exact Hvs]; intros x Hx; apply Hx).
  destruct (solved_trajectory 5 inv solve vs 3 3 o tr Hwf ltac:(lia) Hl Hc) as (tr1 & G1 & S1 & D1 & N1 & W1 & Nn1 & _ & M1 & _).
  assert (OK : forall d t, (d < 10)%nat -> traj_wf t -> times_nonneg t -> tr_D t = 3%nat -> tr_N t = 10%nat -> List.Forall (seg_ok rf d xyz false) (tr_segments t)).
  { intros d t Hd (W & _) Nn Dt Ntt. apply List.Forall_forall. intros s Hs. unfold times_nonneg in Nn. rewrite List.Forall_forall in W, Nn.
    destruct (W s Hs) as (Ds & Ns & Ws). apply seg_ok_maximum; try assumption; try lia; [|cbn; lia|apply Nn, Hs].
    unfold dims_ok, xyz. rewrite Ds, Dt. repeat constructor; lia. }
  assert (MX : forall d t, (d < 10)%nat -> traj_wf t -> times_nonneg t -> tr_D t = 3%nat -> tr_N t = 10%nat ->
     exists ms, segment_maxima rf (tr_segments t) (Z.of_nat d) xyz [] = Ok (true, ms) /\ length ms = length (tr_segments t) /\
       Forall2 (fun s e => segment_maximum s xyz d (ext_value e)) (tr_segments t) ms).
  { intros d t Hd W Nn Dt Ntt. destruct (segment_maxima_R rf d _ (OK d t Hd W Nn Dt Ntt) []) as (ms & E & F). exists ms.
    split; [exact E|]. split; [symmetry; eapply Forall2_same_length; exact F|exact F]. }
  unfold run_violation. rewrite Et. cbn [obind]. rewrite Eo. cbn [obind]. rewrite G1. cbn [obind]. unfold kVelocity, kAcceleration.
  destruct (MX 1%nat tr1 ltac:(lia) W1 Nn1 D1 N1) as (mv & Ev & Lv & Fv). destruct (MX 2%nat tr1 ltac:(lia) W1 Nn1 D1 N1) as (ma & Ea & La & Fa).
  change (Z.of_nat 1) with 1%Z in Ev. change (Z.of_nat 2) with 2%Z in Ea. rewrite Ev. cbn [obind]. rewrite Ea. cbn [obind snd].
  assert (Ls : length (tr_segments tr1) = length ts) by (rewrite S1, <- To, <- M1, map_length; reflexivity).
  rewrite Lv, La, Ls, !Nat.eqb_refl. cbn [negb].
  rewrite S1 in Fv, Fa. rewrite <- (maxima_unique _ _ _ _ Fv HV), <- (maxima_unique _ _ _ _ Fa HA).
  set (ts' := map _ (combine ts _)).
  assert (Lt' : length ts' = length ts) by (unfold ts'; rewrite map_length, !combine_length; lia).
  assert (Nt' : forall i, (i < length ts)%nat -> nth i ts' 0 = new_time v a (nth i ts 0) (nth i (map ext_value mv) 0) (nth i (map ext_value ma) 0)).
  { intros i Hi. unfold ts'. rewrite (nth_map_lt _ _ _ (0, (extremum_zero, extremum_zero))) by (rewrite !combine_length; lia).
    rewrite !combine_nth by (rewrite ?combine_length; lia). cbn [fst snd]. rewrite violation_time_R.
    rewrite !(nth_map_lt ext_value _ _ extremum_zero) by lia. reflexivity. }
  assert (Pt' : List.Forall (fun t => 1 / 10 <= t) ts').
  { apply List.Forall_forall. intros t Ht. apply (In_nth _ _ 0) in Ht as (i & Hi & <-). rewrite Nt' by lia. apply Rmax_l. }
  destruct (retimed 5 inv solve vs 3 3 o ts' Hsol Hwf ltac:(lia) Hl Hc ltac:(lia)) as (o1 & o2 & E1 & E2 & T2 & Hc2).
  { eapply List.Forall_impl; [|exact Pt']. intros t Ht. cbn beta in *. lra. }
  rewrite E1. cbn [obind]. rewrite E2. cbn [obind].
  destruct (solved_trajectory 5 inv solve vs 3 3 o2 tr1 Hwf ltac:(lia) Hl Hc2) as (tr2 & G2 & S2 & D2 & N2 & W2 & Nn2 & Co2 & M2 & _).
  rewrite G2. cbn [obind].
  destruct (MX 1%nat tr2 ltac:(lia) W2 Nn2 D2 N2) as (mv' & Ev' & Lv' & _). destruct (MX 2%nat tr2 ltac:(lia) W2 Nn2 D2 N2) as (ma' & Ea' & La' & _).
  change (Z.of_nat 1) with 1%Z in Ev'. change (Z.of_nat 2) with 2%Z in Ea'. rewrite Ev'. cbn [obind]. rewrite Ea'. cbn [obind snd].
  rewrite Lv', La', Nat.ltb_irrefl. cbn [orb].
  destruct (linear_cost_R inv solve rf vs 3 v a o2 Hrf Hwf Hl Hv Ha Hc2) as (c & V & A & Ec & PV & PA & Vc).
  rewrite Ec. cbn [obind]. exists tr2, c. split; [reflexivity|]. split; [exact W2|]. split; [exact Co2|]. split; [exact D2|]. split; [exact N2|].
  assert (Ls2 : length (tr_segments tr2) = length ts) by (rewrite S2, <- Lt', <- T2, <- M2, map_length; reflexivity).
  split; [exact Ls2|]. split.
  { intros i Hi. rewrite <- Nt', <- T2, <- M2 by exact Hi. unfold seg_at. rewrite S2. change 0 with (seg_time no_segment) at 1. rewrite map_nth. reflexivity. }
  destruct Hc2 as (q0 & q & Hs & Hq & Hr).
  assert (H52 : List.Forall (fun t => / 2 ^ 52 <= t) (o_times o2)).
  { rewrite T2. eapply List.Forall_impl; [|exact Pt']. intros t Ht. cbn beta in *. assert (/ 2 ^ 52 <= / 16) by (apply Rinv_le_contravar; [lra|]; replace 16 with (2 ^ 4) by ring; apply Rle_pow; [lra|lia]). lra. }
  rewrite S2. split; [apply (C31_constraints_met 5 inv solve 3 vs 3 q0 o2 q); try assumption; lia|].
  split; [apply (C32_continuous 5 inv solve 3 vs 3 q0 o2 q); try assumption; lia|].
  exists V, A. split; [exact PV|]. split; [exact PA|]. rewrite Vc. unfold duration. rewrite S2, M2. reflexivity.
Qed.
Print Assumptions C87_result.

(** ** C87: the new time of one segment with maximum velocity V and acceleration A. *)
Theorem C87_new_time (v a t V A : R) : 0 < v -> 0 < a -> 0 < t -> 0 <= V -> 0 <= A ->
  let r := violation v a V A in let t' := new_time v a t V A in
  1 / 10 <= t' /\
  (r < 0 -> t / 2 <= t' <= Rmax (1 / 10) t) /\
  (0 <= r < 1 -> t <= t') /\
  (1 < r -> t' = 1 / 10) /\
  (* what stretching the same motion to the new time would reach *)
  (r < 1 -> V * (t / t') <= v) /\
  (0 <= r < 1 -> A * (t / t') ^ 2 <= a).
Proof.
  intros Hv Ha Ht HV HA r t'.
  assert (R0 : (A - a) / a <= r) by apply Rmax_l. assert (R1 : (V - v) / v <= r) by apply Rmax_r.
  assert (A1 : A <= a * (1 + r)). { apply Rmult_le_compat_r with (r := a) in R0; [|lra]. replace ((A - a) / a * a) with (A - a) in R0 by (field; lra). lra. }
  assert (V1 : V <= v * (1 + r)). { apply Rmult_le_compat_r with (r := v) in R1; [|lra]. replace ((V - v) / v * v) with (V - v) in R1 by (field; lra). lra. }
  assert (Rm : -1 <= r). { apply Rnot_lt_le. intros Hx. assert (v * (1 + r) < 0) by nra. lra. }
  assert (T0 : 1 / 10 <= t') by apply Rmax_l. assert (T1 : t / (1 - r) <= t') by apply Rmax_r.
  assert (Q : r < 1 -> t / t' <= 1 - r /\ 0 < t / t').
  { intros Hr. split; [|apply Rdiv_lt_0_compat; lra]. apply Rmult_le_reg_r with t'; [lra|]. replace (t / t' * t') with t by (field; lra).
    apply Rmult_le_compat_r with (r := 1 - r) in T1; [|lra]. replace (t / (1 - r) * (1 - r)) with t in T1 by (field; lra). lra. }
  split; [exact T0|]. split; [|split; [|split; [|split]]].
  - intros Hr. split.
    + eapply Rle_trans; [|exact T1]. apply Rmult_le_compat_l; [lra|]. apply Rinv_le_contravar; lra.
    + unfold t', new_time. fold r. apply Rmax_lub; [apply Rmax_l|]. eapply Rle_trans; [|apply Rmax_r].
      apply Rmult_le_reg_r with (1 - r); [lra|]. replace (t / (1 - r) * (1 - r)) with t by (field; lra). nra.
  - intros Hr. eapply Rle_trans; [|exact T1]. apply Rmult_le_reg_r with (1 - r); [lra|]. replace (t / (1 - r) * (1 - r)) with t by (field; lra). nra.
  - intros Hr. unfold t', new_time. fold r. apply Rmax_left.
    assert (/ (1 - r) < 0) by (apply Rinv_lt_0_compat; lra). unfold Rdiv at 1. assert (t * / (1 - r) < 0) by nra. lra.
  - intros Hr. destruct (Q Hr) as (Q1 & Q2). assert (V * (t / t') <= v * (1 + r) * (1 - r)) by (apply Rmult_le_compat; lra).
    assert (v * (1 + r) * (1 - r) = v - v * (r * r)) by ring. assert (0 <= r * r) by nra. assert (0 <= v * (r * r)) by nra. lra.
  - intros Hr. destruct (Q ltac:(lra)) as (Q1 & Q2).
    assert ((t / t') ^ 2 <= (1 - r) ^ 2) by (apply pow_incr; lra).
    assert (A * (t / t') ^ 2 <= a * (1 + r) * (1 - r) ^ 2) by (apply Rmult_le_compat; try lra; apply pow_le; lra).
    assert (E : a * (1 + r) * (1 - r) ^ 2 = a * ((1 - r * r) * (1 - r))) by ring.
    assert ((1 - r * r) * (1 - r) <= 1) by nra. assert (a * ((1 - r * r) * (1 - r)) <= a * 1) by (apply Rmult_le_compat_l; lra). lra.
Qed.
Print Assumptions C87_new_time.
Example C87_time_example : new_time 1 2 3 (3 / 2) 1 = 6 /\ violation 1 2 (3 / 2) 1 = 1 / 2.
Proof.
  assert (E : violation 1 2 (3 / 2) 1 = 1 / 2) by (unfold violation; rewrite Rmax_right; lra). split; [|exact E].
  unfold new_time. rewrite E. rewrite Rmax_right; lra.
Qed.
(** A segment that meets both limits can be sped up so much that the same motion
    exceeds the acceleration limit by 18 %. *)
Theorem C87_speed_up_finding : exists v a t V A, 0 < v /\ 0 < a /\ 0 < t /\ 0 <= V <= v /\ 0 <= A <= a /\
  118 / 100 * a < A * (t / new_time v a t V A) ^ 2.
Proof.
  exists 1, 1, 3, (1 / 2), (2 / 3). do 5 (split; [lra|]).
  assert (E : new_time 1 1 3 (1 / 2) (2 / 3) = 9 / 4).
  { unfold new_time, violation. rewrite (Rmax_left ((2 / 3 - 1) / 1)) by lra. rewrite Rmax_right; [field|]. lra. }
  rewrite E. lra.
Qed.
Print Assumptions C87_speed_up_finding.

(** ** C87 is false of the code: a segment that violates a limit by more than 100 %
    is given 0.1 s. *)
From Verif Require Import ProofFeasibility.
Lemma acceleration_needed s d A : 0 <= seg_time s -> seg_fun s 0 0 0 = 0 -> seg_fun s 0 1 0 = 0 -> seg_fun s 0 0 (seg_time s) = d ->
  segment_maximum s xyz 2 A -> d <= A * seg_time s ^ 2 / 2.
Proof.
  intros HT X0 V0 X1 (_ & U).
  assert (B : forall t, 0 <= t <= seg_time s -> seg_fun s 0 2 t <= A).
  { intros t Ht. eapply Rle_trans; [|apply (U t Ht)]. unfold seg_norm, xyz. cbn [map lsum]. change (Z.to_nat 0) with 0%nat.
    eapply Rle_trans; [apply Rle_abs|]. rewrite <- sqrt_Rsqr_abs. apply sqrt_le_1_alt. unfold Rsqr.
    assert (Q1 := pow2_ge_0 (seg_fun s (Z.to_nat 1) 2 t)). assert (Q2 := pow2_ge_0 (seg_fun s (Z.to_nat 2) 2 t)).
    set (x := seg_fun s 0 2 t). replace (x ^ 2) with (x * x) by ring. lra. }
  assert (G : forall t, 0 <= t <= seg_time s -> seg_fun s 0 1 t <= A * t).
  { intros t Ht. assert (Q := growth (seg_fun s 0 1) (seg_fun s 0 2) (fun x => A * x) (fun _ => A) 0 t ltac:(lra)).
    rewrite V0 in Q. enough (seg_fun s 0 1 t - 0 <= A * t - A * 0) by lra. apply Q.
    - intros u _. apply is_derive_seg_fun.
    - intros u _. auto_derive; [exact I|ring].
    - intros u Hu. apply B. lra. }
  assert (Q := growth (seg_fun s 0 0) (seg_fun s 0 1) (fun x => A * x ^ 2 / 2) (fun x => A * x) 0 (seg_time s) HT).
  rewrite X0, X1 in Q. enough (d - 0 <= A * seg_time s ^ 2 / 2 - A * 0 ^ 2 / 2) by lra. apply Q.
  - intros u _. apply is_derive_seg_fun.
  - intros u _. auto_derive; [exact I|field].
  - intros u Hu. apply G. lra.
Qed.
Lemma segment_maximum_exists s d : seg_wf s -> seg_D s = 3%nat -> (d < seg_N s <= 22)%nat -> (d < 21)%nat -> 0 <= seg_time s ->
  exists A, segment_maximum s xyz d A.
Proof.
  intros W D HN Hd HT. destruct (seg_ok_maximum perfect_rf d xyz s perfect_rf_ok W) as (c & e1 & e2 & _ & _ & (M1 & M2 & M3) & _); try assumption; [|cbn; lia|].
  - unfold dims_ok, xyz. rewrite D. repeat constructor; lia.
  - exists (ext_value e2). split; [exists (ext_time e2); auto|exact M3].
Qed.
Lemma exp_20 : exp (- 10 / 1 * 2) <= / 2 ^ 20.
Proof.
  replace (- 10 / 1 * 2) with (- (20)) by field. rewrite exp_Ropp. apply Rinv_le_contravar; [apply pow_lt; lra|].
  assert (E : forall k, exp (INR k) = exp 1 ^ k).
  { induction k as [|k IH]; [exact exp_0|]. rewrite S_INR, exp_plus, IH. cbn [pow]. ring. }
  replace 20 with (INR 20) by (rewrite INR_IZR_INZ; reflexivity). rewrite E. apply pow_incr. assert (H := exp_ineq1 1 ltac:(lra)). lra.
Qed.
Definition far_vs : list (vertex R) :=
  [mkVertex 3 [(0%Z, [0; 0; 0]); (1%Z, [0; 0; 0])]; mkVertex 3 [(0%Z, [10; 0; 0]); (1%Z, [0; 0; 0])]].
Lemma far_bench : bench_vertices far_vs.
Proof.
  split; [cbn; lia|]. split; [repeat constructor|]. split.
  - repeat constructor; eexists; split; reflexivity.
  - intros [|i] Hi; [|cbn in Hi; lia]. cbn. intros [=]. lra.
Qed.
Theorem C87_violating_segment_slowed_refuted : exists (vs : list (vertex R)) (v a : R) (ts : list R) (o : opt R) (A : R) (tr' : trajectory R) (c : R),
  bench_vertices vs /\ 0 < v /\ 0 < a /\
  estimateSegmentTimes exp vs v a = Ok ts /\ linear_run (perfect_inv 5) perfect_solve vs ts = Ok o /\
  (* the first solution violates the acceleration limit *)
  length ts = 1%nat /\ 20 <= nth 0 ts 0 /\ segment_maximum (nth 0 (o_segments o) no_seg) xyz 2 A /\ 2 * a < A /\
  run_violation (perfect_inv 5) perfect_solve perfect_rf exp v a vs traj_new = Ok (1%Z, tr', c) /\
  (* and the result is 200 times faster *)
  duration tr' = 1 / 10 /\
  exists t, 0 <= t <= duration tr' /\ 2000 <= seg_norm (seg_at tr' 0) xyz 2 t.
Proof.
  destruct (C87_result (perfect_inv 5) perfect_solve perfect_rf far_vs 1 (1 / 100) traj_new) as (ts & o & Et & Eo & To & H);
    [exact perfect_rf_ok|apply perfect_inv_ok|exact perfect_solve_length|exact far_bench|lra|lra|].
  destruct (nominal_solution (perfect_inv 5) perfect_solve far_vs 1 (1 / 100) far_bench perfect_solve_length ltac:(lra) ltac:(lra))
    as (ts' & o' & Et' & Eo' & _ & Lt & Pt & Hc & Nt).
  rewrite Et in Et'. apply Ok_inj in Et'. subst ts'. rewrite Eo in Eo'. apply Ok_inj in Eo'. subst o'.
  assert (Hwf : List.Forall vertex_wf far_vs) by repeat constructor.
  destruct (solved_trajectory 5 (perfect_inv 5) perfect_solve far_vs 3 3 o traj_new Hwf ltac:(lia) ltac:(cbn; lia) Hc) as (tr1 & _ & S1 & D1 & N1 & (W1 & _) & _ & _ & M1 & _).
  rewrite To in M1. cbn [far_vs length Nat.sub] in Lt. destruct ts as [|t0 [|]]; cbn [length] in Lt; try lia. rewrite S1, D1, N1 in W1.
  destruct (o_segments o) as [|s [|]] eqn:Es; cbn [map] in M1; try discriminate. injection M1 as Ts. apply List.Forall_inv in W1. destruct W1 as (Ds & Ns & Ws).
  assert (ET : t0 = 10 / 1 * 2 * (1 + 65 / 10 * 1 / (1 / 100) * exp (- 10 / 1 * 2))).
  { specialize (Nt 0%nat ltac:(cbn; lia)). cbn [nth] in Nt. rewrite Nt. cbn [far_vs nth]. unfold pos_of. cbn -[nfabian_time dist].
    replace (dist [10; 0; 0] [0; 0; 0]) with 10. { unfold nfabian_time, nlit, n1. rnum. reflexivity. }
    unfold dist. cbn [combine fold_right fst snd]. replace (_ + _) with (10 ^ 2) by ring. symmetry. apply sqrt_pow2. lra. }
  assert (HT : 20 <= t0 <= 2002 / 100).
  { assert (E1 := exp_20). assert (E0 := exp_pos (- 10 / 1 * 2)). rewrite ET. set (e := exp _) in *. lra. }
  destruct (segment_maximum_exists s 1 Ws Ds ltac:(lia) ltac:(lia) ltac:(lra)) as (V & HV).
  destruct (segment_maximum_exists s 2 Ws Ds ltac:(lia) ltac:(lia) ltac:(lra)) as (A & HA).
  assert (BD : forall (segs : list (segment R)) sg A, segs = [sg] -> meets_constraints 5 3 far_vs segs -> 0 <= seg_time sg -> segment_maximum sg xyz 2 A ->
     10 <= A * seg_time sg ^ 2 / 2).
  { intros segs sg A' Eg MC Hp HM. apply (acceleration_needed sg 10 A' Hp); try assumption.
    - destruct (MC 0%nat 0%nat [0; 0; 0] 0%nat ltac:(cbn; lia) ltac:(lia) ltac:(lia) eq_refl) as (Q & _). rewrite Eg in Q. apply Q. cbn; lia.
    - destruct (MC 0%nat 1%nat [0; 0; 0] 0%nat ltac:(cbn; lia) ltac:(lia) ltac:(lia) eq_refl) as (Q & _). rewrite Eg in Q. apply Q. cbn; lia.
    - destruct (MC 1%nat 0%nat [10; 0; 0] 0%nat ltac:(cbn; lia) ltac:(lia) ltac:(lia) eq_refl) as (_ & Q). rewrite Eg in Q. apply Q. lia. }
  assert (HA2 : 49 / 1000 <= A).
  { destruct Hc as (q0 & q & Hs & Hq & Hr).
    destruct (C31_constraints_met 5 (perfect_inv 5) perfect_solve 3 far_vs 3 q0 o q (perfect_inv_ok 5) Hwf ltac:(lia) Hs Hq Hr) as (_ & MC).
    { rewrite To. constructor; [|constructor]. assert (/ 2 ^ 52 <= / 1) by (apply Rinv_le_contravar; [lra|]; apply pow_R1_Rle; lra). lra. }
    rewrite Es in MC. assert (Q := BD _ s A eq_refl MC ltac:(lra) HA). rewrite Ts in Q. assert (t0 ^ 2 <= (2002 / 100) ^ 2) by (apply pow_incr; lra).
    assert (N := segment_maximum_nonneg _ _ _ _ HA). nra. }
  assert (Vi : 39 / 10 <= violation 1 (1 / 100) V A).
  { unfold violation. eapply Rle_trans; [|apply Rmax_l]. lra. }
  destruct (H [V] [A]) as (tr' & c & Er & W' & _ & D' & N' & L' & T' & MC' & _).
  { constructor; [exact HV|constructor]. } { constructor; [exact HA|constructor]. }
  { intros [|i] Hi; [cbn [nth]; lra|cbn [length] in Hi; lia]. }
  specialize (T' 0%nat ltac:(cbn; lia)). cbn [nth] in T'.
  destruct (C87_new_time 1 (1 / 100) t0 V A) as (_ & _ & _ & Tn & _); try lra; [exact (segment_maximum_nonneg _ _ _ _ HV)|].
  rewrite Tn in T' by lra. cbn [length] in L'. destruct (tr_segments tr') as [|s' [|]] eqn:Es'; cbn [length] in L'; try lia.
  unfold seg_at in T'. rewrite Es' in T'. cbn [nth] in T'.
  exists far_vs, 1, (1 / 100), [t0], o, A, tr', c. split; [exact far_bench|]. split; [lra|]. split; [lra|]. split; [exact Et|]. split; [exact Eo|].
  split; [reflexivity|]. split; [cbn [nth]; lra|]. split; [rewrite Es; exact HA|]. split; [lra|]. split; [exact Er|].
  assert (Du : duration tr' = 1 / 10) by (unfold duration; rewrite Es'; cbn [map lsum]; lra). split; [exact Du|].
  destruct W' as (W' & _). rewrite Es', D', N' in W'. apply List.Forall_inv in W'. destruct W' as (Ds' & Ns' & Ws').
  destruct (segment_maximum_exists s' 2 Ws' Ds' ltac:(lia) ltac:(lia) ltac:(lra)) as (A' & HA').
  assert (Q := BD _ s' A' eq_refl MC' ltac:(lra) HA'). rewrite T' in Q. destruct HA' as ((t & Ht & Ev) & _).
  exists t. split; [lra|]. unfold seg_at. rewrite Es'. cbn [nth]. rewrite Ev. lra.
Qed.
Print Assumptions C87_violating_segment_slowed_refuted.

Example C87_example : perfect_root_finder perfect_rf /\ inverse_ok 5 (perfect_inv 5) /\ (forall A b, length (perfect_solve A b) = length b) /\
  bench_vertices far_vs /\ 0 < 1 /\ 0 < 1 / 100.
Proof.
  split; [exact perfect_rf_ok|]. split; [apply perfect_inv_ok|]. split; [exact perfect_solve_length|]. split; [exact far_bench|lra].
Qed.
