(** Property C45 (scaling the segment times to the limits), and further facts
    about C40 and C42. *)
From Coq Require Import ZArith Reals List Bool Lia Lra Arith.
From Coquelicot Require Import Coquelicot.
From Verif Require Import Num RSum SpecPoly ModelPolynomial ModelSegment ModelVertex ModelTrajectory ModelLinear
  SpecSegment SpecVertex SpecTrajectory SpecLinear ProofPolynomial ProofSegment ProofSegment2 ProofVertex ProofTrajectory ProofTrajectory3
  ProofTrajectory4 ProofRoots ProofMatrix ProofHermite ProofReorder ProofLinear ProofLinear2 ProofLinear3 ProofLinear4 ProofLinear5 ProofLinear6 ProofLinear7
  PropLinear PropLinear2 PropTrajectory2
  ModelNonlinear SpecNonlinear ProofNonlinear ProofNonlinear2 ProofNonlinear3 ProofNonlinear4 ProofNonlinear5 ProofNonlinear6 ProofNonlinear7
  PropNonlinear PropNonlinear2 PropNonlinear3.
Import ListNotations.
Open Scope R_scope.

(** ** C45: scaleSegmentTimesWithViolation *)
Lemma limit_of_last {T} {ops : NumOps T} (d : Z) (con : list (Z * T)) :
  limit_of d con = match last_limit con d with Some v => v | None => n0 end.
Proof.
  unfold limit_of. generalize n0. induction con as [|(k & v) con IH]; intros z; [reflexivity|].
  cbn [fold_left last_limit fst snd]. rewrite IH. destruct (last_limit con d); [reflexivity|]. destruct (k =? d)%Z; reflexivity.
Qed.
Lemma chain_trajectory N dim times segs : chain_shape N dim times segs -> times <> [] ->
  exists tr, traj_setSegments (T := R) traj_new segs = Ok tr /\ tr_segments tr = segs /\ tr_D tr = dim /\ tr_N tr = N.
Proof.
  intros (Hl & Hsh) Hne. destruct segs as [|s segs].
  { destruct times; [congruence|discriminate]. }
  assert (HF : List.Forall (fun x => seg_D x = dim /\ seg_N x = N) (s :: segs)).
  { apply List.Forall_forall. intros x Hx. destruct (In_nth _ _ no_seg Hx) as (i & Hi & <-). destruct (Hsh i ltac:(lia)) as (_ & A & B & _). auto. }
  assert (H0 := Forall_inv HF). cbn beta in H0. destruct H0 as (D0 & N0).
  unfold traj_setSegments. rewrite D0, N0, addSegments_ok by exact HF. eexists. split; [reflexivity|]. cbn. auto.
Qed.
Lemma norm_rsum s dim d t : seg_norm s (map Z.of_nat (seq 0 dim)) d t = sqrt (rsum dim (fun k => seg_fun s k d t ^ 2)).
Proof.
  unfold seg_norm. f_equal. rewrite map_map, lsum_nth, map_length, seq_length. apply rsum_ext. intros i Hi.
  rewrite nth_map_seq by exact Hi. cbn [Nat.add]. rewrite Nat2Z.id. reflexivity.
Qed.
Lemma peak_sup tr d V : is_peak (tr_D tr) d (tr_segments tr) V <->
  norm_at_most tr (all_dims tr) d V /\
  (exists i t, (i < tr_K tr)%nat /\ 0 <= t <= seg_time (seg_at tr i) /\ seg_norm (seg_at tr i) (all_dims tr) d t = V).
Proof.
  unfold is_peak, norm_at_most, all_dims, tr_K, seg_at. change no_segment with no_seg. split; intros (H1 & i & t & Hi & Ht & E).
  - split; [intros j x Hj Hx; rewrite norm_rsum; apply H1; assumption|]. exists i, t. split; [exact Hi|]. split; [exact Ht|]. rewrite norm_rsum. auto.
  - split; [intros j x Hj Hx; rewrite <- norm_rsum; apply H1; assumption|]. exists i, t. split; [exact Hi|]. split; [exact Ht|]. rewrite <- norm_rsum. auto.
Qed.

(** With velocity and acceleration limits v and a: all segment times are scaled by
    one factor s and the linear problem is solved again for them.  V and A are the
    largest velocity and acceleration before; V / s and A / s^2 are those of the
    motion run slower by s, which meets the limits within 0.1%. *)
Theorem C45_times_scaled (h : nat) (inv : mat R -> mat R) (solve : mat R -> list R -> list R)
        (rf : list R -> bool * list (R * R)) (dim : nat) (vs : list (vertex R)) (r : Z) (n : nlo R) (v a V A : R) :
  perfect_root_finder rf -> (forall A b, length (solve A b) = length b) ->
  List.Forall vertex_wf vs -> (0 < dim)%nat -> (2 <= length vs)%nat -> (2 <= h)%nat ->
  computed h inv solve dim vs r (nl_opt n) ->
  last_limit (nl_con n) kVelocity = Some v -> last_limit (nl_con n) kAcceleration = Some a -> 0 < v -> 0 < a ->
  is_peak dim 1 (o_segments (nl_opt n)) V -> is_peak dim 2 (o_segments (nl_opt n)) A ->
  let s := if Rle_dec V ((1 + 1 / 1000) * v) then if Rle_dec A ((1 + 1 / 1000) * a) then 1
           else Rmax 1 (Rmax (V / v) (sqrt (A / a))) else Rmax 1 (Rmax (V / v) (sqrt (A / a))) in
  1 <= s /\ V / s <= (1 + 1 / 1000) * v /\ A / s ^ 2 <= (1 + 1 / 1000) * a /\
  exists n', nl_scaleWithViolation h inv solve rf n = Ok n' /\
    o_times (nl_opt n') = map (fun t => t * s) (o_times (nl_opt n)) /\
    run_ocalls h inv solve (nl_opt n) [CallTimes (map (fun t => t * s) (o_times (nl_opt n))); CallSolve] = Ok (nl_opt n') /\
    nl_con n' = nl_con n /\ nl_par n' = nl_par n.
Proof.
  intros Hrf Hsol Hwf Hd Hl Hh Hc Lv La Hv Ha PV PA s.
  destruct Hc as (o0 & c & Hs & Hc & Hr). destruct (computed_prepared h inv solve dim vs r o0 c _ Hwf Hs Hc Hr) as (P & S & Ed & Er).
  assert (Hn := pr_nseg _ _ _ _ P). assert (Lt := pr_times _ _ _ _ P). assert (Ht := prepared_times_pos h inv vs _ P).
  assert (CS := chain_of_shape_R h inv vs _ P). rewrite <- (synced_chain h inv vs _ P S) in CS by lia. rewrite Ed in CS.
  assert (Hne : o_times (nl_opt n) <> []) by (intros E; rewrite E in Lt; cbn in Lt; lia).
  destruct (chain_trajectory _ _ _ _ CS Hne) as (tr & Et & Es & ED & EN).
  assert (Hh' := prepared_h h inv vs _ 0 P ltac:(lia)).
  assert (HV := proj1 (peak_sup tr 1 V) ltac:(rewrite ED, Es; exact PV)). assert (HA := proj1 (peak_sup tr 2 A) ltac:(rewrite ED, Es; exact PA)).
  destruct CS as (Hls & Hsh).
  assert (Hwfs : List.Forall (fun x => seg_D x = tr_D tr /\ seg_N x = tr_N tr /\ seg_wf x) (tr_segments tr)).
  { rewrite Es, ED, EN. apply List.Forall_forall. intros x Hx. destruct (In_nth _ _ no_seg Hx) as (i & Hi & <-).
    destruct (Hsh i ltac:(lia)) as (_ & A1 & A2 & A3). auto. }
  assert (Sc : scalable tr).
  { split; [split; [exact Hwfs|lia]|]. split.
    { unfold times_nonneg. rewrite Es. apply List.Forall_forall. intros x Hx. destruct (In_nth _ _ no_seg Hx) as (i & Hi & <-).
      destruct (Hsh i ltac:(lia)) as (-> & _). apply Rlt_le. rewrite List.Forall_forall in Ht. apply Ht, nth_In. lia. }
    split; lia. }
  assert (HK : (0 < tr_K tr)%nat) by (unfold tr_K; rewrite Es; lia).
  destruct (C23_factor rf tr v a V A Hrf Sc HK Hv Ha (proj1 HV) (proj1 HA) (proj2 HV) (proj2 HA)) as (tr' & E' & Hin & Hout).
  assert (Hnn : 0 <= A).
  { destruct PA as (_ & j & t & _ & _ & ->). apply sqrt_pos. }
  assert (Hbig : forall c, c = Rmax 1 (Rmax (V / v) (sqrt (A / a))) -> 1 <= c /\ V / c <= (1 + 1 / 1000) * v /\ A / c ^ 2 <= (1 + 1 / 1000) * a).
  { intros c0 Ec. assert (B1 : 1 <= c0) by (rewrite Ec; apply Rmax_l).
    assert (B2 : V / v <= c0) by (rewrite Ec; eapply Rle_trans; [apply Rmax_l|apply Rmax_r]).
    assert (B3 : sqrt (A / a) <= c0) by (rewrite Ec; eapply Rle_trans; [apply Rmax_r|apply Rmax_r]). clear Ec.
    split; [exact B1|]. split.
    - apply Rmult_le_reg_r with c0; [lra|]. replace (V / c0 * c0) with V by (field; lra).
      apply Rmult_le_compat_r with (r := v) in B2; [|lra]. replace (V / v * v) with V in B2 by (field; lra). nra.
    - assert (Hq : A / a <= c0 ^ 2).
      { assert (0 <= A / a) by (apply Rmult_le_pos; [exact Hnn|apply Rlt_le, Rinv_0_lt_compat; exact Ha]).
        rewrite <- (sqrt_sqrt (A / a)) by assumption. assert (Q := sqrt_pos (A / a)). cbn [pow]. rewrite Rmult_1_r. apply Rmult_le_compat; lra. }
      apply Rmult_le_reg_r with (c0 ^ 2); [apply pow_lt; lra|]. replace (A / c0 ^ 2 * c0 ^ 2) with A by (field; lra).
      apply Rmult_le_compat_r with (r := a) in Hq; [|lra]. replace (A / a * a) with A in Hq by (field; lra).
      assert (0 <= c0 ^ 2) by (apply pow_le; lra). nra. }
  assert (Htimes : traj_getSegmentTimes tr' = map (fun t => t * s) (o_times (nl_opt n)) /\ 1 <= s /\ V / s <= (1 + 1 / 1000) * v /\ A / s ^ 2 <= (1 + 1 / 1000) * a).
  { assert (Emap : map seg_time (o_segments (nl_opt n)) = o_times (nl_opt n)).
    { apply (nth_ext _ _ 0 0); [rewrite map_length; lia|]. rewrite map_length. intros i Hi. change 0 with (seg_time no_seg) at 1.
      rewrite map_nth. apply Hsh. lia. }
    unfold traj_getSegmentTimes.
    assert (G : ~ (V <= (1 + 1 / 1000) * v /\ A <= (1 + 1 / 1000) * a) -> s = Rmax 1 (Rmax (V / v) (sqrt (A / a))) ->
      map seg_time (tr_segments tr') = map (fun t => t * s) (o_times (nl_opt n))).
    { intros Hnot Ess. rewrite (Hout Hnot), Es, <- Emap, map_map. apply map_ext. intros x. rewrite Ess. reflexivity. }
    destruct (Rle_dec V ((1 + 1 / 1000) * v)) as [Q1|Q1] eqn:D1; [destruct (Rle_dec A ((1 + 1 / 1000) * a)) as [Q2|Q2] eqn:D2|].
    - assert (s1 : s = 1) by (unfold s; destruct (Rle_dec V _); [|contradiction]; destruct (Rle_dec A _); [reflexivity|contradiction]).
      rewrite (Hin Q1 Q2), Es, Emap, s1. split; [rewrite <- (map_id (o_times (nl_opt n))) at 1; apply map_ext; intros; lra|].
      unfold Rdiv at 1 3. rewrite pow1, Rinv_1, !Rmult_1_r. lra.
    - assert (s1 : s = Rmax 1 (Rmax (V / v) (sqrt (A / a)))) by (unfold s; destruct (Rle_dec V _); [|contradiction]; destruct (Rle_dec A _); [contradiction|reflexivity]).
      split; [apply G; [intros (_ & X); contradiction|exact s1]|]. apply Hbig. exact s1.
    - assert (s1 : s = Rmax 1 (Rmax (V / v) (sqrt (A / a)))) by (unfold s; destruct (Rle_dec V _); [contradiction|reflexivity]).
      split; [apply G; [intros (X & _); contradiction|exact s1]|]. apply Hbig. exact s1. }
  destruct Htimes as (Et' & B1 & B2 & B3). split; [exact B1|]. split; [exact B2|]. split; [exact B3|].
  destruct (step_time_ok h inv solve Hsol vs (nl_opt n) (map (fun t => t * s) (o_times (nl_opt n))) P (proj1 S) ltac:(lia) ltac:(rewrite map_length; exact Lt))
    as (o2 & o1 & E1 & E2).
  { apply List.Forall_map. eapply List.Forall_impl; [|exact Ht]. cbn beta. intros t Hp. apply Rmult_lt_0_compat; lra. }
  destruct (times_prepared h inv vs _ _ o1 P E1) as (P1 & T1 & _). destruct (solve_prepared h inv solve vs o1 o2 P1 E2) as (_ & _ & T2).
  exists (set_opt n o2). split.
  - unfold nl_scaleWithViolation, opt_getTrajectory. rewrite Et. cbn [obind]. rewrite !limit_of_last, Lv, La, E'. cbn [obind snd].
    rewrite Et', E1. cbn [obind]. rewrite E2. reflexivity.
  - cbn [set_opt nl_opt nl_con nl_par]. split; [congruence|]. split; [cbn [run_ocalls run_ocall]; rewrite E1; cbn [obind]; rewrite E2; reflexivity|].
    split; reflexivity.
Qed.
Print Assumptions C45_times_scaled.

(** The example problem of C45: N = 4, one dimension, one segment from position 0
    to 1, velocity -1 at both ends. *)
Definition bk_vs : list (vertex R) := [mkVertex 1 [(0%Z, [0]); (1%Z, [-1])]; mkVertex 1 [(0%Z, [1]); (1%Z, [-1])]].
Lemma bk_wf : List.Forall (fun v => vertex_wf v /\ v_D v = 1%nat) bk_vs.
Proof. repeat constructor. Qed.
Lemma bk_wf' : List.Forall vertex_wf bk_vs.
Proof. eapply List.Forall_impl; [|exact bk_wf]. intros v H. apply H. Qed.
Lemma cubic s : seg_N s = 4%nat -> seg_D s = 1%nat -> seg_wf s -> exists c0 c1 c2 c3,
  (forall t, seg_fun s 0 0 t = c0 + c1 * t + c2 * t ^ 2 + c3 * t ^ 3) /\
  (forall t, seg_fun s 0 1 t = c1 + 2 * c2 * t + 3 * c3 * t ^ 2) /\
  (forall t, seg_fun s 0 2 t = 2 * c2 + 6 * c3 * t).
Proof.
  intros HN HD Hw. assert (L := seg_wf_nth s 0 Hw ltac:(lia)). rewrite HN in L.
  set (p := nth 0 (seg_polys s) []) in *. exists (nth 0 p 0), (nth 1 p 0), (nth 2 p 0), (nth 3 p 0).
  assert (F : forall d t, seg_fun s 0 d t = dpoly p d t) by (intros; apply seg_fun_dpoly).
  split; [|split]; intros t; rewrite F; unfold dpoly; rewrite L; cbn [rsum Nat.sub]; rewrite ?bc_step, ?bc_0; cbn [Nat.sub INR]; ring.
Qed.
(** Solving bk_vs for the time T. *)
Lemma bk_motion (o o' : opt R) T : set_up 2 (perfect_inv 2) perfect_solve 1 bk_vs 1 o ->
  opt_solveLinear 2 perfect_solve o = Ok o' -> o_times o' = [T] -> / 2 ^ 52 <= T ->
  exists s, o_segments o' = [s] /\ seg_time s = T /\
    (forall t, seg_fun s 0 1 t = -1 + 2 * (3 / T ^ 2 + 3 / T) * t - 3 * (2 / T ^ 3 + 2 / T ^ 2) * t ^ 2) /\
    (forall t, seg_fun s 0 2 t = 2 * (3 / T ^ 2 + 3 / T) - 6 * (2 / T ^ 3 + 2 / T ^ 2) * t).
Proof.
  intros Hs E Et HT. assert (T0 : 0 < T) by (apply Rlt_le_trans with (2 := HT); apply Rinv_0_lt_compat, pow_lt; lra).
  destruct (C31_constraints_met 2 (perfect_inv 2) perfect_solve 1 bk_vs 1 o o' CallSolve (perfect_inv_ok 2) bk_wf' ltac:(lia) Hs I E) as ((Hl & Hsh) & HM).
  { rewrite Et. constructor; [exact HT|constructor]. }
  rewrite Et in Hl, Hsh. destruct (o_segments o') as [|s [|]] eqn:Es; try discriminate. exists s. split; [reflexivity|].
  destruct (Hsh 0%nat ltac:(cbn; lia)) as (ET & EN & ED & Hw). cbn [nth] in *.
  split; [exact ET|]. destruct (cubic s EN ED Hw) as (c0 & c1 & c2 & c3 & F0 & F1 & F2).
  destruct (HM 0%nat 0%nat [0] 0%nat ltac:(cbn; lia) ltac:(lia) ltac:(lia) eq_refl) as (A1 & _). specialize (A1 ltac:(cbn; lia)).
  destruct (HM 0%nat 1%nat [-1] 0%nat ltac:(cbn; lia) ltac:(lia) ltac:(lia) eq_refl) as (A2 & _). specialize (A2 ltac:(cbn; lia)).
  destruct (HM 1%nat 0%nat [1] 0%nat ltac:(cbn; lia) ltac:(lia) ltac:(lia) eq_refl) as (_ & A3). specialize (A3 ltac:(lia)).
  destruct (HM 1%nat 1%nat [-1] 0%nat ltac:(cbn; lia) ltac:(lia) ltac:(lia) eq_refl) as (_ & A4). specialize (A4 ltac:(lia)).
  cbn [nth Nat.sub] in A1, A2, A3, A4. rewrite ET in A3, A4. rewrite F0 in A1, A3. rewrite F1 in A2, A4.
  assert (C0 : c0 = 0) by lra. assert (C1 : c1 = -1) by lra. subst c0 c1.
  assert (C2 : c2 = - (3 / 2) * c3 * T) by (apply Rmult_eq_reg_r with T; [|lra]; lra).
  subst c2. assert (C3 : c3 = - (2 / T ^ 3 + 2 / T ^ 2)).
  { apply Rmult_eq_reg_r with (T ^ 3); [|apply pow_nonzero; lra]. replace (- (2 / T ^ 3 + 2 / T ^ 2) * T ^ 3) with (- 2 - 2 * T) by (field; lra). lra. }
  subst c3. split; intros t; rewrite ?F1, ?F2; field; lra.
Qed.
Lemma bk_solved : exists o1 o2, set_up 2 (perfect_inv 2) perfect_solve 1 bk_vs 1 o1 /\
  opt_solveLinear 2 perfect_solve o1 = Ok o2 /\ o_times o2 = [1].
Proof.
  destruct (C31_setup_and_solve_succeed 2 (perfect_inv 2) perfect_solve 1 bk_vs [1] 1 [] (opt_new 1))
    as (o1 & H1 & T1 & H2); try reflexivity; try (cbn; lia).
  { constructor; [lra|constructor]. }
  { exact bk_wf. }
  { apply perfect_solve_length. }
  destruct (H2 (or_introl eq_refl)) as (o2 & E2 & T2). exists o1, o2. split; [|split; assumption].
  exists [], [1], [], (opt_new 1), o1. split; [reflexivity|]. split; [exact H1|]. split; [constructor|reflexivity].
Qed.
Lemma bk_case : exists n, let con := nl_con n in
  perfect_root_finder perfect_rf /\ (forall A b, length (perfect_solve A b) = length b) /\ List.Forall vertex_wf bk_vs /\
  computed 2 (perfect_inv 2) perfect_solve 1 bk_vs 1 (nl_opt n) /\ o_times (nl_opt n) = [1] /\
  last_limit con kVelocity = Some (8 / 5) /\ last_limit con kAcceleration = Some 100 /\
  is_peak 1 1 (o_segments (nl_opt n)) 2 /\ is_peak 1 2 (o_segments (nl_opt n)) 12.
Proof.
  destruct bk_solved as (o1 & o2 & S & E & Et). exists (ex_nl o2 [(1%Z, 8 / 5); (2%Z, 100)]). cbv zeta. cbn [ex_nl nl_con nl_opt].
  split; [exact perfect_rf_ok|]. split; [exact perfect_solve_length|]. split; [exact bk_wf'|].
  split; [exists o1, CallSolve; split; [exact S|split; [exact I|exact E]]|]. split; [exact Et|]. split; [reflexivity|]. split; [reflexivity|].
  assert (H1 : / 2 ^ 52 <= 1) by (rewrite <- Rinv_1; apply Rinv_le_contravar; lra).
  destruct (bk_motion o1 o2 1 S E Et H1) as (s & -> & Hs & F1' & F2').
  assert (F1 : forall t, seg_fun s 0 1 t = -1 + 12 * t - 12 * t ^ 2) by (intros t; rewrite F1'; field).
  assert (F2 : forall t, seg_fun s 0 2 t = 12 - 24 * t) by (intros t; rewrite F2'; field). clear F1' F2'.
  assert (Sq : forall x y, 0 <= y -> - y <= x <= y -> sqrt (0 + x ^ 2) <= y).
  { intros x y Hy Hx. rewrite <- (sqrt_square y) by lra. apply sqrt_le_1_alt. nra. }
  split; split.
  - intros [|j] t Hj Ht; [|cbn in Hj; lia]. cbn [nth] in *. rewrite Hs in Ht. cbn [rsum]. apply Sq; [lra|]. rewrite F1.
    assert (0 <= t * (1 - t)) by (apply Rmult_le_pos; lra). assert (0 <= (t - 1 / 2) ^ 2) by apply pow2_ge_0. split; lra.
  - exists 0%nat, (1 / 2). cbn [nth length]. split; [lia|]. split; [rewrite Hs; lra|]. cbn [rsum]. rewrite F1.
    replace (0 + _) with (2 * 2) by field. rewrite sqrt_square; lra.
  - intros [|j] t Hj Ht; [|cbn in Hj; lia]. cbn [nth] in *. rewrite Hs in Ht. cbn [rsum]. apply Sq; [lra|]. rewrite F2. nra.
  - exists 0%nat, 0. cbn [nth length]. split; [lia|]. split; [rewrite Hs; lra|]. cbn [rsum]. rewrite F2.
    replace (0 + _) with (12 * 12) by field. rewrite sqrt_square; lra.
Qed.
Example C45_example : exists n, let con := nl_con n in
  perfect_root_finder perfect_rf /\ (forall A b, length (perfect_solve A b) = length b) /\ List.Forall vertex_wf bk_vs /\
  computed 2 (perfect_inv 2) perfect_solve 1 bk_vs 1 (nl_opt n) /\
  last_limit con kVelocity = Some (8 / 5) /\ last_limit con kAcceleration = Some 100 /\
  is_peak 1 1 (o_segments (nl_opt n)) 2 /\ is_peak 1 2 (o_segments (nl_opt n)) 12.
Proof.
  destruct bk_case as (n & H1 & H2 & H3 & H4 & _ & H5 & H6 & H7 & H8). exists n. cbv zeta.
  repeat (split; [assumption|]). assumption.
Qed.

(** The limits need not hold afterwards: solving again is not slowing down when
    a vertex constrains a derivative to a non-zero value.  Here the limit is 1.6,
    the times are scaled by 1.25, and the new velocity reaches 1.7. *)
Theorem C45_limit_met_refuted : exists (n n' : nlo R) (v a : R),
  perfect_root_finder perfect_rf /\ inverse_ok 2 (perfect_inv 2) /\ solver_ok perfect_solve /\ List.Forall vertex_wf bk_vs /\
  computed 2 (perfect_inv 2) perfect_solve 1 bk_vs 1 (nl_opt n) /\
  last_limit (nl_con n) kVelocity = Some v /\ last_limit (nl_con n) kAcceleration = Some a /\ 0 < v /\ 0 < a /\
  nl_scaleWithViolation 2 (perfect_inv 2) perfect_solve perfect_rf n = Ok n' /\
  exists j t, (j < length (o_segments (nl_opt n')))%nat /\ 0 <= t <= seg_time (nth j (o_segments (nl_opt n')) no_seg) /\
    (1 + 6 / 100) * v < Rabs (seg_fun (nth j (o_segments (nl_opt n')) no_seg) 0 1 t).
Proof.
  destruct bk_case as (n & H1 & H2 & H3 & H4 & Et & H5 & H6 & H7 & H8).
  destruct (C45_times_scaled 2 (perfect_inv 2) perfect_solve perfect_rf 1 bk_vs 1 n (8 / 5) 100 2 12) as (B1 & B2 & B3 & n' & E & T' & Hr & _);
    try assumption; try lia; try lra; try (cbn; lia).
  exists n, n', (8 / 5), 100. split; [exact H1|]. split; [apply perfect_inv_ok|]. split; [apply perfect_solve_ok|]. split; [exact H3|]. split; [exact H4|].
  split; [exact H5|]. split; [exact H6|]. split; [lra|]. split; [lra|]. split; [exact E|].
  assert (Es : (if Rle_dec 2 ((1 + 1 / 1000) * (8 / 5)) then if Rle_dec 12 ((1 + 1 / 1000) * 100) then 1
           else Rmax 1 (Rmax (2 / (8 / 5)) (sqrt (12 / 100))) else Rmax 1 (Rmax (2 / (8 / 5)) (sqrt (12 / 100)))) = 5 / 4).
  { destruct (Rle_dec 2 _) as [L|_]; [lra|]. assert (sqrt (12 / 100) <= 5 / 4).
    { replace (5 / 4) with (sqrt (5 / 4 * (5 / 4))) by (apply sqrt_square; lra). apply sqrt_le_1_alt. lra. }
    rewrite (Rmax_left (2 / (8 / 5))) by lra. rewrite Rmax_right by lra. lra. }
  rewrite Es in *. rewrite Et in T', Hr. cbn [map] in T', Hr.
  cbn [run_ocalls run_ocall] in Hr.
  destruct (opt_updateSegmentTimes 2 (perfect_inv 2) (nl_opt n) [1 * (5 / 4)]) as [oa| | |] eqn:E1; cbn [obind] in Hr; try discriminate.
  destruct (opt_solveLinear 2 perfect_solve oa) as [ob| | |] eqn:E2; cbn [obind] in Hr; try discriminate. apply Ok_inj in Hr. subst ob.
  assert (Sa : set_up 2 (perfect_inv 2) perfect_solve 1 bk_vs 1 oa).
  { destruct H4 as (o0 & c & S0 & Hc & Hrun). apply (by_set_up 2 (perfect_inv 2) perfect_solve any_call 1 bk_vs 1 o0 oa S0).
    right. exists [c], (CallTimes [1 * (5 / 4)]). split; [constructor; [exact (computes_no_setup c Hc)|constructor]|]. split; [exact I|]. split; [exact I|].
    cbn [app run_ocalls]. rewrite Hrun. cbn [obind run_ocall]. rewrite E1. reflexivity. }
  assert (HT : / 2 ^ 52 <= 1 * (5 / 4)) by (apply Rle_trans with 1; [rewrite <- Rinv_1; apply Rinv_le_contravar; lra|lra]).
  destruct (bk_motion oa (nl_opt n') _ Sa E2 T' HT) as (s & -> & Hs & F1 & _).
  exists 0%nat, (5 / 8). cbn [nth length]. split; [lia|]. split; [rewrite Hs; lra|]. rewrite F1.
  replace (-1 + _ - _) with (17 / 10) by field. rewrite Rabs_pos_eq; lra.
Qed.
Print Assumptions C45_limit_met_refuted.

(** Without a velocity constraint the limit is taken to be 0.  In double
    arithmetic the factor V / 0 is infinite and so are the segment times: N = 4,
    constant velocity 1 over one second, only an acceleration limit. *)
Section Witness64.
  Local Existing Instance B64_ops.
  Definition inv2 (D : mat b64) : mat b64 :=
    let a := mget D 0 0 in let b := mget D 0 1 in let c := mget D 1 0 in let d := mget D 1 1 in
    let det := nsub (nmul a d) (nmul b c) in
    [[ndiv d det; ndiv (nopp b) det]; [ndiv (nopp c) det; ndiv a det]].
  Definition un_vs : list (vertex b64) :=
    [mkVertex 1 [(0%Z, [f64 0]); (1%Z, [f64 1])]; mkVertex 1 [(0%Z, [f64 1]); (1%Z, [f64 1])]].
  Definition un_setup : outcome (nlo b64) := nl_setupFromVertices 2 inv2 (nl_new 1 lp_par) un_vs [f64 1] 1.
  Definition un_solved (n : nlo b64) : outcome (nlo b64) :=
    run_ncalls 2 inv2 div_solve rf64 exp64 n [NConstraint true 2 (f64 1); NSolve].
  Definition un_scaled (n : nlo b64) : outcome (nlo b64) := nl_scaleWithViolation 2 inv2 div_solve rf64 n.
  Definition un_peak (n : nlo b64) (d : Z) : outcome (extremum b64 * list (extremum b64)) := opt_maximumOfMagnitude 2 rf64 (nl_opt n) d.
  Lemma un_bool : on_ok un_setup (fun n => on_ok (un_solved n) (fun m => on_ok (un_scaled m) (fun m' =>
    on_ok (un_peak m 1) (fun e1 => on_ok (un_peak m 2) (fun e2 =>
      match o_times (nl_opt m'), nl_con m with
      | [x], [(k, a)] => nltb dbl_max x && (k =? 2)%Z && neqb a (f64 1) && neqb (ext_value (fst e1)) (f64 1) && neqb (ext_value (fst e2)) (f64 0)
      | _, _ => false
      end))))) = true.
  Proof. vm_compute. reflexivity. Qed.
End Witness64.
Theorem C45_missing_limit_refuted : exists (n n' : nlo b64) (a x : b64) (e1 e2 : extremum b64 * list (extremum b64)),
  @nl_set_up b64 B64_ops 2 inv2 div_solve rf64 exp64 1 lp_par un_vs 1 n /\
  (* only the acceleration is limited, to 1; its largest value is 0 *)
  nl_con n = [(kAcceleration, a)] /\ @neqb b64 B64_ops a (f64 1) = true /\
  un_peak n 1 = Ok e1 /\ @neqb b64 B64_ops (ext_value (fst e1)) (f64 1) = true /\
  un_peak n 2 = Ok e2 /\ @neqb b64 B64_ops (ext_value (fst e2)) (f64 0) = true /\
  un_scaled n = Ok n' /\ o_times (nl_opt n') = [x] /\ @nltb b64 B64_ops (@dbl_max b64 B64_ops) x = true.
Proof.
  destruct (on_ok_true _ _ un_bool) as (n & E0 & H0). destruct (on_ok_true _ _ H0) as (m & E1 & H1).
  destruct (on_ok_true _ _ H1) as (m' & E2 & H2). destruct (on_ok_true _ _ H2) as (e1 & E3 & H3).
  destruct (on_ok_true _ _ H3) as (e2 & E4 & H4). clear H0 H1 H2 H3.
  destruct (o_times (nl_opt m')) as [|x [|]] eqn:Et; try discriminate.
  destruct (nl_con m) as [|(k & a) [|]] eqn:Ec; try discriminate.
  apply andb_true_iff in H4 as (H4 & Q5). apply andb_true_iff in H4 as (H4 & Q4). apply andb_true_iff in H4 as (H4 & Q3).
  apply andb_true_iff in H4 as (Q1 & Q2). apply Z.eqb_eq in Q2. subst k.
  exists m, m', a, x, e1, e2. split.
  { exists [], [f64 1], [NConstraint true 2 (f64 1); NSolve], (@nl_new b64 B64_ops 1 lp_par), n. split; [reflexivity|]. split; [exact E0|]. split; [repeat constructor|exact E1]. }
  split; [exact Ec|]. split; [exact Q3|]. split; [exact E3|]. split; [exact Q4|]. split; [exact E4|]. split; [exact Q5|]. split; [exact E2|]. split; [exact Et|exact Q1].
Qed.
Print Assumptions C45_missing_limit_refuted.

(** ** C40, optimizeTime *)
(** optimizeTime (kSquaredTime, kRichterTime) gives 0.1 as lower bound whatever the
    times are; optimizeTimeAndFreeConstraints widens its bounds.  With an nlopt
    that refuses a start below its lower bound, as nlopt does, no optimisation
    takes place and the object is left as it was.  For every number type. *)
Theorem C40_short_segment_not_optimized {T} {ops : NumOps T} (h : nat) (inv : mat T -> mat T) (solve : mat T -> list T -> list T)
        (rf : root_oracle (T := T)) (fexp : T -> T) (algorithm : nlopt_algorithm (T := T)) (n : nlo T) (k i : nat) :
  (forall steps lower upper x j, length lower = length x -> (j < length x)%nat -> (nth j x n0 <? nth j lower n0)%num = true ->
     exists y f, algorithm steps lower upper x = NlThrow y f) ->
  nl_nlopt n = Some k ->
  np_method (nl_par n) = kSquaredTime \/ np_method (nl_par n) = kRichterTime ->
  (i < length (o_times (nl_opt n)))%nat -> (nth i (o_times (nl_opt n)) n0 <? nlit 1 10)%num = true ->
  exists n', nl_optimize h inv solve rf fexp algorithm n = Ok (n', kFailure) /\ nl_opt n' = nl_opt n.
Proof.
  intros Halg Hk Hm Hi Hlt.
  assert (E : exists n', nl_optimizeTime h inv solve rf fexp algorithm (set_info n info_new) = Ok (n', kFailure) /\ nl_opt n' = nl_opt n).
  { unfold nl_optimizeTime. cbn [set_info nl_nlopt nl_opt nl_par]. rewrite Hk, map_length.
    destruct (Nat.eqb_spec (length (o_times (nl_opt n))) k) as [El|_]; cbn [negb]; [|eexists; split; reflexivity].
    destruct (Halg (map (fun t => np_step (nl_par n) * t)%num (o_times (nl_opt n))) (repeat kTimeLowerBound k) (repeat dbl_max k) (o_times (nl_opt n)) i ltac:(rewrite repeat_length; lia) Hi) as (y & f & ->).
    - rewrite (nth_indep (repeat _ _) _ kTimeLowerBound) by (rewrite repeat_length; lia). rewrite nth_repeat. exact Hlt.
    - cbn [nlopt_drive obind snd]. eexists. split; reflexivity. }
  destruct E as (m & E & Em). unfold nl_optimize. destruct Hm as [-> | ->]; cbv zeta; rewrite E; cbn [obind]; eexists; (split; [reflexivity|exact Em]).
Qed.
Print Assumptions C40_short_segment_not_optimized.
Definition refusing : nlopt_algorithm (T := R) := fun _ lower _ x => if forallb (fun p => Rleb (fst p) (snd p)) (combine lower x) then NlReturn x 0 4%Z else NlThrow x 0.
Example C40_short_segment_example : exists n : nlo R,
  nl_set_up 2 (perfect_inv 2) perfect_solve perfect_rf exp 1 ex_par exl_vs 1 n /\
  (forall steps lower upper x j, length lower = length x -> (j < length x)%nat -> Rltb (nth j x 0) (nth j lower 0) = true ->
     exists y f, refusing steps lower upper x = NlThrow y f) /\
  nl_nlopt n = Some 2%nat /\ np_method (nl_par n) = kSquaredTime /\
  (0 < length (o_times (nl_opt n)))%nat /\ Rltb (nth 0 (o_times (nl_opt n)) 0) (@nlit R R_ops 1 10) = true.
Proof.
  destruct (C31_setup_and_solve_succeed 2 (perfect_inv 2) perfect_solve 1 exl_vs [1 / 20; 2] 1 [] (opt_new 1))
    as (o1 & H1 & T1 & _); try reflexivity; try (cbn; lia).
  { constructor; [lra|]. constructor; [lra|constructor]. }
  { exact exl_wf. }
  { apply perfect_solve_length. }
  exists (mkNlo o1 ex_par [] (Some 2%nat) [] info_new). split.
  { exists [], [1 / 20; 2], [], (nl_new 1 ex_par). eexists. split; [reflexivity|]. split.
    - unfold nl_setupFromVertices. cbn [nl_new nl_opt]. rewrite H1. reflexivity.
    - split; [constructor|reflexivity]. }
  split.
  { intros steps lower upper x j El Hj Hlt. unfold refusing.
    destruct (forallb _ _) eqn:Ef; [exfalso|eauto]. rewrite forallb_forall in Ef.
    specialize (Ef (nth j lower 0, nth j x 0)). rewrite <- (combine_nth _ _ _ _ _ El) in Ef.
    specialize (Ef (nth_In (combine lower x) (0, 0) ltac:(rewrite combine_length, El, Nat.min_id; exact Hj))). rewrite combine_nth in Ef by exact El. cbn [fst snd] in Ef.
    destruct (Rltb_spec (nth j x 0) (nth j lower 0)); [|discriminate]. destruct (Rleb_spec (nth j lower 0) (nth j x 0)); [lra|discriminate]. }
  cbn [nl_nlopt nl_par nl_opt ex_par np_method]. rewrite T1. split; [reflexivity|]. split; [reflexivity|]. split; [cbn; lia|].
  cbn [nth]. unfold nlit. rnum. destruct (Rltb_spec (1 / 20) (1 / 10)); [reflexivity|lra].
Qed.
