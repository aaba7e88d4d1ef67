(** C45: scaling the times of a rest-to-rest problem meets the limits. *)
From Coq Require Import ZArith Reals List Bool Lia Lra Arith.
From Coquelicot Require Import Coquelicot.
From Verif Require Import Num RSum SpecPoly ModelPolynomial ModelSegment ModelVertex ModelTrajectory ModelLinear
  SpecSegment SpecVertex SpecTrajectory SpecLinear ProofPolynomial ProofSegment ProofSegment2 ProofVertex ProofTrajectory ProofTrajectory3
  ProofTrajectory4 ProofRoots ProofMatrix ProofHermite ProofReorder ProofLinear ProofLinear2 ProofLinear3 ProofLinear4 ProofLinear5 ProofLinear6 ProofLinear7
  PropLinear PropLinear2 PropLinear4 PropTrajectory2
  ModelNonlinear SpecNonlinear ProofNonlinear ProofNonlinear2 ProofNonlinear3 ProofNonlinear4 ProofNonlinear5 ProofNonlinear6 ProofNonlinear7
  PropNonlinear PropNonlinear2 PropNonlinear3 PropNonlinear4.
Import ListNotations.
Open Scope R_scope.

Lemma slow_peak dim d c segs segs' V : 0 < c -> length segs' = length segs ->
  (forall i, (i < length segs)%nat -> seg_time (nth i segs' no_seg) = seg_time (nth i segs no_seg) * c) ->
  (forall i k t, (i < length segs)%nat -> (k < dim)%nat -> seg_fun (nth i segs' no_seg) k d (t * c) = seg_fun (nth i segs no_seg) k d t / c ^ d) ->
  is_peak dim d segs V -> is_peak dim d segs' (V / c ^ d).
Proof.
  intros Hc Hl Ht Hf (H1 & j & t & Hj & Htj & E). assert (P : 0 < c ^ d) by (apply pow_lt, Hc).
  assert (N : forall i x, (i < length segs)%nat -> sqrt (rsum dim (fun k => seg_fun (nth i segs' no_seg) k d (x * c) ^ 2)) =
    sqrt (rsum dim (fun k => seg_fun (nth i segs no_seg) k d x ^ 2)) / c ^ d).
  { intros i x Hi. rewrite (rsum_ext dim _ (fun k => seg_fun (nth i segs no_seg) k d x ^ 2 * / (c ^ d * c ^ d))).
    2: { intros k Hk. rewrite Hf by assumption. field. lra. }
    rewrite rsum_scal_r. rewrite sqrt_mult_alt by (apply rsum_nonneg; intros; apply pow2_ge_0). unfold Rdiv. f_equal.
    rewrite Rinv_mult, sqrt_square; [reflexivity|apply Rlt_le, Rinv_0_lt_compat, P]. }
  split.
  - intros i x Hi Hx. rewrite Hl in Hi. rewrite Ht in Hx by exact Hi. replace x with (x / c * c) by (field; lra). rewrite N by exact Hi.
    apply Rmult_le_compat_r; [apply Rlt_le, Rinv_0_lt_compat, P|]. apply H1; [exact Hi|]. split.
    + apply Rmult_le_pos; [lra|apply Rlt_le, Rinv_0_lt_compat, Hc].
    + apply Rmult_le_reg_r with c; [exact Hc|]. replace (x / c * c) with x by (field; lra). lra.
  - exists j, (t * c). rewrite Hl, Ht by exact Hj. split; [exact Hj|]. split; [split; [apply Rmult_le_pos; lra|apply Rmult_le_compat_r; lra]|].
    rewrite N, <- E by exact Hj. reflexivity.
Qed.

(** The limits hold after the scaling if the segments are those of solveLinear, every
    derivative a vertex prescribes is zero, and the first vertex prescribes the
    position and all derivatives below the one that is minimised. *)
Theorem C45_rest_to_rest (h : nat) (inv : mat R -> mat R) (solve : mat R -> list R -> list R)
        (rf : list R -> bool * list (R * R)) (dim : nat) (vs : list (vertex R)) (r : Z) (o : opt R) (n : nlo R) (v a V A : R) :
  perfect_root_finder rf -> inverse_ok h inv -> solver_ok solve -> (forall A b, length (solve A b) = length b) ->
  List.Forall vertex_wf vs -> (0 < dim)%nat -> (2 <= length vs)%nat -> (2 <= h)%nat ->
  set_up h inv solve dim vs r o -> opt_solveLinear h solve o = Ok (nl_opt n) ->
  List.Forall (fun t => / 2 ^ 52 <= t) (o_times (nl_opt n)) ->
  at_rest h vs -> (forall k, (0 <= k < r)%Z -> vertex_get (nth 0 vs no_vertex) k <> None) ->
  last_limit (nl_con n) kVelocity = Some v -> last_limit (nl_con n) kAcceleration = Some a -> 0 < v -> 0 < a ->
  is_peak dim 1 (o_segments (nl_opt n)) V -> is_peak dim 2 (o_segments (nl_opt n)) A ->
  exists n' s, nl_scaleWithViolation h inv solve rf n = Ok n' /\ 1 <= s /\
    o_times (nl_opt n') = map (fun t => t * s) (o_times (nl_opt n)) /\
    length (o_segments (nl_opt n')) = length (o_segments (nl_opt n)) /\
    (forall i d k t, (i < length (o_segments (nl_opt n)))%nat -> (d < dim)%nat ->
       seg_fun (nth i (o_segments (nl_opt n')) no_seg) d k (t * s) = seg_fun (nth i (o_segments (nl_opt n)) no_seg) d k t / s ^ k) /\
    is_peak dim 1 (o_segments (nl_opt n')) (V / s) /\ V / s <= (1 + 1 / 1000) * v /\
    is_peak dim 2 (o_segments (nl_opt n')) (A / s ^ 2) /\ A / s ^ 2 <= (1 + 1 / 1000) * a.
Proof.
  intros Hrf Hinv Hso Hsol Hwf Hd Hl Hh S0 E0 T0 HR HF Lv La Hv Ha PV PA.
  assert (Cm : computed h inv solve dim vs r (nl_opt n)) by (exists o, CallSolve; split; [exact S0|split; [exact I|exact E0]]).
  destruct (C45_times_scaled h inv solve rf dim vs r n v a V A Hrf Hsol Hwf Hd Hl Hh Cm Lv La Hv Ha PV PA) as (B1 & B2 & B3 & n' & E & T' & Hr & _).
  revert B1 B2 B3 T' Hr. match goal with |- 1 <= ?x -> _ => generalize x end. intros s B1 B2 B3 T' Hr. exists n', s. split; [exact E|]. split; [exact B1|]. split; [exact T'|].
  cbn [run_ocalls run_ocall] in Hr.
  destruct (opt_updateSegmentTimes h inv (nl_opt n) (map (fun t => t * s) (o_times (nl_opt n)))) as [oa| | |] eqn:E1; cbn [obind] in Hr; try discriminate.
  destruct (opt_solveLinear h solve oa) as [ob| | |] eqn:E2; cbn [obind] in Hr; try discriminate. apply Ok_inj in Hr. subst ob.
  assert (Sa : set_up h inv solve dim vs r oa).
  { apply (by_set_up h inv solve any_call dim vs r o oa S0).
    right. exists [CallSolve], (CallTimes (map (fun t => t * s) (o_times (nl_opt n)))). split; [constructor; [exact I|constructor]|]. split; [exact I|]. split; [exact I|].
    cbn [app run_ocalls run_ocall]. rewrite E0. cbn [obind run_ocall]. rewrite E1. reflexivity. }
  assert (T1 : List.Forall (fun t => / 2 ^ 52 <= t) (o_times (nl_opt n'))).
  { rewrite T'. apply List.Forall_map. eapply List.Forall_impl; [|exact T0]. cbn beta. intros t Hp.
    assert (0 < / 2 ^ 52) by (apply Rinv_0_lt_compat, pow_lt; lra). apply Rle_trans with (t * 1); [lra|apply Rmult_le_compat_l; lra]. }
  destruct (C73_time_scaling h inv solve dim vs r o (nl_opt n) oa (nl_opt n') s Hinv Hso Hwf Hd ltac:(lra) S0 E0 Sa E2 T' T0 T1 HR HF) as (L & F).
  split; [exact L|]. split; [exact F|].
  destruct (C31_constraints_met h inv solve dim vs r o (nl_opt n) CallSolve Hinv Hwf Hd S0 I E0 T0) as ((L1 & H1) & _).
  destruct (C31_constraints_met h inv solve dim vs r oa (nl_opt n') CallSolve Hinv Hwf Hd Sa I E2 T1) as ((L2 & H2) & _).
  assert (Ht : forall i, (i < length (o_segments (nl_opt n)))%nat ->
    seg_time (nth i (o_segments (nl_opt n')) no_seg) = seg_time (nth i (o_segments (nl_opt n)) no_seg) * s).
  { intros i Hi. destruct (H1 i ltac:(lia)) as (-> & _). destruct (H2 i ltac:(lia)) as (-> & _). rewrite T'.
    rewrite (nth_map_lt _ _ _ 0) by lia. reflexivity. }
  split. { replace (V / s) with (V / s ^ 1) by (f_equal; apply pow_1). apply (slow_peak dim 1 s _ _ V ltac:(lra) L Ht); [intros; apply F; assumption|exact PV]. }
  split; [exact B2|]. split; [|exact B3]. apply (slow_peak dim 2 s _ _ A ltac:(lra) L Ht); [intros; apply F; assumption|exact PA].
Qed.
Print Assumptions C45_rest_to_rest.

(** One segment of one second from position 0 to 1, at rest at both ends: the
    velocity 6 t - 6 t^2 reaches 3/2, the acceleration 6; the limits are 1 and 100. *)
Definition rr_vs : list (vertex R) := [mkVertex 1 [(0%Z, [0]); (1%Z, [0])]; mkVertex 1 [(0%Z, [1]); (1%Z, [0])]].
Lemma rr_wf : List.Forall (fun v => vertex_wf v /\ v_D v = 1%nat) rr_vs.
Proof. repeat constructor. Qed.
Lemma rr_wf' : List.Forall vertex_wf rr_vs.
Proof. eapply List.Forall_impl; [|exact rr_wf]. intros v H. apply H. Qed.
Lemma rr_rest : at_rest 2 rr_vs.
Proof.
  intros i k x d Hk G. replace k with 1%nat in G by lia. destruct i as [|[|[|i]]]; cbn in G; try discriminate; apply Some_inj in G; subst x; destruct d as [|[|d]]; reflexivity.
Qed.
Example C45_rest_to_rest_example : exists o n,
  perfect_root_finder perfect_rf /\ inverse_ok 2 (perfect_inv 2) /\ solver_ok perfect_solve /\ (forall A b, length (perfect_solve A b) = length b) /\
  List.Forall vertex_wf rr_vs /\
  set_up 2 (perfect_inv 2) perfect_solve 1 rr_vs 1 o /\ opt_solveLinear 2 perfect_solve o = Ok (nl_opt n) /\
  List.Forall (fun t => / 2 ^ 52 <= t) (o_times (nl_opt n)) /\ at_rest 2 rr_vs /\
  (forall k, (0 <= k < 1)%Z -> vertex_get (nth 0 rr_vs no_vertex) k <> None) /\
  last_limit (nl_con n) kVelocity = Some 1 /\ last_limit (nl_con n) kAcceleration = Some 100 /\
  is_peak 1 1 (o_segments (nl_opt n)) (3 / 2) /\ is_peak 1 2 (o_segments (nl_opt n)) 6.
Proof.
  destruct (C31_setup_and_solve_succeed 2 (perfect_inv 2) perfect_solve 1 rr_vs [1] 1 [] (opt_new 1))
    as (o1 & H1 & T1 & H2); [lia|lia|cbn; lia|reflexivity|constructor; [lra|constructor]|exact rr_wf|exact perfect_solve_length|reflexivity|].
  destruct (H2 (or_introl eq_refl)) as (o2 & E2 & T2). exists o1, (ex_nl o2 [(1%Z, 1); (2%Z, 100)]). cbn [ex_nl nl_con nl_opt].
  assert (Hs : set_up 2 (perfect_inv 2) perfect_solve 1 rr_vs 1 o1) by (exists [], [1], [], (opt_new 1), o1; split; [reflexivity|]; split; [exact H1|]; split; [constructor|reflexivity]).
  assert (HT : List.Forall (fun t => / 2 ^ 52 <= t) (o_times o2)).
  { rewrite T2. constructor; [|constructor]. rewrite <- Rinv_1. apply Rinv_le_contravar; lra. }
  split; [exact perfect_rf_ok|]. split; [apply perfect_inv_ok|]. split; [apply perfect_solve_ok|]. split; [exact perfect_solve_length|]. split; [exact rr_wf'|].
  split; [exact Hs|]. split; [exact E2|]. split; [exact HT|]. split; [exact rr_rest|]. split; [intros k Hk; replace k with 0%Z by lia; discriminate|].
  split; [reflexivity|]. split; [reflexivity|].
  destruct (C31_constraints_met 2 (perfect_inv 2) perfect_solve 1 rr_vs 1 o1 o2 CallSolve (perfect_inv_ok 2) rr_wf' ltac:(lia) Hs I E2 HT) as ((Hl & Hsh) & HM).
  rewrite T2 in Hl, Hsh. destruct (o_segments o2) as [|s [|]] eqn:Es; try discriminate.
  destruct (Hsh 0%nat ltac:(cbn; lia)) as (ET & EN & ED & Hw). cbn [nth] in *.
  destruct (cubic s EN ED Hw) as (c0 & c1 & c2 & c3 & F0 & F1 & F2).
  destruct (HM 0%nat 0%nat [0] 0%nat ltac:(cbn; lia) ltac:(lia) ltac:(lia) eq_refl) as (A1 & _). specialize (A1 ltac:(cbn; lia)).
  destruct (HM 0%nat 1%nat [0] 0%nat ltac:(cbn; lia) ltac:(lia) ltac:(lia) eq_refl) as (A2 & _). specialize (A2 ltac:(cbn; lia)).
  destruct (HM 1%nat 0%nat [1] 0%nat ltac:(cbn; lia) ltac:(lia) ltac:(lia) eq_refl) as (_ & A3). specialize (A3 ltac:(lia)).
  destruct (HM 1%nat 1%nat [0] 0%nat ltac:(cbn; lia) ltac:(lia) ltac:(lia) eq_refl) as (_ & A4). specialize (A4 ltac:(lia)).
  cbn [nth Nat.sub] in A1, A2, A3, A4. rewrite ET in A3, A4. rewrite F0 in A1, A3. rewrite F1 in A2, A4.
  assert (C0 : c0 = 0) by lra. assert (C1 : c1 = 0) by lra. assert (C3 : c3 = -2) by lra. assert (C2 : c2 = 3) by lra. subst c0 c1 c2 c3.
  assert (Sq : forall x y, 0 <= y -> - y <= x <= y -> sqrt (0 + x ^ 2) <= y).
  { intros x y Hy Hx. rewrite <- (sqrt_square y) by lra. apply sqrt_le_1_alt. nra. }
  split; split.
  - intros [|j] t Hj Ht; [|cbn in Hj; lia]. cbn [nth] in *. rewrite ET in Ht. cbn [rsum]. apply Sq; [lra|]. rewrite F1.
    assert (0 <= t * (1 - t)) by (apply Rmult_le_pos; lra). assert (0 <= (t - 1 / 2) ^ 2) by apply pow2_ge_0. split; lra.
  - exists 0%nat, (1 / 2). cbn [nth length]. split; [lia|]. split; [rewrite ET; lra|]. cbn [rsum]. rewrite F1.
    replace (0 + _) with (3 / 2 * (3 / 2)) by field. rewrite sqrt_square; lra.
  - intros [|j] t Hj Ht; [|cbn in Hj; lia]. cbn [nth] in *. rewrite ET in Ht. cbn [rsum]. apply Sq; [lra|]. rewrite F2. lra.
  - exists 0%nat, 0. cbn [nth length]. split; [lia|]. split; [rewrite ET; lra|]. cbn [rsum]. rewrite F2.
    replace (0 + _) with (6 * 6) by field. rewrite sqrt_square; lra.
Qed.
