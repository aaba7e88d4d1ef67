(** Properties C31-C38: the linear (closed-form) optimiser. *)
From Coq Require Import ZArith Reals List Bool Lia Lra Arith Sorted.
From Coquelicot Require Import Coquelicot.
From Verif Require Import Num RSum SpecPoly ModelPolynomial ModelSegment ModelVertex ModelTrajectory ModelLinear
  SpecSegment SpecVertex SpecLinear ProofPolynomial ProofPolynomial2 ProofSegment ProofSegment2 ProofVertex ProofTrajectory3
  ProofRoots ProofMatrix ProofHermite ProofReorder ProofLinear ProofLinear2 ProofLinear3 ProofLinear4 ProofLinear5
  ProofLinear6 ProofLinear7.
Import ListNotations.
Open Scope R_scope.

(** ** Common facts about reachable objects *)
Section Reach.
  Context (h : nat) (inv : mat R -> mat R) (solve : mat R -> list R -> list R).

  Lemma set_up_prepared dim vs r o : List.Forall vertex_wf vs -> set_up h inv solve dim vs r o ->
    prepared h inv vs o /\ o_dim o = dim /\ o_deriv o = r.
  Proof.
    intros Hwf (pre & times & mid & o0 & o1 & H0 & H1 & Hm & H2).
    destruct (reached_shaped h inv solve dim pre o0 H0) as (Sh & Hd).
    destruct (setup_prepared h inv vs o0 times r o1 Hwf Sh H1) as (P1 & _ & D1 & _ & R1).
    destruct (runs_prepared h inv solve vs mid o1 o Hm P1 H2) as (P2 & R2 & D2).
    split; [exact P2|]. split; congruence.
  Qed.

  Lemma computed_prepared dim vs r o c o' : List.Forall vertex_wf vs -> set_up h inv solve dim vs r o ->
    computes_segments c -> run_ocall h inv solve o c = Ok o' ->
    prepared h inv vs o' /\ synced h o' /\ o_dim o' = dim /\ o_deriv o' = r.
  Proof.
    intros Hwf (pre & times & mid & o0 & o1 & H0 & H1 & Hm & H2) Hc H3.
    destruct (history_prepared h inv solve dim pre vs times r mid c o0 o1 o o' Hwf H0 H1 Hm H2 Hc H3) as (A & B & C & D & _).
    tauto.
  Qed.

  Lemma prepared_times_pos vs o : prepared h inv vs o -> List.Forall (fun t => 0 < t) (o_times o).
  Proof.
    intros P. apply List.Forall_forall. intros t Ht. destruct (In_nth _ _ 0 Ht) as (i & Hi & <-).
    rewrite (pr_times _ _ _ _ P) in Hi. destruct (prepared_mats h inv vs o i P Hi) as (_ & _ & _ & _ & Hp & _). exact Hp.
  Qed.
End Reach.

(** The example problem: N = 4, one dimension, minimise velocity; start and end
    at rest, the velocity at the middle vertex is free. *)
Definition exl_vs : list (vertex R) :=
  [mkVertex 1 [(0%Z, [0]); (1%Z, [0])]; mkVertex 1 [(0%Z, [1])]; mkVertex 1 [(0%Z, [3]); (1%Z, [0])]].
Definition exl_times : list R := [1; 2].
Lemma exl_wf : List.Forall (fun v => vertex_wf v /\ v_D v = 1%nat) exl_vs.
Proof. repeat constructor. Qed.
Lemma exl_wf' : List.Forall vertex_wf exl_vs.
Proof. eapply List.Forall_impl; [|exact exl_wf]. intros v H. apply H. Qed.

(** ** C31: the optimised trajectory meets every vertex constraint *)
Theorem C31_constraints_met (h : nat) (inv : mat R -> mat R) (solve : mat R -> list R -> list R)
        (dim : nat) (vs : list (vertex R)) (r : Z) (o o' : opt R) (c : ocall R) :
  inverse_ok h inv -> List.Forall vertex_wf vs -> (0 < dim)%nat ->
  set_up h inv solve dim vs r o ->
  computes_segments c -> run_ocall h inv solve o c = Ok o' ->
  List.Forall (fun t => / 2 ^ 52 <= t) (o_times o') ->
  chain_shape (2 * h) dim (o_times o') (o_segments o') /\
  meets_constraints h dim vs (o_segments o').
Proof.
  intros Hinv Hwf Hd Hs Hc Hr Ht.
  destruct (computed_prepared h inv solve dim vs r o c o' Hwf Hs Hc Hr) as (P & S & Ed & _). rewrite <- Ed. split.
  - rewrite (synced_chain h inv vs o' P S) by lia. apply (chain_of_shape_R h inv vs). exact P.
  - apply (synced_constraints h inv vs); assumption.
Qed.
Print Assumptions C31_constraints_met.

(** setupFromVertices and solveLinear succeed on a new object for every valid
    problem; on a used object solveLinear succeeds if something is free. *)
Theorem C31_setup_and_solve_succeed (h : nat) (inv : mat R -> mat R) (solve : mat R -> list R -> list R)
        (dim : nat) (vs : list (vertex R)) (times : list R) (r : Z) (pre : list (ocall R)) (o : opt R) :
  (0 < h <= 11)%nat -> (0 <= r <= Z.of_nat h - 1)%Z -> (1 <= length times)%nat ->
  length vs = (length times + 1)%nat -> List.Forall (fun t => 0 < t) times ->
  List.Forall (fun v => vertex_wf v /\ v_D v = dim) vs ->
  (forall A b, length (solve A b) = length b) ->
  run_ocalls h inv solve (opt_new dim) pre = Ok o ->
  exists o1, opt_setupFromVertices h inv o vs times r = Ok o1 /\ o_times o1 = times /\
    ((pre = [] \/ (0 < o_nfree o1)%nat) -> exists o2, opt_solveLinear h solve o1 = Ok o2 /\ o_times o2 = times).
Proof.
  intros Hh Hr Hl Hlv Ht Hv Hsol H0. destruct (reached_shaped h inv solve dim pre o H0) as (Sh & Ed).
  assert (Hwf : List.Forall vertex_wf vs) by (eapply List.Forall_impl; [|exact Hv]; intros v Hx; apply Hx).
  rewrite <- Ed in Hv. destruct (setup_ok h inv o vs times r Sh Hh Hr Hlv Ht Hv) as (o1 & H1). exists o1. split; [exact H1|].
  destruct (setup_prepared h inv vs o times r o1 Hwf Sh H1) as (P1 & T1 & D1 & F1 & _). split; [exact T1|].
  assert (Hn : (0 < o_nseg o1)%nat) by (assert (X := pr_nseg _ _ _ _ P1); lia).
  intros Hc. destruct (solve_ok h inv solve vs o1 Hsol P1 Hn) as (o2 & H2).
  - destruct (Nat.eq_dec (o_nfree o1) 0) as [Ez|Ez]; [|left; lia]. right.
    destruct Hc as [->|Hc]; [|lia]. cbn [run_ocalls] in H0. apply Ok_inj in H0. subst o.
    intros d Hd. rewrite F1, Ez. cbn [opt_new o_free]. rewrite D1 in Hd. cbn [opt_new o_dim] in Hd.
    rewrite nth_repeat. reflexivity.
  - exists o2. split; [exact H2|]. destruct (solve_prepared h inv solve vs o1 o2 P1 H2) as (_ & _ & T2). congruence.
Qed.
Print Assumptions C31_setup_and_solve_succeed.

Lemma exl_solved : exists o1 o2,
  set_up 2 (perfect_inv 2) perfect_solve 1 exl_vs 1 o1 /\
  opt_solveLinear 2 perfect_solve o1 = Ok o2 /\
  o_times o1 = exl_times /\ o_times o2 = exl_times.
Proof.
  destruct (C31_setup_and_solve_succeed 2 (perfect_inv 2) perfect_solve 1 exl_vs exl_times 1 [] (opt_new 1))
    as (o1 & H1 & T1 & H2).
  - lia.
  - lia.
  - cbn; lia.
  - reflexivity.
  - repeat constructor; lra.
  - exact exl_wf.
  - apply perfect_solve_length.
  - reflexivity.
  - destruct H2 as (o2 & H2 & T2); [left; reflexivity|]. exists o1, o2. split; [|tauto].
    exists [], exl_times, [], (opt_new 1), o1. split; [reflexivity|]. split; [exact H1|]. split; [constructor|reflexivity].
Qed.
Lemma exl_times_ok : List.Forall (fun t => / 2 ^ 52 <= t) exl_times.
Proof.
  assert (H : / 2 ^ 52 <= 1) by (rewrite <- Rinv_1; apply Rinv_le_contravar; lra).
  constructor; [exact H|]. constructor; [lra|constructor].
Qed.

Example C31_example : exists o1 o2,
  inverse_ok 2 (perfect_inv 2) /\ List.Forall vertex_wf exl_vs /\
  set_up 2 (perfect_inv 2) perfect_solve 1 exl_vs 1 o1 /\
  computes_segments (@CallSolve R) /\ run_ocall 2 (perfect_inv 2) perfect_solve o1 CallSolve = Ok o2 /\
  List.Forall (fun t => / 2 ^ 52 <= t) (o_times o2) /\
  (* consequences for the example *)
  seg_fun (nth 0 (o_segments o2) no_seg) 0 0 1 = 1 /\ seg_fun (nth 1 (o_segments o2) no_seg) 0 1 2 = 0.
Proof.
  destruct exl_solved as (o1 & o2 & S & H & T1 & T2). exists o1, o2.
  split; [apply perfect_inv_ok|]. split; [exact exl_wf'|]. split; [exact S|]. split; [exact I|]. split; [exact H|].
  assert (Ht : List.Forall (fun t => / 2 ^ 52 <= t) (o_times o2)) by (rewrite T2; exact exl_times_ok). split; [exact Ht|].
  destruct (C31_constraints_met 2 (perfect_inv 2) perfect_solve 1 exl_vs 1 o1 o2 CallSolve (perfect_inv_ok 2) exl_wf'
    ltac:(lia) S I H Ht) as ((Hl & Hsh) & HM). rewrite T2 in Hl, Hsh.
  destruct (Hsh 0%nat) as (E0 & _); [cbn; lia|]. destruct (Hsh 1%nat) as (E1 & _); [cbn; lia|]. cbn [exl_times nth] in E0, E1.
  split.
  - destruct (HM 1%nat 0%nat [1] 0%nat) as (_ & X); [cbn; lia|lia|lia|reflexivity|]. specialize (X ltac:(lia)).
    cbn [Nat.sub] in X. rewrite E0 in X. exact X.
  - destruct (HM 2%nat 1%nat [0] 0%nat) as (_ & X); [cbn; lia|lia|lia|reflexivity|]. specialize (X ltac:(lia)).
    cbn [Nat.sub] in X. rewrite E1 in X. exact X.
Qed.

(** ** C32: continuity up to derivative N/2-1 *)
Theorem C32_continuous (h : nat) (inv : mat R -> mat R) (solve : mat R -> list R -> list R)
        (dim : nat) (vs : list (vertex R)) (r : Z) (o o' : opt R) (c : ocall R) :
  inverse_ok h inv -> List.Forall vertex_wf vs -> (0 < dim)%nat ->
  set_up h inv solve dim vs r o ->
  computes_segments c -> run_ocall h inv solve o c = Ok o' ->
  List.Forall (fun t => / 2 ^ 52 <= t) (o_times o') ->
  smooth_chain h dim (o_segments o').
Proof.
  intros Hinv Hwf Hd Hs Hc Hr Ht.
  destruct (computed_prepared h inv solve dim vs r o c o' Hwf Hs Hc Hr) as (P & S & Ed & _). rewrite <- Ed.
  apply (synced_smooth h inv vs); assumption.
Qed.
Print Assumptions C32_continuous.

(** Any free values of the right sizes are accepted. *)
Theorem C32_any_free_values (h : nat) (inv : mat R -> mat R) (solve : mat R -> list R -> list R)
        (dim : nat) (vs : list (vertex R)) (r : Z) (o : opt R) (free : list (list R)) :
  List.Forall vertex_wf vs -> set_up h inv solve dim vs r o ->
  length free = dim -> List.Forall (fun f => length f = o_nfree o) free ->
  exists o', opt_setFreeConstraints h o free = Ok o' /\ o_times o' = o_times o /\ o_free o' = free.
Proof.
  intros Hwf Hs Hl Hf. destruct (set_up_prepared h inv solve dim vs r o Hwf Hs) as (P & Ed & _).
  assert (E : exists o', opt_setFreeConstraints h o free = Ok o').
  { unfold opt_setFreeConstraints.
    replace (Nat.eqb (length free) (o_dim o)) with true by (symmetry; apply Nat.eqb_eq; congruence). cbn [negb].
    replace (forallb _ free) with true.
    2:{ symmetry. apply forallb_forall. intros f Hi. rewrite List.Forall_forall in Hf. apply Nat.eqb_eq. apply Hf. exact Hi. }
    cbn [negb]. assert (P' : prepared h inv vs (with_free o free)) by (apply with_free_prepared; congruence).
    fold (with_free o free). rewrite updateSegments_ok; [eauto|exact (prepared_shaped h inv vs _ P')|exact (prepared_sized h inv vs _ P')|].
    intros d Hd'. cbn [with_free o_free o_nfree o_dim] in *. rewrite List.Forall_forall in Hf. apply Hf. apply nth_In. lia. }
  destruct E as (o' & E). exists o'. split; [exact E|].
  destruct (setFree_prepared h inv vs o free o' P E) as (_ & _ & T & F). split; assumption.
Qed.
Print Assumptions C32_any_free_values.

Lemma exl_free : exists o1 o2, set_up 2 (perfect_inv 2) perfect_solve 1 exl_vs 1 o1 /\ o_times o1 = exl_times /\
  (0 < o_nfree o1)%nat /\ opt_solveLinear 2 perfect_solve o1 = Ok o2 /\ o_times o2 = exl_times.
Proof.
  destruct exl_solved as (o1 & o2 & S & H & T1 & T2). exists o1, o2. split; [exact S|]. split; [exact T1|]. split; [|tauto].
  destruct (set_up_prepared 2 (perfect_inv 2) perfect_solve 1 exl_vs 1 o1 exl_wf' S) as (P & Ed & _).
  assert (Hn := pr_nseg _ _ _ _ P). cbn in Hn.
  destruct (bookkeeping 2 (perfect_inv 2) exl_vs o1 P ltac:(lia)) as (ks & L & _ & _ & _ & _ & I2 & _).
  assert (Hin : In (1%nat, 1%nat) (skipn (o_nfixed o1) ks)).
  { apply I2. split; [cbn; lia|]. split; [lia|reflexivity]. }
  destruct (skipn (o_nfixed o1) ks) as [|x l] eqn:E; [destruct Hin|].
  apply (f_equal (@length _)) in E. rewrite skipn_length in E. cbn in E. lia.
Qed.

Example C32_example : exists o1 o2 v, v <> 0 /\
  inverse_ok 2 (perfect_inv 2) /\ List.Forall vertex_wf exl_vs /\
  set_up 2 (perfect_inv 2) perfect_solve 1 exl_vs 1 o1 /\ (0 < o_nfree o1)%nat /\
  length [repeat v (o_nfree o1)] = 1%nat /\ List.Forall (fun f => length f = o_nfree o1) [repeat v (o_nfree o1)] /\
  run_ocall 2 (perfect_inv 2) perfect_solve o1 (CallFree [repeat v (o_nfree o1)]) = Ok o2 /\
  List.Forall (fun t => / 2 ^ 52 <= t) (o_times o2) /\ length (o_segments o2) = 2%nat.
Proof.
  destruct exl_free as (o1 & _ & S & T1 & Hf & _).
  destruct (C32_any_free_values 2 (perfect_inv 2) perfect_solve 1 exl_vs 1 o1 [repeat 5 (o_nfree o1)] exl_wf' S eq_refl)
    as (o2 & H & T2 & _). { constructor; [apply repeat_length|constructor]. }
  exists o1, o2, 5. split; [lra|]. split; [apply perfect_inv_ok|]. split; [exact exl_wf'|]. split; [exact S|]. split; [exact Hf|].
  split; [reflexivity|]. split; [constructor; [apply repeat_length|constructor]|]. split; [exact H|].
  assert (Ht : List.Forall (fun t => / 2 ^ 52 <= t) (o_times o2)) by (rewrite T2, T1; exact exl_times_ok).
  split; [exact Ht|].
  destruct (C31_constraints_met 2 (perfect_inv 2) perfect_solve 1 exl_vs 1 o1 o2 _ (perfect_inv_ok 2) exl_wf'
    ltac:(lia) S (I : computes_segments (CallFree [repeat 5 (o_nfree o1)])) H Ht) as ((Hl & _) & _).
  rewrite Hl, T2, T1. reflexivity.
Qed.

(** ** C33: computeCost is the integral of the squared derivative *)
Theorem C33_cost_is_integral (h : nat) (inv : mat R -> mat R) (solve : mat R -> list R -> list R)
        (dim : nat) (vs : list (vertex R)) (r : Z) (o o' : opt R) (c : ocall R) :
  List.Forall vertex_wf vs -> (0 < dim)%nat ->
  set_up h inv solve dim vs r o ->
  computes_segments c -> run_ocall h inv solve o c = Ok o' ->
  opt_computeCost h o' = Ok (integral_cost (Z.to_nat r) dim (o_segments o')) /\
  0 <= integral_cost (Z.to_nat r) dim (o_segments o').
Proof.
  intros Hwf Hd Hs Hc Hr.
  destruct (computed_prepared h inv solve dim vs r o c o' Hwf Hs Hc Hr) as (P & S & Ed & Er). rewrite <- Ed, <- Er.
  assert (Hp := prepared_times_pos h inv vs o' P).
  assert (CS := chain_of_shape_R h inv vs o' P). rewrite <- (synced_chain h inv vs o' P S) in CS by lia.
  destruct CS as (Hl & Hsh). split.
  - apply (compute_cost_integral h inv vs); [exact P|]. intros i Hi. apply Hsh. rewrite (pr_times _ _ _ _ P). exact Hi.
  - apply integral_cost_nonneg. apply List.Forall_forall. intros s Hi. destruct (In_nth _ _ no_seg Hi) as (i & Hi' & <-).
    rewrite Hl in Hi'. rewrite (proj1 (Hsh i Hi')). rewrite List.Forall_forall in Hp. apply Rlt_le. apply Hp. apply nth_In. exact Hi'.
Qed.
Print Assumptions C33_cost_is_integral.

Example C33_example : exists o1 o2, List.Forall vertex_wf exl_vs /\
  set_up 2 (perfect_inv 2) perfect_solve 1 exl_vs 1 o1 /\ computes_segments (@CallSolve R) /\
  run_ocall 2 (perfect_inv 2) perfect_solve o1 CallSolve = Ok o2.
Proof.
  destruct exl_solved as (o1 & o2 & S & H & _). exists o1, o2. split; [exact exl_wf'|]. split; [exact S|]. split; [exact I|exact H].
Qed.

(** Without recomputing the segments, computeCost integrates the stored
    polynomials over the times of the last updateSegmentTimes. *)
Theorem C33_cost_general (h : nat) (inv : mat R -> mat R) (solve : mat R -> list R -> list R)
        (dim : nat) (vs : list (vertex R)) (r : Z) (o : opt R) :
  List.Forall vertex_wf vs -> set_up h inv solve dim vs r o ->
  opt_computeCost h o = Ok (rsum (length (o_segments o)) (fun i => rsum dim (fun d =>
    RInt (fun t => seg_fun (nth i (o_segments o) no_seg) d (Z.to_nat r) t ^ 2) 0 (nth i (o_times o) 0)))).
Proof.
  intros Hwf Hs. destruct (set_up_prepared h inv solve dim vs r o Hwf Hs) as (P & <- & <-).
  destruct (pr_shape _ _ _ _ P) as (L1 & Hsh). destruct (pr_mats _ _ _ _ P) as (ms & Em & Ei & Ec).
  assert (L2 : length (o_cost o) = o_nseg o).
  { rewrite Ec, map_length, (omap_length _ _ _ Em). apply (pr_times _ _ _ _ P). }
  rewrite L1. destruct (Nat.eq_dec (o_nseg o) 0) as [H0|H0].
  { unfold opt_computeCost. rewrite L1, L2, Nat.eqb_refl, H0. cbn [andb negb seq ofold obind rsum].
    f_equal. unfold nlit, n0. rnum. field. }
  assert (Hh := prepared_h h inv vs o 0 P ltac:(lia)).
  rewrite cost_loop by (try assumption; lia). f_equal.
  rewrite <- rsum_scal. apply rsum_ext. intros i Hi. rewrite <- rsum_scal. apply rsum_ext. intros d Hd.
  assert (Hsi : seg_shape h (o_dim o) (nth i (o_segments o) no_seg)).
  { rewrite List.Forall_forall in Hsh. apply Hsh. apply nth_In. lia. }
  destruct Hsi as (EN & ED & Hw).
  assert (E := seg_cost_bil (mkSegment (2 * h) (seg_polys (nth i (o_segments o) no_seg)) (nth i (o_times o) 0)) d
                 (Z.to_nat (o_deriv o)) (2 * h)).
  cbn [seg_time seg_polys] in E. unfold seg_fun in E |- *. cbn [seg_polys] in E. rewrite E.
  2:{ rewrite <- EN. apply seg_wf_nth; [exact Hw|lia]. }
  f_equal. destruct (prepared_mats h inv vs o i P Hi) as (Q & A & EQ & _ & _ & EC & _).
  rewrite EC. apply bil_ext. apply (cost_matrix_ok h _ _ _ EQ).
Qed.
Print Assumptions C33_cost_general.

(** Hence after updateSegmentTimes alone computeCost is not the cost of the
    segments held by the object: a constant trajectory of value 1 and duration 1
    (cost 1) is reported with cost 2 after updateSegmentTimes({2}). *)
Definition exc_vs : list (vertex R) := [mkVertex 1 [(0%Z, [1])]; mkVertex 1 [(0%Z, [1])]].
Theorem C33_stale_times_refuted : exists (inv : mat R -> mat R) (solve : mat R -> list R -> list R) (o o' : opt R),
  inverse_ok 1 inv /\ solver_ok solve /\
  set_up 1 inv solve 1 exc_vs 0 o /\ run_ocall 1 inv solve o (CallTimes [2]) = Ok o' /\
  integral_cost 0 1 (o_segments o') = 1 /\ opt_computeCost 1 o' = Ok 2.
Proof.
  exists (perfect_inv 1), perfect_solve.
  assert (Wf : List.Forall vertex_wf exc_vs) by repeat constructor.
  destruct (C31_setup_and_solve_succeed 1 (perfect_inv 1) perfect_solve 1 exc_vs [1] 0 [] (opt_new 1))
    as (o1 & H1 & T1 & H2); try reflexivity; try (cbn; lia).
  { constructor; [lra|constructor]. }
  { repeat constructor. }
  { apply perfect_solve_length. }
  destruct H2 as (o2 & H2 & T2); [left; reflexivity|].
  assert (S1 : set_up 1 (perfect_inv 1) perfect_solve 1 exc_vs 0 o1).
  { exists [], [1], [], (opt_new 1), o1. split; [reflexivity|]. split; [exact H1|]. split; [constructor|reflexivity]. }
  assert (S2 : set_up 1 (perfect_inv 1) perfect_solve 1 exc_vs 0 o2).
  { exists [], [1], [CallSolve], (opt_new 1), o1. split; [reflexivity|]. split; [exact H1|].
    split; [constructor; [exact I|constructor]|]. cbn [run_ocalls run_ocall]. rewrite H2. reflexivity. }
  destruct (set_up_prepared 1 (perfect_inv 1) perfect_solve 1 exc_vs 0 o2 Wf S2) as (P2 & D2 & R2).
  assert (N2 := pr_nseg _ _ _ _ P2). cbn in N2.
  assert (HT : exists o3, run_ocall 1 (perfect_inv 1) perfect_solve o2 (CallTimes [2]) = Ok o3 /\ o_segments o3 = o_segments o2).
  { cbn [run_ocall]. unfold opt_updateSegmentTimes. replace (o_nseg o2) with 1%nat by lia. cbn [length Nat.eqb negb omap].
    replace (nltb n0 2) with true by (symmetry; apply Rltb_true; rnum; unfold n0; rnum; lra). cbn [negb].
    rewrite R2. destruct (mapping_matrix_ok 1 2 ltac:(lia)) as (A & EA & _). rewrite EA. cbn [obind].
    match goal with |- context [cost_matrix 1 0 2] => assert (EQ : exists Q, cost_matrix 1 0 2 = Ok Q) end.
    { eexists. unfold cost_matrix. reflexivity. }
    destruct EQ as (Q & EQ). rewrite EQ. cbn [obind]. eexists. split; reflexivity. }
  destruct HT as (o3 & H3 & E3). exists o2, o3.
  split; [apply perfect_inv_ok|]. split; [apply perfect_solve_ok|]. split; [exact S2|]. split; [exact H3|].
  assert (S3 : set_up 1 (perfect_inv 1) perfect_solve 1 exc_vs 0 o3).
  { exists [], [1], [CallSolve; CallTimes [2]], (opt_new 1), o1. split; [reflexivity|]. split; [exact H1|].
    split; [constructor; [exact I|constructor; [exact I|constructor]]|]. cbn [run_ocalls run_ocall] in *. rewrite H2. cbn [obind].
    rewrite H3. reflexivity. }
  assert (Ht1 : List.Forall (fun t => / 2 ^ 52 <= t) (o_times o2)).
  { rewrite T2. constructor; [rewrite <- Rinv_1; apply Rinv_le_contravar; lra|constructor]. }
  destruct (C31_constraints_met 1 (perfect_inv 1) perfect_solve 1 exc_vs 0 o1 o2 CallSolve (perfect_inv_ok 1) Wf ltac:(lia) S1 I H2 Ht1)
    as ((Hl & Hsh) & HM). rewrite T2 in Hl, Hsh. destruct (Hsh 0%nat) as (Et & EN & ED & Ew); [cbn; lia|].
  cbn [nth length] in Et, Hl.
  destruct (HM 0%nat 0%nat [1] 0%nat) as (A0 & _); [cbn; lia|lia|lia|reflexivity|]. specialize (A0 ltac:(lia)).
  destruct (HM 1%nat 0%nat [1] 0%nat) as (_ & A1); [cbn; lia|lia|lia|reflexivity|]. specialize (A1 ltac:(lia)).
  cbn [Nat.sub nth] in A0, A1. rewrite Et in A1.
  assert (Hc : forall t, seg_fun (nth 0 (o_segments o2) no_seg) 0 0 t = 1).
  { assert (Lp := seg_wf_nth (nth 0 (o_segments o2) no_seg) 0 Ew ltac:(lia)). rewrite EN in Lp.
    rewrite !seg_fun_dpoly, !dpoly_0 in A0, A1. intros t. rewrite seg_fun_dpoly, dpoly_0.
    destruct (nth 0 (seg_polys (nth 0 (o_segments o2) no_seg)) []) as [|a [|b [|]]]; cbn in Lp; try lia.
    unfold poly_fun in *. cbn in A0, A1 |- *. assert (a = 1) by lra. assert (b = 0) by lra. subst. ring. }
  assert (RI : forall T, RInt (fun t => seg_fun (nth 0 (o_segments o2) no_seg) 0 0 t ^ 2) 0 T = T).
  { intros T. rewrite (RInt_ext _ (fun _ => 1)).
    - rewrite RInt_const. unfold scal. cbn. unfold mult. cbn. lra.
    - intros t _. rewrite Hc. match goal with |- ?a = ?b => change (@eq R a b) end. ring. }
  assert (T3 : o_times o3 = [2]).
  { cbn [run_ocall] in H3. destruct (times_prepared 1 (perfect_inv 1) exc_vs o2 [2] o3 P2 H3) as (_ & X & _). exact X. }
  split.
  - rewrite integral_cost_rsum, E3, Hl. cbn [rsum]. rewrite RI, Et. lra.
  - rewrite (C33_cost_general 1 (perfect_inv 1) perfect_solve 1 exc_vs 0 o3 Wf S3). rewrite E3, Hl, T3. cbn [rsum nth].
    change (Z.to_nat 0) with 0%nat. rewrite RI. f_equal. lra.
Qed.
Print Assumptions C33_stale_times_refuted.

(** ** C34: solveLinear is optimal *)
Lemma solve_frame h inv solve vs (o o' : opt R) : prepared h inv vs o -> opt_solveLinear h solve o = Ok o' ->
  o' = with_segments (with_free o (o_free o')) (o_segments o').
Proof.
  intros P H. unfold opt_solveLinear in H. destruct (_ || _); [discriminate|].
  destruct (Nat.eqb (o_nfree o) 0).
  - destruct (update_prepared h inv vs o o' P H) as (_ & _ & E). rewrite E. destruct o. reflexivity.
  - destruct (opt_constructR h o) as [Rm| | |]; cbn [obind] in H; try discriminate.
    destruct (omap _ _) as [dps| | |] eqn:Ed; cbn [obind] in H; try discriminate.
    apply omap_length in Ed. rewrite seq_length in Ed. fold (with_free o dps) in H.
    assert (P' : prepared h inv vs (with_free o dps)) by (apply with_free_prepared; assumption).
    destruct (update_prepared h inv vs _ o' P' H) as (_ & _ & E). rewrite E. reflexivity.
Qed.

Theorem C34_optimal (h : nat) (inv : mat R -> mat R) (solve : mat R -> list R -> list R)
        (dim : nat) (vs : list (vertex R)) (r : Z) (o o' : opt R) (segs : list (segment R)) :
  inverse_ok h inv -> solver_ok solve -> List.Forall vertex_wf vs -> (0 < dim)%nat ->
  set_up h inv solve dim vs r o ->
  opt_solveLinear h solve o = Ok o' ->
  List.Forall (fun t => / 2 ^ 52 <= t) (o_times o') ->
  (* any competing piecewise polynomial *)
  chain_shape (2 * h) dim (o_times o') segs -> meets_constraints h dim vs segs -> smooth_chain h dim segs ->
  integral_cost (Z.to_nat r) dim (o_segments o') <= integral_cost (Z.to_nat r) dim segs.
Proof.
  intros Hinv Hsol Hwf Hd Hs Hr Ht Hsh Hm Hsm.
  destruct (set_up_prepared h inv solve dim vs r o Hwf Hs) as (P & Ed & Er).
  destruct (computed_prepared h inv solve dim vs r o CallSolve o' Hwf Hs I Hr) as (P' & S' & Ed' & Er').
  assert (Hn : o_nseg o' = o_nseg o) by (assert (X := pr_nseg _ _ _ _ P); assert (Y := pr_nseg _ _ _ _ P'); lia).
  rewrite (synced_chain h inv vs o' P' S') by lia. rewrite <- Ed', <- Er' in *.
  destruct (Nat.eq_dec (o_nseg o') 0) as [H0|H0].
  { destruct Hsh as (Hl & _). rewrite (pr_times _ _ _ _ P'), H0 in Hl. destruct segs; [|discriminate].
    unfold chain_of. rewrite H0. cbn. lra. }
  destruct (competitor_chain h inv vs o' segs Hinv P' Ht ltac:(lia) Hsh Hm Hsm) as (P2 & F2 & E2). cbv zeta in *.
  assert (Hst : exists Rm, opt_constructR h o' = Ok Rm /\
    (forall d i, (d < o_dim o')%nat -> (i < o_nfree o')%nat ->
       rsum (o_nfixed o' + o_nfree o') (fun b => mget Rm (o_nfixed o' + i) b * vget (nth d (o_fixed o') [] ++ nth d (o_free o') []) b) = 0)).
  { assert (Enf : o_nfixed o' = o_nfixed o) by (rewrite (pr_nfixed _ _ _ _ P), (pr_nfixed _ _ _ _ P'); congruence).
    assert (Enp : o_nfree o' = o_nfree o) by (rewrite (pr_nfree _ _ _ _ P), (pr_nfree _ _ _ _ P'); congruence).
    destruct (Nat.eq_dec (o_nfree o') 0) as [Hz|Hz].
    { destruct (constructR_form h inv vs o' P' ltac:(lia)) as (Rm & ER & _). exists Rm. split; [exact ER|]. intros d i _ Hi. lia. }
    destruct (solve_free_equations h inv solve vs o o' Hsol P ltac:(lia) ltac:(lia) Hr) as (Rm & ER & HR).
    exists Rm. split.
    - rewrite <- ER. rewrite (solve_frame h inv solve vs o o' P Hr). reflexivity.
    - rewrite Enf, Enp. assert (Ef : o_fixed o' = o_fixed o) by (rewrite (solve_frame h inv solve vs o o' P Hr); reflexivity).
      rewrite Ef. intros d i Hdd Hi. apply HR; [lia|exact Hi]. }
  destruct Hst as (Rm & ER & HR).
  assert (G := free_optimal h inv vs o' (with_free o' (free_of h vs o' segs)) P' P2 eq_refl (proj1 S') F2 ltac:(lia) Rm ER HR).
  rewrite E2 in G. exact G.
Qed.
Print Assumptions C34_optimal.

(** The example problem has a competitor with free velocity 5. *)
Example C34_example : exists o1 o2 o3,
  inverse_ok 2 (perfect_inv 2) /\ solver_ok perfect_solve /\ List.Forall vertex_wf exl_vs /\
  set_up 2 (perfect_inv 2) perfect_solve 1 exl_vs 1 o1 /\
  opt_solveLinear 2 perfect_solve o1 = Ok o2 /\
  List.Forall (fun t => / 2 ^ 52 <= t) (o_times o2) /\
  opt_setFreeConstraints 2 o1 [repeat 5 (o_nfree o1)] = Ok o3 /\
  chain_shape 4 1 (o_times o2) (o_segments o3) /\ meets_constraints 2 1 exl_vs (o_segments o3) /\
  smooth_chain 2 1 (o_segments o3) /\
  integral_cost 1 1 (o_segments o2) <= integral_cost 1 1 (o_segments o3).
Proof.
  destruct exl_free as (o1 & o2 & S & T1 & Hf & H2 & T2).
  destruct (C32_any_free_values 2 (perfect_inv 2) perfect_solve 1 exl_vs 1 o1 [repeat 5 (o_nfree o1)] exl_wf' S eq_refl)
    as (o3 & H & T3 & _). { constructor; [apply repeat_length|constructor]. }
  exists o1, o2, o3.
  assert (Ht : List.Forall (fun t => / 2 ^ 52 <= t) (o_times o2)) by (rewrite T2; exact exl_times_ok).
  assert (Ht3 : List.Forall (fun t => / 2 ^ 52 <= t) (o_times o3)) by (rewrite T3, T1; exact exl_times_ok).
  destruct (C31_constraints_met 2 (perfect_inv 2) perfect_solve 1 exl_vs 1 o1 o3 _ (perfect_inv_ok 2) exl_wf'
    ltac:(lia) S (I : computes_segments (CallFree [repeat 5 (o_nfree o1)])) H Ht3) as (A & B).
  assert (C := C32_continuous 2 (perfect_inv 2) perfect_solve 1 exl_vs 1 o1 o3 _ (perfect_inv_ok 2) exl_wf'
    ltac:(lia) S (I : computes_segments (CallFree [repeat 5 (o_nfree o1)])) H Ht3).
  rewrite T3, T1, <- T2 in A.
  split; [apply perfect_inv_ok|]. split; [apply perfect_solve_ok|]. split; [exact exl_wf'|]. split; [exact S|].
  split; [exact H2|]. split; [exact Ht|]. split; [exact H|]. split; [exact A|]. split; [exact B|]. split; [exact C|].
  exact (C34_optimal 2 (perfect_inv 2) perfect_solve 1 exl_vs 1 o1 o2 (o_segments o3) (perfect_inv_ok 2) perfect_solve_ok
    exl_wf' ltac:(lia) S H2 Ht A B C).
Qed.
