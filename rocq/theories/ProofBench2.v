(** Proofs about the benchmark: maxima of the segments and the linear runs. *)
From Coq Require Import ZArith Reals List Bool Lia Lra Psatz.
From Coquelicot Require Import Coquelicot.
From Verif Require Import Num RSum SpecPoly ModelPolynomial ModelSegment ModelVertex ModelTrajectory ModelLinear
  SpecSegment SpecVertex SpecTrajectory SpecLinear ProofPolynomial ProofSegment ProofSegment2 ProofVertex ProofVertex2
  ProofTrajectory ProofTrajectory2 ProofTrajectory3 ProofTrajectory4
  ProofRoots ProofMatrix ProofHermite ProofReorder ProofLinear ProofLinear2 ProofLinear3 ProofLinear4 ProofLinear5 ProofLinear6 ProofLinear7
  PropLinear PropLinear2
  ModelNonlinear SpecNonlinear ProofNonlinear ProofNonlinear2 ProofNonlinear3 ProofNonlinear4 ProofNonlinear5 ProofNonlinear6 ProofNonlinear7
  PropNonlinear PropNonlinear3 PropNonlinear4 ModelPlanner ModelSampling ModelVis ModelBench SpecVis SpecBench.
Import ListNotations.
Notation length := List.length.
Open Scope R_scope.

(** ** The maxima of all segments *)
Lemma segment_maximum_unique s dims d m m' : segment_maximum s dims d m -> segment_maximum s dims d m' -> m = m'.
Proof.
  intros ((t & Ht & E) & U) ((t' & Ht' & E') & U'). apply Rle_antisym; [rewrite <- E; apply U'; exact Ht|rewrite <- E'; apply U; exact Ht'].
Qed.
Lemma segment_maximum_nonneg s dims d m : segment_maximum s dims d m -> 0 <= m.
Proof. intros ((t & _ & <-) & _). apply sqrt_pos. Qed.
Lemma segment_maxima_R rf (d : nat) segs : List.Forall (seg_ok rf d xyz false) segs -> forall acc,
  exists ms, segment_maxima rf segs (Z.of_nat d) xyz acc = Ok (true, acc ++ ms) /\
    Forall2 (fun s e => segment_maximum s xyz d (ext_value e)) segs ms.
Proof.
  induction 1 as [|s segs (cands & emin & emax & E1 & E2 & (M1 & M2 & M3) & _) H IH]; intros acc.
  - exists []. rewrite app_nil_r. split; [reflexivity|constructor].
  - destruct (IH (acc ++ [emax])) as (ms & E & F). exists (emax :: ms). cbn [segment_maxima]. change (@n0 R R_ops) with 0. rewrite E1. cbn [obind fst snd].
    rewrite E2, E, <- app_assoc. split; [reflexivity|]. constructor; [|exact F]. split; [exists (ext_time emax); split; [exact M1|exact M2]|exact M3].
Qed.
Lemma maxima_unique d segs : forall ms Vs, Forall2 (fun s e => segment_maximum s xyz d (ext_value e)) segs ms ->
  Forall2 (fun s V => segment_maximum s xyz d V) segs Vs -> map ext_value ms = Vs.
Proof.
  induction segs as [|s segs IH]; intros ms Vs H1 H2; inversion H1; subst; inversion H2; subst; [reflexivity|]. cbn [map].
  f_equal; [eapply segment_maximum_unique; eassumption|apply IH; assumption].
Qed.

(** ** Trajectories of solved problems *)
Section Solved.
  Context (h : nat) (inv : mat R -> mat R) (solve : mat R -> list R -> list R) (vs : list (vertex R)).
  Lemma solved_trajectory (dim : nat) (r : Z) (o : opt R) (tr : trajectory R) :
    List.Forall vertex_wf vs -> (0 < dim)%nat -> (2 <= length vs)%nat -> computed h inv solve dim vs r o ->
    exists tr', opt_getTrajectory o tr = Ok tr' /\ tr_segments tr' = o_segments o /\ tr_D tr' = dim /\ tr_N tr' = (2 * h)%nat /\
      traj_wf tr' /\ times_nonneg tr' /\ traj_consistent tr' /\ map seg_time (o_segments o) = o_times o /\
      length (o_times o) = (length vs - 1)%nat /\ List.Forall (fun t => 0 < t) (o_times o).
  Proof.
    intros Hwf Hd Hl (o0 & c & Hs & Hc & Hr). destruct (computed_prepared h inv solve dim vs r o0 c _ Hwf Hs Hc Hr) as (P & S & Ed & Er).
    assert (Hn := pr_nseg _ _ _ _ P). assert (Lt := pr_times _ _ _ _ P). assert (Ht := prepared_times_pos h inv vs _ P).
    assert (CS := chain_of_shape_R h inv vs _ P). rewrite <- (synced_chain h inv vs _ P S) in CS by lia. rewrite Ed in CS.
    assert (Hh' := prepared_h h inv vs _ 0 P ltac:(lia)). destruct CS as (Hls & Hsh).
    assert (Hf : List.Forall (fun x => seg_D x = dim /\ seg_N x = (2 * h)%nat /\ seg_wf x) (o_segments o)).
    { apply List.Forall_forall. intros x Hx. destruct (In_nth _ _ no_seg Hx) as (i & Hi & <-).
      destruct (Hsh i ltac:(lia)) as (_ & A1 & A2 & A3). auto. }
    assert (Emap : map seg_time (o_segments o) = o_times o).
    { apply (nth_ext _ _ 0 0); [rewrite map_length; lia|]. rewrite map_length. intros i Hi. change 0 with (seg_time no_seg) at 1.
      rewrite map_nth. apply Hsh. lia. }
    unfold opt_getTrajectory, traj_setSegments. destruct (o_segments o) as [|s segs] eqn:Es; [cbn [length] in Hls; lia|]. rewrite <- Es in *.
    assert (H0 : seg_D s = dim /\ seg_N s = (2 * h)%nat) by (rewrite Es in Hf; apply List.Forall_inv in Hf; tauto). destruct H0 as (D0 & N0).
    rewrite D0, N0. rewrite ProofTrajectory.addSegments_ok by (cbn [tr_D tr_N]; eapply List.Forall_impl; [|exact Hf]; intros x (Hx1 & Hx2 & _); split; [exact Hx1|exact Hx2]).
    eexists. split; [reflexivity|]. cbn [tr_segments tr_D tr_N app]. split; [reflexivity|]. split; [reflexivity|]. split; [reflexivity|].
    split; [split; [exact Hf|cbn [tr_N]; lia]|].
    split; [apply List.Forall_forall; intros x Hx; rewrite <- Emap in Ht; rewrite List.Forall_forall in Ht; apply Rlt_le, Ht, in_map; exact Hx|].
    split; [split; [cbn [tr_segments tr_D tr_N]; eapply List.Forall_impl; [|exact Hf]; intros x (Hx1 & Hx2 & _); split; [exact Hx1|exact Hx2]|reflexivity]|].
    split; [exact Emap|]. split; [lia|exact Ht].
  Qed.
  Lemma retimed (dim : nat) (r : Z) (o : opt R) (times : list R) :
    (forall A b, length (solve A b) = length b) ->
    List.Forall vertex_wf vs -> (0 < dim)%nat -> (2 <= length vs)%nat -> computed h inv solve dim vs r o ->
    length times = (length vs - 1)%nat -> List.Forall (fun t => 0 < t) times ->
    exists o1 o2, opt_updateSegmentTimes h inv o times = Ok o1 /\ opt_solveLinear h solve o1 = Ok o2 /\ o_times o2 = times /\
      computed h inv solve dim vs r o2.
  Proof.
    intros Hsol Hwf Hd Hl (o0 & c & Hs & Hc & Hr) Lt Ht. destruct (computed_prepared h inv solve dim vs r o0 c _ Hwf Hs Hc Hr) as (P & S & Ed & Er).
    assert (Hn := pr_nseg _ _ _ _ P).
    destruct (step_time_ok h inv solve Hsol vs o times P (proj1 S) ltac:(lia) ltac:(lia) Ht) as (o2 & o1 & E1 & E2).
    destruct (times_prepared h inv vs _ _ o1 P E1) as (P1 & T1 & _). destruct (solve_prepared h inv solve vs o1 o2 P1 E2) as (_ & _ & T2).
    exists o1, o2. split; [exact E1|]. split; [exact E2|]. split; [congruence|].
    exists o1, CallSolve. split; [|split; [exact I|exact E2]].
    destruct Hs as (pre & ts & mid & a0 & a1 & H0 & H1 & HF & H2). exists pre, ts, (mid ++ [c; CallTimes times]), a0, a1.
    split; [exact H0|]. split; [exact H1|]. split; [apply Forall_app; split; [exact HF|constructor; [destruct c; try exact I; destruct Hc|constructor; [exact I|constructor]]]|].
    rewrite run_app, H2. cbn [obind run_ocalls]. rewrite Hr. cbn [obind run_ocall]. rewrite E1. reflexivity.
  Qed.
End Solved.

(** ** The total cost that is reported *)
Lemma linear_cost_R inv solve rf vs r v a (o : opt R) : perfect_root_finder rf -> List.Forall vertex_wf vs -> (2 <= length vs)%nat ->
  0 < v -> 0 < a -> computed 5 inv solve 3 vs r o ->
  exists c V A, linear_cost rf exp v a o = Ok c /\ is_peak 3 1 (o_segments o) V /\ is_peak 3 2 (o_segments o) A /\
    c = integral_cost (Z.to_nat r) 3 (o_segments o) + 500 * lsum (o_times o) ^ 2 + (soft_cost 100 (10 ^ 9) V v + soft_cost 100 (10 ^ 9) A a).
Proof.
  intros Hrf Hwf Hl Hv Ha Hc. unfold linear_cost, nl_addConstraint, kVelocity, kAcceleration. cbn [Z.ltb Z.compare]. unfold n0. rnum.
  destruct (Rleb_spec 0 v); [|lra]. destruct (Rleb_spec 0 a); [|lra]. cbn [negb set_opt nl_new nl_par default_params np_soft orb andb obind snd nl_con app].
  match goal with |- context [nl_getTotalCost 5 rf exp ?m] => set (n := m) end.
  destruct (C67_total_cost 5 inv solve rf 3 vs r n Hrf Hwf ltac:(lia) Hl Hc) as (n' & c & peak & E & _ & Pk & Ec).
  { cbn [n nl_con]. constructor; [cbn; split; [lia|exact Hv]|]. constructor; [cbn; split; [lia|exact Ha]|constructor]. }
  rewrite E. cbn [obind snd]. exists c, (peak 0%nat), (peak 1%nat). split; [reflexivity|].
  split; [apply (Pk 0%nat); cbn; lia|]. split; [apply (Pk 1%nat); cbn; lia|]. rewrite Ec. cbn [n nl_opt nl_par nl_con np_penalty np_weight].
  unfold soft_total. cbn [length rsum nth snd n nl_con]. unfold default_params. cbn [np_penalty np_weight set_opt nl_new nl_opt]. rnum. ring.
Qed.
