(** C74: the magnitude constraints an optimiser object holds, and what nlopt is
    given.  Also: a rejected trajectory leaves an empty message (C50). *)
From Coq Require Import ZArith Reals List Bool Lia Lra Arith.
From Verif Require Import Num RSum ModelPolynomial ModelSegment ModelVertex ModelTrajectory ModelLinear
  SpecVertex SpecLinear ProofLinear6 PropLinear ModelNonlinear SpecNonlinear ProofNonlinear2 ProofNonlinear7 PropNonlinear3 ModelMsgs.
From Verif Require Import ProofRoots.
Import ListNotations.

Section Spec.
  Context {T : Type} {ops : NumOps T}.
  (** The constraints that were added by a list of calls, in order. *)
  Definition added (cs : list (@ncall T)) : list (Z * T) :=
    flat_map (fun c => match c with NConstraint _ d v => [(d, v)] | _ => [] end) cs.
  (** Those nlopt accepted since the last setup of the object. *)
  Definition accepted (cs : list (@ncall T)) : list (Z * T) :=
    fold_left (fun acc c => match c with
                            | NSetup _ _ _ => []
                            | NConstraint true d v => acc ++ [(d, v)]
                            | _ => acc
                            end) cs [].
  Definition was_set_up (cs : list (@ncall T)) : bool :=
    existsb (fun c => match c with NSetup _ _ _ => true | _ => false end) cs.
End Spec.

Section Histories.
  Context {T : Type} {ops : NumOps T} (h : nat) (inv : mat T -> mat T) (solve : mat T -> list T -> list T).
  Context (rf : root_oracle (T := T)) (fexp : T -> T).

  Lemma ncall_lists n c n' : run_ncall h inv solve rf fexp n c = Ok n' ->
    nl_par n' = nl_par n /\ nl_con n' = nl_con n ++ added [c] /\
    nl_hard n' = (match c with
                  | NSetup _ _ _ => []
                  | NConstraint true d v => if np_soft (nl_par n) then nl_hard n else nl_hard n ++ [(d, v)]
                  | _ => nl_hard n
                  end) /\
    (nl_nlopt n' = None <-> nl_nlopt n = None /\ was_set_up [c] = false).
  Proof.
    intros H. destruct c as [vs times r| |acc d v|alg| | |c]; cbn [run_ncall] in H; unfold added, was_set_up; cbn [flat_map existsb orb app].
    - destruct (setup_calls h inv n vs times r n' H) as (_ & A & B & C & D). rewrite app_nil_r. split; [exact A|]. split; [exact B|]. split; [exact C|].
      rewrite D. split; [discriminate|intros (_ & X); discriminate].
    - unfold nl_solveLinear in H. destruct (opt_solveLinear _ _ _) as [o| | |] eqn:E; cbn [obind] in H; try discriminate.
      apply Ok_inj in H. subst n'. rewrite app_nil_r. cbn. tauto.
    - unfold nl_addConstraint in H. destruct (_ <? 0)%Z; [discriminate|]. destruct (negb _); [discriminate|].
      destruct (np_soft _); [apply Ok_inj in H; subst n'; cbn; destruct acc; tauto|].
      destruct (nl_nlopt n) eqn:En; [|discriminate]. apply Ok_inj in H. subst n'. cbn. destruct acc; intuition congruence.
    - destruct (nl_optimize h inv solve rf fexp alg n) as [[m res]| | |] eqn:E; cbn [obind] in H; try discriminate.
      apply Ok_inj in H. cbn [fst] in H. subst m. destruct (setting_optimize h inv solve rf fexp _ _ _ _ E) as (A & B & C & D).
      rewrite app_nil_r, A, B, C, D. tauto.
    - destruct (by_scale h inv solve rf n n' H) as (x & _ & A & B & C & D). rewrite app_nil_r, A, B, C, D. tauto.
    - unfold nl_getTotalCost in H. destruct (opt_computeCost _ _); cbn [obind] in H; try discriminate.
      destruct (nl_softConstraints _ _ _ _ _ _) as [r| | |] eqn:E; cbn [obind] in H; try discriminate.
      apply Ok_inj in H. subst n'. destruct (soft_state _ _ _ _ _ _ _ E) as (_ & A & B & C & D). cbn [fst]. rewrite app_nil_r, A, B, C, D. tauto.
    - destruct (run_ocall h inv solve (nl_opt n) c) as [o| | |] eqn:E; cbn [obind] in H; try discriminate.
      apply Ok_inj in H. subst n'. rewrite app_nil_r. cbn. tauto.
  Qed.

  (** ** C74: after any calls on a new object its constraints are exactly those
      that were added, in order; with hard constraints nlopt has those accepted
      since the last setup, with soft constraints none. *)
  Theorem C74_constraints_kept (dim : nat) (p : nl_params T) (cs : list ncall) (n : nlo T) :
    run_ncalls h inv solve rf fexp (nl_new dim p) cs = Ok n ->
    nl_par n = p /\ nl_con n = added cs /\
    nl_hard n = (if np_soft p then [] else accepted cs) /\
    (nl_nlopt n = None <-> was_set_up cs = false).
  Proof.
    assert (G : forall cs m k, run_ncalls h inv solve rf fexp m cs = Ok k ->
      nl_par k = nl_par m /\ nl_con k = nl_con m ++ added cs /\
      (np_soft (nl_par m) = true -> nl_hard m = [] -> nl_hard k = []) /\
      (np_soft (nl_par m) = false -> nl_hard k = fold_left (fun acc c => match c with
                            | NSetup _ _ _ => []
                            | NConstraint true d v => acc ++ [(d, v)]
                            | _ => acc
                            end) cs (nl_hard m)) /\
      (nl_nlopt k = None <-> nl_nlopt m = None /\ was_set_up cs = false)).
    { clear. induction cs as [|c cs IH]; intros m k H; cbn [run_ncalls] in H.
      - apply Ok_inj in H. subst k. cbn. rewrite app_nil_r. tauto.
      - destruct (run_ncall h inv solve rf fexp m c) as [m1| | |] eqn:E; cbn [obind] in H; try discriminate.
        destruct (ncall_lists _ _ _ E) as (A & B & C & D). destruct (IH _ _ H) as (A' & B' & C' & D' & E').
        split; [congruence|]. split.
        { rewrite B', B, <- app_assoc. f_equal. unfold added. cbn [flat_map]. rewrite app_nil_r. reflexivity. }
        split.
        { intros S0 H0. apply C'; [congruence|]. rewrite C. destruct c as [| |[] d v| | | |]; rewrite ?S0; auto. }
        split.
        { intros S0. rewrite D' by congruence. cbn [fold_left]. f_equal. rewrite C. destruct c as [| |[] d v| | | |]; rewrite ?S0; reflexivity. }
        unfold was_set_up in *. cbn [existsb] in *. rewrite orb_false_r in D. rewrite orb_false_iff. tauto. }
    intros H. destruct (G _ _ _ H) as (A & B & C & D & E). cbn [nl_new nl_par nl_con nl_hard nl_nlopt app] in *.
    split; [exact A|]. split; [exact B|]. split.
    - destruct (np_soft p) eqn:S0; [apply C; reflexivity|apply D; reflexivity].
    - tauto.
  Qed.
End Histories.
Print Assumptions C74_constraints_kept.

(** What one addition does, for every state of the object. *)
Theorem C74_one_addition {T : Type} {ops : NumOps T} (accept : bool) (n : nlo T) (d : Z) (v : T) :
  (* invalid arguments end the program *)
  ((d < 0)%Z \/ nleb n0 v = false -> nl_addConstraint accept n d v = Abort) /\
  (* with hard constraints the object must have been set up *)
  ((0 <= d)%Z -> nleb n0 v = true -> np_soft (nl_par n) = false -> nl_nlopt n = None -> nl_addConstraint accept n d v = UB) /\
  ((0 <= d)%Z -> nleb n0 v = true -> (np_soft (nl_par n) = true \/ nl_nlopt n <> None) ->
   exists n', nl_addConstraint accept n d v = Ok (np_soft (nl_par n) || accept, n') /\
     nl_con n' = nl_con n ++ [(d, v)] /\ nl_opt n' = nl_opt n /\ nl_par n' = nl_par n /\ nl_inf n' = nl_inf n /\
     nl_hard n' = (if negb (np_soft (nl_par n)) && accept then nl_hard n ++ [(d, v)] else nl_hard n)).
Proof.
  unfold nl_addConstraint. split; [|split].
  - intros [H|H]; [destruct (Z.ltb_spec d 0); [reflexivity|lia]|]. rewrite H. destruct (d <? 0)%Z; reflexivity.
  - intros H1 H2 H3 H4. destruct (Z.ltb_spec d 0); [lia|]. rewrite H2, H3, H4. reflexivity.
  - intros H1 H2 H3. destruct (Z.ltb_spec d 0); [lia|]. rewrite H2. cbn [negb]. destruct (np_soft (nl_par n)) eqn:S0.
    + eexists. split; [reflexivity|]. cbn. auto.
    + destruct (nl_nlopt n) as [k|]; [|destruct H3 as [X|X]; [discriminate|congruence]].
      eexists. split; [reflexivity|]. cbn. destruct accept; auto 10.
Qed.
Print Assumptions C74_one_addition.

(** A new object: no constraints and the information of a failed run. *)
Theorem C74_new_object {T : Type} {ops : NumOps T} (dim : nat) (p : nl_params T) :
  nl_con (nl_new dim p) = [] /\ nl_hard (nl_new dim p) = [] /\ ni_reason (nl_inf (nl_new dim p)) = (-1)%Z /\
  ni_iterations (nl_inf (nl_new dim p)) = 0%nat /\ ni_maxima (nl_inf (nl_new dim p)) = [] /\
  ni_trajectory (nl_inf (nl_new dim p)) = nofZ 0 /\ ni_time (nl_inf (nl_new dim p)) = nofZ 0 /\ ni_soft (nl_inf (nl_new dim p)) = nofZ 0.
Proof. repeat split. Qed.
Print Assumptions C74_new_object.

(** The methods that vary only the times use nlopt_ without a check. *)
Theorem C74_optimize_before_setup {T : Type} {ops : NumOps T} (h : nat) inv solve rf fexp alg (n : nlo T) :
  nl_nlopt n = None -> In (np_method (nl_par n)) [kSquaredTime; kRichterTime; kMellingerOuterLoop] ->
  nl_optimize h inv solve rf fexp alg n = UB.
Proof.
  intros H0 H. unfold nl_optimize, nl_optimizeTime, nl_optimizeMellinger. cbn [set_info nl_nlopt]. rewrite H0.
  destruct H as [<-|[<-|[<-|[]]]]; reflexivity.
Qed.
Print Assumptions C74_optimize_before_setup.

Open Scope R_scope.
Definition hard_par : nl_params R := mkNlParams (1 / 10) 500 false 100 kSquaredTime.
Notation run := (run_ncalls 2 (perfect_inv 2) perfect_solve perfect_rf exp).
Lemma exl_setup_again (m : nlo R) (pre : list (ocall R)) : run_ocalls 2 (perfect_inv 2) perfect_solve (opt_new 1) pre = Ok (nl_opt m) ->
  exists m1, nl_setupFromVertices 2 (perfect_inv 2) m exl_vs exl_times 1 = Ok m1 /\ nl_hard m1 = [] /\ nl_con m1 = nl_con m /\
    run_ocalls 2 (perfect_inv 2) perfect_solve (opt_new 1) (pre ++ [CallSetup exl_vs exl_times 1]) = Ok (nl_opt m1) /\ nl_nlopt m1 <> None /\ nl_par m1 = nl_par m.
Proof.
  intros H. destruct (C31_setup_and_solve_succeed 2 (perfect_inv 2) perfect_solve 1 exl_vs exl_times 1 pre (nl_opt m)) as (o1 & H1 & _ & _);
    [lia|lia|cbn; lia|reflexivity|repeat constructor; lra|exact exl_wf|exact perfect_solve_length|exact H|].
  unfold nl_setupFromVertices. rewrite H1. eexists. split; [reflexivity|]. cbn. split; [reflexivity|]. split; [reflexivity|]. split; [|split; [discriminate|reflexivity]].
  clear -H H1. revert H. generalize (opt_new (T := R) 1). induction pre as [|c pre IH]; intros o H; cbn [run_ocalls app] in *.
  - apply Ok_inj in H. subst o. cbn [run_ocall]. rewrite H1. reflexivity.
  - destruct (run_ocall _ _ _ o c); cbn [obind] in *; try discriminate. apply IH. exact H.
Qed.
Lemma add_vel (acc : bool) (m : nlo R) : nl_nlopt m <> None -> np_soft (nl_par m) = false -> exists m1,
  nl_addConstraint acc m 1 3 = Ok (acc, m1) /\ nl_con m1 = nl_con m ++ [(1%Z, 3)] /\ nl_opt m1 = nl_opt m /\
  nl_hard m1 = (if acc then nl_hard m ++ [(1%Z, 3)] else nl_hard m) /\ nl_par m1 = nl_par m.
Proof.
  intros Hn Hs. assert (L : nleb n0 3 = true) by (unfold n0; rnum; destruct (Rleb_spec 0 3); [reflexivity|lra]).
  destruct (proj2 (proj2 (C74_one_addition acc m 1 3)) ltac:(lia) L (or_intror Hn)) as (m1 & E & A & B & C & _ & D).
  rewrite Hs in *. exists m1. auto.
Qed.
Example C74_example : exists n, run (nl_new 1 hard_par) [NSetup exl_vs exl_times 1; NConstraint true 1 3; NConstraint false 1 3] = Ok n /\
  nl_con n = [(1%Z, 3); (1%Z, 3)] /\ nl_hard n = [(1%Z, 3)].
Proof.
  destruct (exl_setup_again (nl_new 1 hard_par) [] eq_refl) as (m1 & E1 & H1 & C1 & _ & N1 & P1).
  destruct (add_vel true m1 N1) as (m2 & E2 & C2 & O2 & H2 & P2); [rewrite P1; reflexivity|].
  assert (N2 : nl_nlopt m2 <> None).
  { destruct (ncall_lists 2 (perfect_inv 2) perfect_solve perfect_rf exp m1 (NConstraint true 1 3) m2) as (_ & _ & _ & Q); [cbn [run_ncall]; rewrite E2; reflexivity|]. tauto. }
  destruct (add_vel false m2 N2) as (m3 & E3 & C3 & O3 & H3 & P3); [rewrite P2, P1; reflexivity|].
  exists m3. cbn [run_ncalls run_ncall]. rewrite E1. cbn [obind]. rewrite E2. cbn [obind snd]. rewrite E3. cbn [obind snd].
  split; [reflexivity|]. rewrite C3, C2, C1, H3, H2, H1. split; reflexivity.
Qed.
Example C74_optimize_before_setup_example : nl_nlopt (nl_new 1 hard_par) = None /\
  In (np_method (nl_par (nl_new 1 hard_par))) [kSquaredTime; kRichterTime; kMellingerOuterLoop].
Proof. cbn. auto. Qed.

(** Setting the object up again takes the hard constraints away from nlopt,
    although the object still lists them. *)
Theorem C74_hard_constraints_kept_refuted : exists cs n,
  run (nl_new 1 hard_par) cs = Ok n /\ np_soft (nl_par n) = false /\
  cs = [NSetup exl_vs exl_times 1; NConstraint true 1 3; NSetup exl_vs exl_times 1] /\
  nl_con n = [(1%Z, 3)] /\ nl_hard n = [].
Proof.
  destruct (exl_setup_again (nl_new 1 hard_par) [] eq_refl) as (m1 & E1 & H1 & C1 & R1 & N1 & P1).
  destruct (add_vel true m1 N1) as (m2 & E2 & C2 & O2 & H2 & P2); [rewrite P1; reflexivity|].
  destruct (exl_setup_again m2 [CallSetup exl_vs exl_times 1]) as (m3 & E3 & H3 & C3 & _ & _ & P3); [rewrite O2; exact R1|].
  exists [NSetup exl_vs exl_times 1; NConstraint true 1 3; NSetup exl_vs exl_times 1], m3.
  cbn [run_ncalls run_ncall]. rewrite E1. cbn [obind]. rewrite E2. cbn [obind snd]. rewrite E3. cbn [obind].
  split; [reflexivity|]. split; [rewrite P3, P2, P1; reflexivity|]. split; [reflexivity|]. rewrite C3, C2, C1, H3. split; reflexivity.
Qed.
Print Assumptions C74_hard_constraints_kept_refuted.

(** A constraint whose addition is reported as failed stays in the object: it counts
    in getTotalCostWithSoftConstraints, in the scaling of the times and in the bounds
    of the endpoint derivatives. *)
Theorem C74_failed_addition_refuted : exists cs n n', run (nl_new 1 hard_par) cs = Ok n /\
  nl_addConstraint false n 1 3 = Ok (false, n') /\ nl_con n = [] /\ nl_con n' = [(1%Z, 3)].
Proof.
  destruct (exl_setup_again (nl_new 1 hard_par) [] eq_refl) as (m1 & E1 & H1 & C1 & R1 & N1 & P1).
  destruct (add_vel false m1 N1) as (m2 & E2 & C2 & O2 & H2 & P2); [rewrite P1; reflexivity|].
  exists [NSetup exl_vs exl_times 1], m1, m2. cbn [run_ncalls run_ncall]. rewrite E1. cbn [obind]. split; [reflexivity|]. split; [exact E2|].
  rewrite C2, C1. split; reflexivity.
Qed.
Print Assumptions C74_failed_addition_refuted.

(** ** C50: whenever the conversion reports failure the message is empty. *)
Theorem C50_failure_is_empty {T M : Type} {ops : NumOps T} (enc : eigen_segment T -> outcome M) (tr : trajectory T) (msg : list M) :
  (trajectoryToMsg enc tr = Ok (false, msg) -> msg = []) /\ (trajectoryToMsg4D enc tr = Ok (false, msg) -> msg = []).
Proof.
  assert (G : forall dims, to_msg enc dims tr = Ok (false, msg) -> msg = []).
  { intros dims. unfold to_msg. destruct (msg_loop _ _ _ _) as [[b m]| | |]; cbn [obind fst]; try discriminate.
    destruct b; intros H; apply Ok_inj in H; [discriminate|]. congruence. }
  split; apply G.
Qed.
Print Assumptions C50_failure_is_empty.
(** The second segment has the wrong dimension. *)
Example C50_failure_is_empty_example : @trajectoryToMsg b64 _ B64_ops (fun e => Ok (es_x e))
  (mkTraj 3 1 [mkSegment 1 (repeat [b64_of_Z 1] 3) (b64_of_Z 2); mkSegment 1 (repeat [b64_of_Z 1] 2) (b64_of_Z 2)] (b64_of_Z 4)) = Ok (false, []).
Proof. vm_compute. reflexivity. Qed.
