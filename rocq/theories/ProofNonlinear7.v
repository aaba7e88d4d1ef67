(** Every call on the nonlinear optimiser changes the linear optimiser through
    its public functions only. *)
From Coq Require Import ZArith List Bool Lia.
From Verif Require Import Num RSum ModelPolynomial ModelSegment ModelVertex SpecVertex ModelTrajectory ModelLinear SpecLinear
  ProofSegment2 ProofLinear ProofLinear2 ProofLinear3 ProofLinear4 ProofLinear5 ModelNonlinear SpecNonlinear ProofNonlinear ProofNonlinear2 ProofNonlinear3 ProofNonlinear4.
Import ListNotations.

Section Calls.
  Context {T : Type} {ops : NumOps T} (h : nat) (inv : mat T -> mat T) (solve : mat T -> list T -> list T).
  Context (rf : root_oracle (T := T)) (fexp : T -> T).
  Implicit Types n m : nlo T.
  Implicit Types o : opt T.

  (** By calls other than setup; the last one satisfies P, unless there is none. *)
  Definition by_calls (P : ocall T -> Prop) o o' : Prop :=
    o' = o \/ exists cs c, List.Forall no_setup cs /\ P c /\ no_setup c /\ run_ocalls h inv solve o (cs ++ [c]) = Ok o'.

  Lemma run_app : forall cs o cs2, run_ocalls h inv solve o (cs ++ cs2) =
    (o1 <-- run_ocalls h inv solve o cs ;; run_ocalls h inv solve o1 cs2).
  Proof.
    induction cs as [|c cs IH]; intros o cs2; cbn [run_ocalls app obind]; [reflexivity|].
    destruct (run_ocall h inv solve o c); cbn [obind]; auto.
  Qed.
  Lemma by_refl P o : by_calls P o o.
  Proof. left. reflexivity. Qed.
  Lemma by_trans P o1 o2 o3 : by_calls P o1 o2 -> by_calls P o2 o3 -> by_calls P o1 o3.
  Proof.
    intros H1 [->|(cs & c & A & B & C & D)]; [exact H1|]. destruct H1 as [->|(cs' & c' & A' & B' & C' & D')].
    - right. exists cs, c. auto.
    - right. exists ((cs' ++ [c']) ++ cs), c. split.
      + apply Forall_app. split; [|exact A]. apply Forall_app. split; [exact A'|]. constructor; [exact C'|constructor].
      + split; [exact B|]. split; [exact C|]. rewrite <- app_assoc, run_app, D'. cbn [obind]. exact D.
  Qed.
  Lemma by_weak (P Q : ocall T -> Prop) o o' : (forall c, P c -> Q c) -> by_calls P o o' -> by_calls Q o o'.
  Proof. intros HPQ [->|(cs & c & A & B & C & D)]; [left; reflexivity|]. right. exists cs, c. auto. Qed.

  Lemma by_step_time (P : ocall T -> Prop) o x o' : P CallSolve -> step_time h inv solve o x o' -> by_calls P o o'.
  Proof.
    intros HP (o1 & E1 & E2). right. exists [CallTimes x], CallSolve. split; [repeat constructor|]. split; [exact HP|]. split; [exact I|].
    cbn [app run_ocalls run_ocall]. rewrite E1. cbn [obind]. rewrite E2. reflexivity.
  Qed.
  Lemma by_step_all (P : ocall T -> Prop) o x o' : (forall f, P (CallFree f)) -> step_all h inv o x o' -> by_calls P o o'.
  Proof.
    intros HP (_ & o1 & E1 & E2). right. eexists [CallTimes _], (CallFree _). split; [repeat constructor|]. split; [apply HP|]. split; [exact I|].
    cbn [app run_ocalls run_ocall]. rewrite E1. cbn [obind]. rewrite E2. reflexivity.
  Qed.
  Lemma by_solve (P : ocall T -> Prop) o o' : P CallSolve -> opt_solveLinear h solve o = Ok o' -> by_calls P o o'.
  Proof.
    intros HP E. right. exists [], CallSolve. split; [constructor|]. split; [exact HP|]. split; [exact I|].
    cbn [app run_ocalls run_ocall]. rewrite E. reflexivity.
  Qed.

  Lemma by_mellinger_loop (P : ocall T -> Prop) times nseg J : P CallSolve -> forall idx st r,
    ofold (mellinger_step h inv solve times nseg J) idx st = Ok r -> by_calls P (fst st) (fst r).
  Proof.
    intros HP. induction idx as [|i idx IH]; intros st r H; cbn [ofold] in H.
    - apply Ok_inj in H. subst r. apply by_refl.
    - destruct (mellinger_step h inv solve times nseg J st i) as [s1| | |] eqn:Es; cbn [obind] in H; try discriminate.
      apply by_trans with (fst s1); [|apply IH; exact H]. unfold mellinger_step in Es.
      destruct (opt_updateSegmentTimes _ _ _ _) as [o1| | |] eqn:E1; cbn [obind] in Es; try discriminate.
      destruct (opt_solveLinear _ _ _) as [o2| | |] eqn:E2; cbn [obind] in Es; try discriminate.
      destruct (opt_computeCost _ _); cbn [obind] in Es; try discriminate. apply Ok_inj in Es. subst s1. cbn [fst].
      eapply by_step_time; [exact HP|]. exists o1. split; eassumption.
  Qed.
  Lemma by_mellinger (P : ocall T -> Prop) o r : P CallSolve -> mellinger_gradient h inv solve o = Ok r -> by_calls P o (fst (fst r)).
  Proof.
    intros HP H. unfold mellinger_gradient in H.
    destruct (opt_computeCost h o) as [J| | |]; cbn [obind] in H; try discriminate.
    destruct (Nat.eqb (o_nseg o) 1); [apply Ok_inj in H; subst r; apply by_refl|].
    destruct (ofold _ _ _) as [st| | |] eqn:Ef; cbn [obind] in H; try discriminate.
    destruct (opt_updateSegmentTimes _ _ _ _) as [o1| | |] eqn:E1; cbn [obind] in H; try discriminate.
    destruct (opt_solveLinear _ _ _) as [o2| | |] eqn:E2; cbn [obind] in H; try discriminate.
    apply Ok_inj in H. subst r. cbn [fst]. apply by_trans with (fst st).
    - apply (by_mellinger_loop P _ _ _ HP _ _ _ Ef).
    - eapply by_step_time; [exact HP|]. exists o1. split; eassumption.
  Qed.

  Lemma by_drive (P : ocall T -> Prop) obj :
    (forall n g x r, obj n g x = Ok r -> by_calls P (nl_opt n) (nl_opt (fst (fst r)))) ->
    forall r n n' e, nlopt_drive h rf obj n r = Ok (n', e) -> by_calls P (nl_opt n) (nl_opt n').
  Proof.
    intros Ho. induction r as [|x f res|x f|g x k IH|g j x k IH]; intros n n' e H; cbn [nlopt_drive] in H.
    1-3: apply Ok_inj in H; injection H as <- _; apply by_refl.
    - destruct (obj n g x) as [v| | |] eqn:Eo; cbn [obind] in H; try discriminate.
      apply by_trans with (nl_opt (fst (fst v))); [apply (Ho _ _ _ _ Eo)|exact (IH _ _ _ _ _ H)].
    - destruct (oget (nl_hard n) j) as [c| | |]; cbn [obind] in H; try discriminate.
      destruct (nl_magnitudeConstraint h rf n g c) as [v| | |] eqn:Em; cbn [obind] in H; try discriminate.
      destruct (magnitude_state h rf _ _ _ _ Em) as (_ & Q & _). rewrite <- Q. exact (IH _ _ _ _ H).
  Qed.

  Definition is_solve (c : ocall T) : Prop := c = CallSolve.
  Lemma solve_computes c : is_solve c -> computes_segments c.
  Proof. intros ->. exact I. Qed.

  Lemma by_objectiveTime n g x r : no_gradient (nl_objectiveTime h inv solve rf fexp) n g x = Ok r ->
    by_calls is_solve (nl_opt n) (nl_opt (fst (fst r))).
  Proof.
    unfold no_gradient. destruct (nl_objectiveTime h inv solve rf fexp n g x) as [v| | |] eqn:E; cbn [obind]; try discriminate.
    intros H. apply Ok_inj in H. subst r. cbn [fst]. destruct (objectiveTime_step _ _ _ _ _ _ _ _ _ E) as (_ & S & _).
    eapply by_step_time; [reflexivity|exact S].
  Qed.
  Lemma by_objectiveAll n g x r : no_gradient (nl_objectiveAll h inv rf fexp) n g x = Ok r ->
    by_calls computes_segments (nl_opt n) (nl_opt (fst (fst r))).
  Proof.
    unfold no_gradient. destruct (nl_objectiveAll h inv rf fexp n g x) as [v| | |] eqn:E; cbn [obind]; try discriminate.
    intros H. apply Ok_inj in H. subst r. cbn [fst]. destruct (objectiveAll_step _ _ _ _ _ _ _ _ E) as (_ & S & _).
    eapply by_step_all; [|exact S]. intros f. exact I.
  Qed.
  Lemma by_objectiveMellinger n g x r : nl_objectiveMellinger h inv solve n g x = Ok r ->
    by_calls is_solve (nl_opt n) (nl_opt (fst (fst r))).
  Proof.
    unfold nl_objectiveMellinger. destruct (negb g); [discriminate|]. destruct (negb _); [discriminate|]. intros H.
    destruct (opt_updateSegmentTimes _ _ _ _) as [o1| | |] eqn:E1; cbn [obind] in H; try discriminate.
    destruct (opt_solveLinear _ _ _) as [o2| | |] eqn:E2; cbn [obind] in H; try discriminate.
    destruct (mellinger_gradient h inv solve o2) as [v| | |] eqn:E3; cbn [obind] in H; try discriminate.
    apply Ok_inj in H. subst r. cbn [fst set_info set_opt nl_opt]. apply by_trans with o2.
    - eapply by_step_time; [reflexivity|]. exists o1. split; eassumption.
    - apply (by_mellinger is_solve _ _ eq_refl E3).
  Qed.
  Lemma by_scale n m : nl_scaleWithViolation h inv solve rf n = Ok m ->
    exists x, step_time h inv solve (nl_opt n) x (nl_opt m) /\ same_setting n m.
  Proof.
    unfold nl_scaleWithViolation. intros H.
    destruct (opt_getTrajectory _ _) as [tr| | |]; cbn [obind] in H; try discriminate.
    destruct (traj_scaleToMeet _ _ _ _) as [s| | |]; cbn [obind] in H; try discriminate.
    destruct (opt_updateSegmentTimes _ _ _ _) as [o1| | |] eqn:E1; cbn [obind] in H; try discriminate.
    destruct (opt_solveLinear _ _ _) as [o2| | |] eqn:E2; cbn [obind] in H; try discriminate.
    apply Ok_inj in H. subst m. eexists. split; [exists o1; split; eassumption|]. repeat split.
  Qed.

  Context (nlopt : nlopt_algorithm (T := T)).
  Definition joint (a : time_alloc) : Prop := a = kSquaredTimeAndConstraints \/ a = kRichterTimeAndConstraints.

  Lemma optimize_calls n n' res : nl_optimize h inv solve rf fexp nlopt n = Ok (n', res) ->
    (~ joint (np_method (nl_par n)) -> by_calls is_solve (nl_opt n) (nl_opt n')) /\
    (joint (np_method (nl_par n)) -> exists o, opt_solveLinear h solve (nl_opt n) = Ok o /\ by_calls computes_segments o (nl_opt n')).
  Proof.
    unfold nl_optimize. set (fresh := set_info n info_new). intros H.
    match type of H with obind ?X _ = _ => destruct X as [v| | |] eqn:Ev end; cbn [obind] in H; try discriminate.
    apply Ok_inj in H. injection H as <- _. cbn [set_info nl_opt].
    assert (HT : nl_optimizeTime h inv solve rf fexp nlopt fresh = Ok v -> by_calls is_solve (nl_opt n) (nl_opt (fst v))).
    { unfold nl_optimizeTime. destruct (nl_nlopt fresh); [|discriminate].
      destruct (negb _); [intros E; apply Ok_inj in E; subst v; apply by_refl|].
      destruct (nlopt_drive _ _ _ _ _) as [[m e]| | |] eqn:Ed; cbn [obind]; try discriminate.
      intros E. assert (Q := by_drive is_solve _ by_objectiveTime _ _ _ _ Ed).
      cbn [fst snd] in E. destruct e; apply Ok_inj in E; subst v; exact Q. }
    assert (HM : nl_optimizeMellinger h inv solve rf nlopt fresh = Ok v -> by_calls is_solve (nl_opt n) (nl_opt (fst v))).
    { unfold nl_optimizeMellinger. destruct (nl_nlopt fresh); [|discriminate].
      destruct (negb _); [intros E; apply Ok_inj in E; subst v; apply by_refl|].
      destruct (nlopt_drive _ _ _ _ _) as [[m e]| | |] eqn:Ed; cbn [obind]; try discriminate.
      assert (Q := by_drive is_solve _ by_objectiveMellinger _ _ _ _ Ed). cbn [fst snd].
      assert (HS : forall w, (m0 <-- nl_scaleWithViolation h inv solve rf m;; Ok (m0, w)) = Ok v -> by_calls is_solve (nl_opt n) (nl_opt (fst v))).
      { intros w. destruct (nl_scaleWithViolation h inv solve rf m) as [m0| | |] eqn:Es; cbn [obind]; try discriminate.
        intros E. apply Ok_inj in E. subst v. cbn [fst]. destruct (by_scale _ _ Es) as (x & Sx & _).
        apply by_trans with (nl_opt m); [exact Q|]. eapply by_step_time; [reflexivity|exact Sx]. }
      destruct e as [|x f w|x f].
      - intros E. apply Ok_inj in E. subst v. exact Q.
      - apply HS.
      - destruct (neqb f dbl_max); [|apply HS]. intros E. apply Ok_inj in E. subst v. exact Q. }
    assert (HA : nl_optimizeAll h inv solve rf fexp nlopt fresh = Ok v ->
      exists o, opt_solveLinear h solve (nl_opt n) = Ok o /\ by_calls computes_segments o (nl_opt (fst v))).
    { unfold nl_optimizeAll. destruct (nl_problem h solve fresh) as [[[[o steps] w] x0]| | |] eqn:Ep; cbn [obind]; try discriminate.
      assert (Eo : opt_solveLinear h solve (nl_opt n) = Ok o).
      { unfold nl_problem in Ep. cbn [fresh set_info nl_opt] in Ep.
        destruct (opt_solveLinear h solve (nl_opt n)) as [o'| | |]; cbn [obind] in Ep; try discriminate.
        destruct (o_free o'); [discriminate|]. destruct (Nat.eqb _ 0); [discriminate|].
        destruct (endpoint_bounds _ _ _); cbn [obind] in Ep; try discriminate.
        destruct (widen_bounds _ _); cbn [obind] in Ep; try discriminate.
        do 3 (destruct (negb _); [discriminate|]). apply Ok_inj in Ep. injection Ep as -> _ _ _. reflexivity. }
      destruct (nl_nlopt fresh); [|discriminate].
      destruct (negb _); [intros E; apply Ok_inj in E; subst v; exists o; split; [exact Eo|apply by_refl]|].
      destruct (nlopt_drive _ _ _ _ _) as [[m e]| | |] eqn:Ed; cbn [obind]; try discriminate.
      intros E. assert (Q := by_drive computes_segments _ by_objectiveAll _ _ _ _ Ed). cbn [fst snd] in E.
      exists o. split; [exact Eo|]. destruct e; apply Ok_inj in E; subst v; exact Q. }
    cbn [fst]. unfold joint. destruct (np_method (nl_par n)); split; intros Hj;
      try (destruct Hj as [Hj|Hj]; discriminate); try (exfalso; apply Hj; auto; fail); auto.
    apply Ok_inj in Ev. subst v. apply by_refl.
  Qed.
End Calls.

Section Histories.
  Context {T : Type} {ops : NumOps T} (h : nat) (inv : mat T -> mat T) (solve : mat T -> list T -> list T).
  Context (rf : root_oracle (T := T)) (fexp : T -> T).
  Implicit Types n m : nlo T.
  Implicit Types o : opt T.

  Lemma soft_state n w mc r : nl_softConstraints h rf fexp n w mc = Ok r -> nl_opt (fst r) = nl_opt n /\ same_setting n (fst r).
  Proof. intros H. destruct (soft_loop h rf fexp w mc _ _ _ H) as (A & B & _). cbn [fst] in *. auto. Qed.

  Definition any_call (c : ocall T) : Prop := True.
  Lemma ncall_calls n c n' : no_nsetup c -> run_ncall h inv solve rf fexp n c = Ok n' ->
    by_calls h inv solve any_call (nl_opt n) (nl_opt n').
  Proof.
    intros Hc H. destruct c as [vs times r| |acc d v|alg| | |c]; cbn [run_ncall] in H.
    - contradiction.
    - unfold nl_solveLinear in H. destruct (opt_solveLinear _ _ _) as [o| | |] eqn:E; cbn [obind] in H; try discriminate.
      apply Ok_inj in H. subst n'. cbn [set_opt nl_opt]. eapply by_solve; [exact I|exact E].
    - unfold nl_addConstraint in H. destruct (_ <? 0)%Z; [discriminate|]. destruct (negb _); [discriminate|].
      destruct (np_soft _); [apply Ok_inj in H; subst n'; apply by_refl|].
      destruct (nl_nlopt n); [|discriminate]. apply Ok_inj in H. subst n'. apply by_refl.
    - destruct (nl_optimize h inv solve rf fexp alg n) as [[m res]| | |] eqn:E; cbn [obind] in H; try discriminate.
      apply Ok_inj in H. cbn [fst] in H. subst m.
      destruct (optimize_calls h inv solve rf fexp alg n n' res E) as (A & B).
      assert (J : joint (np_method (nl_par n)) \/ ~ joint (np_method (nl_par n))).
      { unfold joint. destruct (np_method (nl_par n)); auto; right; intros [X|X]; discriminate. }
      destruct J as [J|J].
      + destruct (B J) as (o & E1 & E2). apply by_trans with o; [eapply by_solve; [exact I|exact E1]|].
        eapply by_weak; [|exact E2]. intros; exact I.
      + eapply by_weak; [|exact (A J)]. intros; exact I.
    - destruct (by_scale h inv solve rf n n' H) as (x & Sx & _). eapply by_step_time; [exact I|exact Sx].
    - unfold nl_getTotalCost in H. destruct (opt_computeCost _ _); cbn [obind] in H; try discriminate.
      destruct (nl_softConstraints _ _ _ _ _ _) as [r| | |] eqn:E; cbn [obind] in H; try discriminate.
      apply Ok_inj in H. subst n'. destruct (soft_state _ _ _ _ E) as (Q & _). cbn [fst]. rewrite Q. apply by_refl.
    - destruct (run_ocall h inv solve (nl_opt n) c) as [o| | |] eqn:E; cbn [obind] in H; try discriminate.
      apply Ok_inj in H. subst n'. cbn [set_opt nl_opt]. right. exists [], c. split; [constructor|]. split; [exact I|]. split; [exact Hc|].
      cbn [app run_ocalls]. rewrite E. reflexivity.
  Qed.
  Lemma ncalls_calls : forall cs n n', List.Forall no_nsetup cs -> run_ncalls h inv solve rf fexp n cs = Ok n' ->
    by_calls h inv solve any_call (nl_opt n) (nl_opt n').
  Proof.
    induction cs as [|c cs IH]; intros n n' HF H; cbn [run_ncalls] in H; [apply Ok_inj in H; subst n'; apply by_refl|].
    apply Forall_cons_iff in HF as (Hc & HF).
    destruct (run_ncall h inv solve rf fexp n c) as [m| | |] eqn:E; cbn [obind] in H; try discriminate.
    apply by_trans with (nl_opt m); [exact (ncall_calls _ _ _ Hc E)|exact (IH _ _ HF H)].
  Qed.
  Lemma setup_calls n vs times r n' : nl_setupFromVertices h inv n vs times r = Ok n' ->
    opt_setupFromVertices h inv (nl_opt n) vs times r = Ok (nl_opt n') /\ nl_par n' = nl_par n /\ nl_con n' = nl_con n /\ nl_hard n' = [] /\
    nl_nlopt n' = Some (nl_parameters n (nl_opt n') times).
  Proof.
    unfold nl_setupFromVertices. destruct (opt_setupFromVertices _ _ _ _ _ _) as [o| | |]; cbn [obind]; try discriminate.
    intros H. apply Ok_inj in H. subst n'. cbn. auto.
  Qed.
  (** Any history is a history of the linear optimiser. *)
  Lemma ncalls_history : forall cs n n', run_ncalls h inv solve rf fexp n cs = Ok n' ->
    exists ocs, run_ocalls h inv solve (nl_opt n) ocs = Ok (nl_opt n').
  Proof.
    induction cs as [|c cs IH]; intros n n' H; cbn [run_ncalls] in H.
    - apply Ok_inj in H. subst n'. exists []. reflexivity.
    - destruct (run_ncall h inv solve rf fexp n c) as [m| | |] eqn:E; cbn [obind] in H; try discriminate.
      destruct (IH _ _ H) as (ocs & E2).
      assert (X : exists ocs1, run_ocalls h inv solve (nl_opt n) ocs1 = Ok (nl_opt m)).
      { assert (D : no_nsetup c \/ (exists vs times r, c = NSetup vs times r) \/ exists vs times r, c = NInner (CallSetup vs times r)).
        { destruct c as [vs times r| |acc d v|alg| | |[vs times r| | |]]; cbn; auto; right; eauto. }
        destruct D as [D|[(vs & times & r & ->)|(vs & times & r & ->)]].
        - destruct (ncall_calls _ _ _ D E) as [->|(cs' & c' & _ & _ & _ & E')]; [exists []; reflexivity|eauto].
        - cbn [run_ncall] in E. destruct (setup_calls _ _ _ _ _ E) as (E' & _). exists [CallSetup vs times r].
          cbn [run_ocalls run_ocall]. rewrite E'. reflexivity.
        - cbn [run_ncall] in E. destruct (run_ocall _ _ _ _ _) as [o| | |] eqn:E'; cbn [obind] in E; try discriminate.
          apply Ok_inj in E. subst m. exists [CallSetup vs times r]. cbn [run_ocalls set_opt nl_opt]. rewrite E'. reflexivity. }
      destruct X as (ocs1 & E1). exists (ocs1 ++ ocs). rewrite run_app, E1. exact E2.
  Qed.
  Lemma nl_set_up_inner dim p vs r n : nl_set_up h inv solve rf fexp dim p vs r n -> set_up h inv solve dim vs r (nl_opt n).
  Proof.
    intros (pre & times & mid & n0' & n1' & H0 & H1 & HF & H2).
    destruct (ncalls_history _ _ _ H0) as (ocs & E0). destruct (setup_calls _ _ _ _ _ H1) as (E1 & _).
    destruct (ncalls_calls _ _ _ HF H2) as [E2|(cs & c & A & _ & B & E2)].
    - exists ocs, times, [], (nl_opt n0'), (nl_opt n1'). rewrite E2. split; [exact E0|]. split; [exact E1|]. split; [constructor|reflexivity].
    - exists ocs, times, (cs ++ [c]), (nl_opt n0'), (nl_opt n1'). split; [exact E0|]. split; [exact E1|]. split; [|exact E2].
      apply Forall_app. split; [exact A|]. constructor; [exact B|constructor].
  Qed.

  Lemma by_set_up P dim vs r o o' : set_up h inv solve dim vs r o -> by_calls h inv solve P o o' -> set_up h inv solve dim vs r o'.
  Proof.
    intros S [->|(cs & c & A & _ & B & E)]; [exact S|]. destruct S as (pre & times & mid & o0 & o1 & H0 & H1 & HF & H2).
    exists pre, times, (mid ++ cs ++ [c]), o0, o1. split; [exact H0|]. split; [exact H1|]. split.
    - apply Forall_app. split; [exact HF|]. apply Forall_app. split; [exact A|]. constructor; [exact B|constructor].
    - rewrite run_app, H2. exact E.
  Qed.
  (** The last call. *)
  Definition ends_with (P : ocall T -> Prop) dim vs r o : Prop :=
    exists o0 c, set_up h inv solve dim vs r o0 /\ P c /\ run_ocall h inv solve o0 c = Ok o.
  Lemma by_ends (P : ocall T -> Prop) dim vs r o o' : (forall c, P c -> no_setup c) ->
    ends_with P dim vs r o -> by_calls h inv solve P o o' -> ends_with P dim vs r o'.
  Proof.
    intros HPn He [->|(cs & c & A & HP & B & E)]; [exact He|]. destruct He as (o0 & c0 & S0 & P0 & E0).
    rewrite run_app in E. destruct (run_ocalls h inv solve o cs) as [o1| | |] eqn:E1; cbn [obind] in E; try discriminate.
    cbn [run_ocalls] in E. destruct (run_ocall h inv solve o1 c) as [o2| | |] eqn:E2; cbn [obind] in E; try discriminate.
    apply Ok_inj in E. subst o2. exists o1, c. split; [|split; [exact HP|exact E2]].
    destruct S0 as (pre & times & mid & oa & ob & H0 & H1 & HF & H2).
    exists pre, times, (mid ++ c0 :: cs), oa, ob. split; [exact H0|]. split; [exact H1|]. split.
    - apply Forall_app. split; [exact HF|]. constructor; [exact (HPn _ P0)|exact A].
    - rewrite run_app, H2. cbn [obind run_ocalls]. rewrite E0. exact E1.
  Qed.
  Lemma computes_no_setup (c : ocall T) : computes_segments c -> no_setup c.
  Proof. destruct c; cbn; auto. Qed.
  Lemma is_solve_no_setup (c : ocall T) : is_solve c -> no_setup c.
  Proof. intros ->. exact I. Qed.
End Histories.

Section Settings.
  Context {T : Type} {ops : NumOps T} (h : nat) (inv : mat T -> mat T) (solve : mat T -> list T -> list T).
  Context (rf : root_oracle (T := T)) (fexp : T -> T).
  Implicit Types n m : nlo T.

  Lemma drive_setting obj : (forall n g x r, obj n g x = Ok r -> same_setting n (fst (fst r))) ->
    forall r n n' e, nlopt_drive h rf obj n r = Ok (n', e) -> same_setting n n'.
  Proof.
    intros Ho. induction r as [|x f res|x f|g x k IH|g j x k IH]; intros n n' e H; cbn [nlopt_drive] in H.
    1-3: apply Ok_inj in H; injection H as <- _; apply setting_refl.
    - destruct (obj n g x) as [v| | |] eqn:Eo; cbn [obind] in H; try discriminate.
      apply setting_trans with (fst (fst v)); [exact (Ho _ _ _ _ Eo)|exact (IH _ _ _ _ _ H)].
    - destruct (oget (nl_hard n) j) as [c| | |]; cbn [obind] in H; try discriminate.
      destruct (nl_magnitudeConstraint h rf n g c) as [v| | |] eqn:Em; cbn [obind] in H; try discriminate.
      destruct (magnitude_state h rf _ _ _ _ Em) as (_ & _ & Q & _). apply setting_trans with (fst v); [exact Q|exact (IH _ _ _ _ H)].
  Qed.
  Lemma setting_time n g x r : no_gradient (nl_objectiveTime h inv solve rf fexp) n g x = Ok r -> same_setting n (fst (fst r)).
  Proof.
    unfold no_gradient. destruct (nl_objectiveTime h inv solve rf fexp n g x) as [v| | |] eqn:E; cbn [obind]; try discriminate.
    intros H. apply Ok_inj in H. subst r. exact (proj2 (proj2 (objectiveTime_step _ _ _ _ _ _ _ _ _ E))).
  Qed.
  Lemma setting_all n g x r : no_gradient (nl_objectiveAll h inv rf fexp) n g x = Ok r -> same_setting n (fst (fst r)).
  Proof.
    unfold no_gradient. destruct (nl_objectiveAll h inv rf fexp n g x) as [v| | |] eqn:E; cbn [obind]; try discriminate.
    intros H. apply Ok_inj in H. subst r. exact (proj2 (proj2 (objectiveAll_step _ _ _ _ _ _ _ _ E))).
  Qed.
  Lemma setting_mellinger n g x r : nl_objectiveMellinger h inv solve n g x = Ok r -> same_setting n (fst (fst r)).
  Proof.
    unfold nl_objectiveMellinger. destruct (negb g); [discriminate|]. destruct (negb _); [discriminate|]. intros H.
    destruct (opt_updateSegmentTimes _ _ _ _); cbn [obind] in H; try discriminate.
    destruct (opt_solveLinear _ _ _); cbn [obind] in H; try discriminate.
    destruct (mellinger_gradient h inv solve _); cbn [obind] in H; try discriminate.
    apply Ok_inj in H. subst r. repeat split.
  Qed.

  Lemma setting_optimize alg n n' res : nl_optimize h inv solve rf fexp alg n = Ok (n', res) -> same_setting n n'.
  Proof.
    unfold nl_optimize. set (fresh := set_info n info_new). intros H.
    match type of H with obind ?X _ = _ => destruct X as [v| | |] eqn:Ev end; cbn [obind] in H; try discriminate.
    apply Ok_inj in H. injection H as <- _.
    assert (G : same_setting fresh (fst v)); [|exact G].
    assert (HT : nl_optimizeTime h inv solve rf fexp alg fresh = Ok v -> same_setting fresh (fst v)).
    { unfold nl_optimizeTime. destruct (nl_nlopt fresh); [|discriminate].
      destruct (negb _); [intros E; apply Ok_inj in E; subst v; apply setting_refl|].
      destruct (nlopt_drive _ _ _ _ _) as [[m e]| | |] eqn:Ed; cbn [obind]; try discriminate.
      intros E. assert (Q := drive_setting _ setting_time _ _ _ _ Ed).
      cbn [fst snd] in E. destruct e; apply Ok_inj in E; subst v; exact Q. }
    assert (HM : nl_optimizeMellinger h inv solve rf alg fresh = Ok v -> same_setting fresh (fst v)).
    { unfold nl_optimizeMellinger. destruct (nl_nlopt fresh); [|discriminate].
      destruct (negb _); [intros E; apply Ok_inj in E; subst v; apply setting_refl|].
      destruct (nlopt_drive _ _ _ _ _) as [[m e]| | |] eqn:Ed; cbn [obind]; try discriminate.
      assert (Q := drive_setting _ setting_mellinger _ _ _ _ Ed). cbn [fst snd].
      assert (HS : forall w, (m0 <-- nl_scaleWithViolation h inv solve rf m;; Ok (m0, w)) = Ok v -> same_setting fresh (fst v)).
      { intros w. destruct (nl_scaleWithViolation h inv solve rf m) as [m0| | |] eqn:Es; cbn [obind]; try discriminate.
        intros E. apply Ok_inj in E. subst v. destruct (by_scale h inv solve rf _ _ Es) as (x & _ & Sx).
        apply setting_trans with m; assumption. }
      destruct e as [|x f w|x f].
      - intros E. apply Ok_inj in E. subst v. exact Q.
      - apply HS.
      - destruct (neqb f dbl_max); [|apply HS]. intros E. apply Ok_inj in E. subst v. exact Q. }
    assert (HA : nl_optimizeAll h inv solve rf fexp alg fresh = Ok v -> same_setting fresh (fst v)).
    { unfold nl_optimizeAll. destruct (nl_problem h solve fresh) as [[[[o steps] w] x0]| | |] eqn:Ep; cbn [obind]; try discriminate.
      destruct (nl_nlopt fresh); [|discriminate].
      destruct (negb _); [intros E; apply Ok_inj in E; subst v; repeat split|].
      destruct (nlopt_drive _ _ _ _ _) as [[m e]| | |] eqn:Ed; cbn [obind]; try discriminate.
      intros E. assert (Q := drive_setting _ setting_all _ _ _ _ Ed). cbn [fst snd] in E.
      destruct e; apply Ok_inj in E; subst v; exact Q. }
    destruct (np_method (nl_par n)); auto. apply Ok_inj in Ev. subst v. apply setting_refl.
  Qed.

  Lemma ncall_setting n c n' : no_nsetup c -> run_ncall h inv solve rf fexp n c = Ok n' ->
    nl_par n' = nl_par n /\ nl_nlopt n' = nl_nlopt n.
  Proof.
    intros Hc H. destruct c as [vs times r| |acc d v|alg| | |c]; cbn [run_ncall] in H.
    - contradiction.
    - unfold nl_solveLinear in H. destruct (opt_solveLinear _ _ _) as [o| | |] eqn:E; cbn [obind] in H; try discriminate.
      apply Ok_inj in H. subst n'. auto.
    - unfold nl_addConstraint in H. destruct (_ <? 0)%Z; [discriminate|]. destruct (negb _); [discriminate|].
      destruct (np_soft _); [apply Ok_inj in H; subst n'; auto|].
      destruct (nl_nlopt n) eqn:En; [|discriminate]. apply Ok_inj in H. subst n'. auto.
    - destruct (nl_optimize h inv solve rf fexp alg n) as [[m res]| | |] eqn:E; cbn [obind] in H; try discriminate.
      apply Ok_inj in H. cbn [fst] in H. subst m. destruct (setting_optimize _ _ _ _ E) as (A & _ & B & _). auto.
    - destruct (by_scale h inv solve rf n n' H) as (x & _ & A & _ & B & _). auto.
    - unfold nl_getTotalCost in H. destruct (opt_computeCost _ _); cbn [obind] in H; try discriminate.
      destruct (nl_softConstraints _ _ _ _ _ _) as [r| | |] eqn:E; cbn [obind] in H; try discriminate.
      apply Ok_inj in H. subst n'. destruct (soft_state _ _ _ _ _ _ _ E) as (_ & A & _ & B & _). auto.
    - destruct (run_ocall h inv solve (nl_opt n) c) as [o| | |] eqn:E; cbn [obind] in H; try discriminate.
      apply Ok_inj in H. subst n'. auto.
  Qed.
  Lemma ncalls_par : forall cs n n', run_ncalls h inv solve rf fexp n cs = Ok n' -> nl_par n' = nl_par n.
  Proof.
    induction cs as [|c cs IH]; intros n n' H; cbn [run_ncalls] in H; [apply Ok_inj in H; congruence|].
    destruct (run_ncall h inv solve rf fexp n c) as [m| | |] eqn:E; cbn [obind] in H; try discriminate.
    rewrite (IH _ _ H). clear H IH.
    assert (D : no_nsetup c \/ (exists vs times r, c = NSetup vs times r) \/ exists vs times r, c = NInner (CallSetup vs times r)).
    { destruct c as [vs times r| |acc d v|alg| | |[vs times r| | |]]; cbn; auto; right; eauto. }
    destruct D as [D|[(vs & times & r & ->)|(vs & times & r & ->)]].
    - exact (proj1 (ncall_setting _ _ _ D E)).
    - cbn [run_ncall] in E. apply (setup_calls h inv _ _ _ _ _ E).
    - cbn [run_ncall] in E. destruct (run_ocall _ _ _ _ _); cbn [obind] in E; try discriminate. apply Ok_inj in E. subst m. reflexivity.
  Qed.
  Lemma ncalls_setting : forall cs n n', List.Forall no_nsetup cs -> run_ncalls h inv solve rf fexp n cs = Ok n' ->
    nl_par n' = nl_par n /\ nl_nlopt n' = nl_nlopt n.
  Proof.
    induction cs as [|c cs IH]; intros n n' HF H; cbn [run_ncalls] in H; [apply Ok_inj in H; subst; auto|].
    apply Forall_cons_iff in HF as (Hc & HF).
    destruct (run_ncall h inv solve rf fexp n c) as [m| | |] eqn:E; cbn [obind] in H; try discriminate.
    destruct (ncall_setting _ _ _ Hc E) as (A & B). destruct (IH _ _ HF H) as (A' & B'). split; congruence.
  Qed.

  (** nlopt_ has as many parameters as the method varies. *)
  Lemma nl_set_up_setting dim p vs r n : List.Forall vertex_wf vs -> nl_set_up h inv solve rf fexp dim p vs r n ->
    nl_par n = p /\ nl_nlopt n = Some (match np_method p with
      | kSquaredTime | kRichterTime | kMellingerOuterLoop => length vs - 1
      | _ => (length vs - 1) + length (unconstrained h vs) * dim end) /\ (1 <= length vs)%nat.
  Proof.
    intros Hwf (pre & times & mid & m0 & m1 & H0 & H1 & HF & H2).
    assert (P0 := ncalls_par _ _ _ H0). cbn [nl_new nl_par] in P0.
    destruct (setup_calls h inv _ _ _ _ _ H1) as (E1 & P1 & _ & _ & N1).
    destruct (ncalls_setting _ _ _ HF H2) as (P2 & N2).
    destruct (ncalls_history h inv solve rf fexp _ _ _ H0) as (ocs & E0). cbn [nl_new nl_opt] in E0.
    destruct (reached_shaped h inv solve dim ocs _ E0) as (Sh & Hd).
    destruct (setup_prepared h inv vs _ times r _ Hwf Sh E1) as (Pr & T1 & D1 & _ & _).
    assert (Hn := pr_nseg _ _ _ _ Pr). assert (Ht := pr_times _ _ _ _ Pr). rewrite T1 in Ht.
    assert (Hf := prepared_nfree h inv vs _ Pr).
    split; [congruence|]. split; [|lia]. rewrite N2, N1. unfold nl_parameters. rewrite P0, Hf, D1, Hd.
    replace (length times) with (length vs - 1) by lia. reflexivity.
  Qed.
End Settings.
