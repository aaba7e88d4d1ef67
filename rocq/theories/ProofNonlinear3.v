(** The nlopt loop and the state it leaves. *)
From Coq Require Import ZArith List Bool Lia.
From Verif Require Import Num RSum ModelPolynomial ModelSegment ModelVertex SpecVertex ModelTrajectory
  ModelLinear SpecLinear ProofTrajectory3 ProofSegment2 ProofMatrix ProofHermite ProofLinear ProofLinear5
  ModelNonlinear SpecNonlinear ProofNonlinear ProofNonlinear2.
Import ListNotations.

Section Drive.
  Context {T : Type} {ops : NumOps T} (h : nat) (rf : root_oracle (T := T)).
  Implicit Types (o : opt T) (n : nlo T).
  Context (obj : nlo T -> bool -> list T -> outcome (nlo T * T * list T)).
  Context (step : opt T -> list T -> opt T -> Prop) (rel : opt T -> opt T -> Prop) (P : opt T -> Prop).
  Context (rel_refl : forall o, rel o o) (rel_trans : forall a b c, rel a b -> rel b c -> rel a c).
  Context (Hobj : forall n g x r, P (nl_opt n) -> obj n g x = Ok r ->
             step (nl_opt n) x (nl_opt (fst (fst r))) /\ same_setting n (fst (fst r))).
  Context (Hstep : forall o x o', P o -> step o x o' -> P o' /\ rel o o').
  Context (Hagain : forall o o' y o2, P o -> P o' -> rel o o' -> step o' y o2 -> step o y o2).

  (** The state after the run is that after its last evaluation alone. *)
  Definition left_by o (pts : list (list T)) o' : Prop :=
    match pts with
    | [] => o' = o
    | _ => step o (last pts []) o'
    end.

  Lemma drive_left : forall r n n' e, P (nl_opt n) -> nlopt_drive h rf obj n r = Ok (n', e) ->
    same_setting n n' /\ P (nl_opt n') /\ rel (nl_opt n) (nl_opt n') /\
    left_by (nl_opt n) (points_asked h rf obj n r) (nl_opt n').
  Proof.
    induction r as [|x f res|x f|g x k IH|g j x k IH]; intros n n' e HP H; cbn [nlopt_drive points_asked] in *.
    - apply Ok_inj in H. injection H as <- _. repeat split; auto.
    - apply Ok_inj in H. injection H as <- _. repeat split; auto.
    - apply Ok_inj in H. injection H as <- _. repeat split; auto.
    - destruct (obj n g x) as [[[m v] gr]| | |] eqn:E; cbn [obind] in H; try discriminate. cbn [fst snd] in H.
      destruct (Hobj _ _ _ _ HP E) as (S1 & S2). cbn [fst] in *.
      destruct (Hstep _ _ _ HP S1) as (P1 & R1).
      destruct (IH v gr _ _ _ P1 H) as (A & B & C & D).
      split; [eapply setting_trans; eassumption|]. split; [exact B|]. split; [eapply rel_trans; eassumption|].
      unfold left_by in *. destruct (points_asked h rf obj m (k v gr)) as [|y pts] eqn:Ep.
      + cbn [last]. rewrite D. exact S1.
      + replace (last (x :: y :: pts) []) with (last (y :: pts) []) by reflexivity.
        exact (Hagain _ _ _ _ HP P1 R1 D).
    - unfold oget in H. destruct (nth_error (nl_hard n) j) as [c|]; cbn [obind] in H; [|discriminate].
      destruct (nl_magnitudeConstraint h rf n g c) as [[m v]| | |] eqn:E; cbn [obind] in H; try discriminate.
      cbn [fst snd] in H.
      destruct (magnitude_state h rf _ _ _ _ E) as (_ & E1 & E2 & _). cbn [fst] in *.
      assert (P1 : P (nl_opt m)) by (rewrite E1; exact HP).
      destruct (IH v _ _ _ P1 H) as (A & B & C & D). rewrite E1 in *.
      split; [exact (setting_trans _ _ _ E2 A)|]. auto.
  Qed.
End Drive.

Section Optimise.
  Context {T : Type} {ops : NumOps T} (h : nat) (inv : mat T -> mat T) (solve : mat T -> list T -> list T).
  Context (rf : root_oracle (T := T)) (fexp : T -> T).
  Context (Hsol : forall A v, length (solve A v) = length v).
  Implicit Types (o : opt T) (n : nlo T) (vs : list (vertex T)).

  Lemma update_self vs o : prepared h inv vs o -> opt_updateSegmentTimes h inv o (o_times o) = Ok o.
  Proof.
    intros P. unfold opt_updateSegmentTimes. rewrite (pr_times _ _ _ _ P), Nat.eqb_refl. cbn [negb].
    destruct (pr_mats _ _ _ _ P) as (ms & Em & Ei & Ec).
    match goal with |- obind ?X _ = _ => replace X with (Ok ms : outcome (list (mat T * mat T))) by (symmetry; exact Em) end.
    cbn [obind]. rewrite <- Ei, <- Ec. destruct o; reflexivity.
  Qed.

  Lemma solve_again vs o o' : (0 < o_dim o)%nat -> prepared h inv vs o -> opt_solveLinear h solve o = Ok o' ->
    opt_solveLinear h solve o' = Ok o'.
  Proof.
    intros Hd P E. destruct (solve_same_problem h solve _ _ E) as (S & A & B & C).
    destruct (solve_prepared h inv solve vs _ _ P E) as (P' & _).
    now apply (solve_same h inv solve vs o o' o' Hsol).
  Qed.
  Lemma step_self vs o x o' : (0 < o_dim o)%nat -> prepared h inv vs o -> step_time h inv solve o x o' ->
    step_time h inv solve o' x o'.
  Proof.
    intros Hd P St. assert (Q := step_time_prepared h inv solve vs _ _ _ P St). destruct Q as (P' & _).
    destruct (step_time_same h inv solve _ _ _ St) as (S & Et).
    destruct (same_fields _ _ S) as (Ed & _).
    refine (step_time_again h inv solve Hsol vs o' o _ _ _ P' P (same_sym _ _ S) St). lia.
  Qed.

  (** C44: the gradient computation restores the solved state. *)
  Lemma mellinger_restores vs o x o1 o' J g : (0 < o_dim o)%nat -> prepared h inv vs o ->
    step_time h inv solve o x o1 -> mellinger_gradient h inv solve o1 = Ok (o', J, g) ->
    o' = o1 /\ length g = o_nseg o1 /\ opt_computeCost h o1 = Ok J.
  Proof.
    intros Hd P St H. assert (Q := step_time_prepared h inv solve vs _ _ _ P St). destruct Q as (P1 & _).
    destruct (step_time_same h inv solve _ _ _ St) as (S1 & Et1).
    assert (Hd1 : (0 < o_dim o1)%nat) by (destruct (same_fields _ _ S1) as (-> & _); exact Hd).
    unfold mellinger_gradient in H.
    destruct (opt_computeCost h o1) as [J0| | |]; cbn [obind] in H; try discriminate.
    destruct (Nat.eqb_spec (o_nseg o1) 1) as [E1|E1].
    - apply Ok_inj in H. injection H as <- <- <-. rewrite E1. auto.
    - destruct (ofold _ _ _) as [st| | |] eqn:Ef; cbn [obind] in H; try discriminate.
      destruct (opt_updateSegmentTimes h inv (fst st) (o_times o1)) as [a| | |] eqn:Ea; cbn [obind] in H; try discriminate.
      destruct (opt_solveLinear h solve a) as [b| | |] eqn:Eb; cbn [obind] in H; try discriminate.
      apply Ok_inj in H. injection H as <- <- <-.
      destruct (mellinger_loop h inv solve _ _ _ _ _ _ Ef) as (S2 & L). cbn [fst snd] in *.
      assert (Pst : prepared h inv vs (fst st)).
      { refine (ofold_pres (fun st => prepared h inv vs (fst st)) _ _ _ _ _ Ef P1).
        intros s i s' Ps Es. unfold mellinger_step in Es.
        destruct (opt_updateSegmentTimes h inv (fst s) _) as [u| | |] eqn:Eu; cbn [obind] in Es; try discriminate.
        destruct (opt_solveLinear h solve u) as [w| | |] eqn:Ew; cbn [obind] in Es; try discriminate.
        destruct (opt_computeCost h w); cbn [obind] in Es; try discriminate.
        apply Ok_inj in Es. subst s'. cbn [fst].
        destruct (times_prepared h inv vs _ _ _ Ps Eu) as (Pu & _). apply (solve_prepared h inv solve vs _ _ Pu Ew). }
      assert (St2 : step_time h inv solve (fst st) (o_times o1) b) by (exists a; split; assumption).
      assert (St3 := step_time_again h inv solve Hsol vs o1 (fst st) _ _ Hd1 P1 Pst S2 St2).
      assert (St4 := step_self vs o x o1 Hd P St). rewrite Et1 in St3.
      split; [|split; [rewrite L, seq_length; reflexivity|reflexivity]].
      destruct St3 as (c & C1 & C2). destruct St4 as (d & D1 & D2). congruence.
  Qed.

  Definition good_time dim vs o : Prop := prepared h inv vs o /\ o_dim o = dim.

  Lemma objectiveTime_ok dim vs n g x r : good_time dim vs (nl_opt n) ->
    no_gradient (nl_objectiveTime h inv solve rf fexp) n g x = Ok r ->
    step_time h inv solve (nl_opt n) x (nl_opt (fst (fst r))) /\ same_setting n (fst (fst r)).
  Proof.
    intros _ H. unfold no_gradient in H. destruct (nl_objectiveTime _ _ _ _ _ _ _ _) as [v| | |] eqn:E; cbn [obind] in H; try discriminate.
    apply Ok_inj in H. subst r. cbn [fst]. destruct (objectiveTime_step h inv solve rf fexp _ _ _ _ E) as (_ & A & B). split; assumption.
  Qed.
  Lemma objectiveAll_ok dim vs n g x r : good_time dim vs (nl_opt n) ->
    no_gradient (nl_objectiveAll h inv rf fexp) n g x = Ok r ->
    step_all h inv (nl_opt n) x (nl_opt (fst (fst r))) /\ same_setting n (fst (fst r)).
  Proof.
    intros _ H. unfold no_gradient in H. destruct (nl_objectiveAll _ _ _ _ _ _ _) as [v| | |] eqn:E; cbn [obind] in H; try discriminate.
    apply Ok_inj in H. subst r. cbn [fst]. destruct (objectiveAll_step h inv rf fexp _ _ _ _ E) as (_ & A & B). split; assumption.
  Qed.
  Lemma objectiveMellinger_ok dim vs n g x r : (0 < dim)%nat -> good_time dim vs (nl_opt n) ->
    nl_objectiveMellinger h inv solve n g x = Ok r ->
    step_time h inv solve (nl_opt n) x (nl_opt (fst (fst r))) /\ same_setting n (fst (fst r)).
  Proof.
    intros Hd (P & Ed) H. unfold nl_objectiveMellinger in H. destruct g; [|discriminate]. cbn [negb] in H.
    destruct (negb _); [discriminate|].
    destruct (opt_updateSegmentTimes h inv (nl_opt n) x) as [o1| | |] eqn:E1; cbn [obind] in H; try discriminate.
    destruct (opt_solveLinear h solve o1) as [o2| | |] eqn:E2; cbn [obind] in H; try discriminate.
    destruct (mellinger_gradient h inv solve o2) as [[[o3 J] gr]| | |] eqn:E3; cbn [obind] in H; try discriminate.
    apply Ok_inj in H. subst r. cbn [fst snd set_info set_opt nl_opt].
    assert (St : step_time h inv solve (nl_opt n) x o2) by (exists o1; split; assumption).
    destruct (mellinger_restores vs (nl_opt n) x o2 o3 J gr ltac:(lia) P St E3) as (-> & _).
    split; [exact St|repeat split].
  Qed.

  Lemma good_step_time dim vs o x o' : good_time dim vs o -> step_time h inv solve o x o' ->
    good_time dim vs o' /\ same_problem o o'.
  Proof.
    intros (P & Ed) St. assert (Q := step_time_prepared h inv solve vs _ _ _ P St). destruct Q as (P' & _).
    destruct (step_time_same h inv solve _ _ _ St) as (S & _). destruct (same_fields _ _ S) as (E & _).
    split; [split; [exact P'|congruence]|exact S].
  Qed.
  Lemma good_step_all dim vs o x o' : good_time dim vs o -> step_all h inv o x o' ->
    good_time dim vs o' /\ alike o o'.
  Proof.
    intros (P & Ed) St. assert (Q := step_all_prepared h inv vs _ _ _ P St). destruct Q as (P' & _).
    destruct (step_all_same h inv _ _ _ St) as (S & _). destruct (alike_fields _ _ S) as (E & _).
    split; [split; [exact P'|congruence]|exact S].
  Qed.

  Lemma drive_time dim vs r n n' e : (0 < dim)%nat -> good_time dim vs (nl_opt n) ->
    nlopt_drive h rf (no_gradient (nl_objectiveTime h inv solve rf fexp)) n r = Ok (n', e) ->
    same_setting n n' /\ good_time dim vs (nl_opt n') /\ same_problem (nl_opt n) (nl_opt n') /\
    left_by (step_time h inv solve) (nl_opt n)
      (points_asked h rf (no_gradient (nl_objectiveTime h inv solve rf fexp)) n r) (nl_opt n').
  Proof.
    intros Hd G H. refine (drive_left h rf _ _ same_problem (good_time dim vs) same_refl same_trans _ _ _ r n n' e G H).
    - apply objectiveTime_ok.
    - apply good_step_time.
    - intros o o' y o2 (P1 & D1) (P2 & D2) S. apply (step_time_again h inv solve Hsol vs); try assumption. lia.
  Qed.
  Lemma drive_mellinger dim vs r n n' e : (0 < dim)%nat -> good_time dim vs (nl_opt n) ->
    nlopt_drive h rf (nl_objectiveMellinger h inv solve) n r = Ok (n', e) ->
    same_setting n n' /\ good_time dim vs (nl_opt n') /\ same_problem (nl_opt n) (nl_opt n') /\
    left_by (step_time h inv solve) (nl_opt n)
      (points_asked h rf (nl_objectiveMellinger h inv solve) n r) (nl_opt n').
  Proof.
    intros Hd G H. refine (drive_left h rf _ _ same_problem (good_time dim vs) same_refl same_trans _ _ _ r n n' e G H).
    - intros m g x v. apply (objectiveMellinger_ok dim vs); assumption.
    - apply good_step_time.
    - intros o o' y o2 (P1 & D1) (P2 & D2) S. apply (step_time_again h inv solve Hsol vs); try assumption. lia.
  Qed.
  Lemma drive_all dim vs r n n' e : (0 < dim)%nat -> good_time dim vs (nl_opt n) ->
    nlopt_drive h rf (no_gradient (nl_objectiveAll h inv rf fexp)) n r = Ok (n', e) ->
    same_setting n n' /\ good_time dim vs (nl_opt n') /\ alike (nl_opt n) (nl_opt n') /\
    left_by (step_all h inv) (nl_opt n)
      (points_asked h rf (no_gradient (nl_objectiveAll h inv rf fexp)) n r) (nl_opt n').
  Proof.
    intros Hd G H. refine (drive_left h rf _ _ alike (good_time dim vs) alike_refl alike_trans _ _ _ r n n' e G H).
    - apply objectiveAll_ok.
    - apply good_step_all.
    - intros o o' y o2 (P1 & D1) (P2 & D2) S. apply (step_all_again h inv vs); try assumption. lia.
  Qed.
End Optimise.
