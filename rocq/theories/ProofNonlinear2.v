(** The objectives of the nonlinear optimiser and the nlopt loop. *)
From Coq Require Import ZArith List Bool Lia.
From Verif Require Import Num RSum ModelPolynomial ModelSegment ModelVertex SpecVertex ModelTrajectory
  ModelLinear SpecLinear ProofTrajectory3 ProofSegment2 ProofMatrix ProofHermite ProofLinear ProofLinear5
  ModelNonlinear SpecNonlinear ProofNonlinear.
Import ListNotations.

Section Objectives.
  Context {T : Type} {ops : NumOps T} (h : nat) (inv : mat T -> mat T) (solve : mat T -> list T -> list T).
  Context (rf : root_oracle (T := T)) (fexp : T -> T).
  Implicit Types (o a b : opt T) (n : nlo T).

  (** Everything except the linear optimiser and the information record. *)
  Definition same_setting n n' : Prop :=
    nl_par n' = nl_par n /\ nl_con n' = nl_con n /\ nl_nlopt n' = nl_nlopt n /\ nl_hard n' = nl_hard n.
  Lemma setting_refl n : same_setting n n.
  Proof. repeat split. Qed.
  Lemma setting_trans n1 n2 n3 : same_setting n1 n2 -> same_setting n2 n3 -> same_setting n1 n3.
  Proof. unfold same_setting. intros (A & B & C & D) (A' & B' & C' & D'). repeat split; congruence. Qed.

  Lemma magnitude_state n g c r : nl_magnitudeConstraint h rf n g c = Ok r ->
    g = false /\ nl_opt (fst r) = nl_opt n /\ same_setting n (fst r) /\
    exists e es, opt_maximumOfMagnitude h rf (nl_opt n) (fst c) = Ok (e, es) /\ snd r = nsub (ext_value e) (snd c).
  Proof.
    unfold nl_magnitudeConstraint. destruct g; [discriminate|].
    destruct (opt_maximumOfMagnitude h rf (nl_opt n) (fst c)) as [[e es]| | |]; cbn [obind]; try discriminate.
    intros H. apply Ok_inj in H. subst r. cbn [fst snd set_info nl_opt]. split; [reflexivity|]. split; [reflexivity|].
    split; [repeat split|]. exists e, es. split; reflexivity.
  Qed.

  Definition soft_step (weight maximum_cost : T) (st : nlo T * T) (c : Z * T) : outcome (nlo T * T) :=
    r <-- nl_magnitudeConstraint h rf (fst st) false c ;;
    let relative := ndiv (snd r) (snd c) in
    Ok (fst r, nadd (snd st) (nmin maximum_cost (fexp (nmul relative weight)))).
  Lemma soft_loop weight mc : forall con st r, ofold (soft_step weight mc) con st = Ok r ->
    nl_opt (fst r) = nl_opt (fst st) /\ same_setting (fst st) (fst r) /\
    exists peaks, length peaks = length con /\
      (forall i, (i < length con)%nat -> exists es,
         opt_maximumOfMagnitude h rf (nl_opt (fst st)) (fst (nth i con (0%Z, n0))) = Ok (nth i peaks (mkExtremum n0 n0 0%Z), es)) /\
      snd r = fold_left (fun acc p => nadd acc
        (nmin mc (fexp (nmul (ndiv (nsub (ext_value (fst p)) (snd (snd p))) (snd (snd p))) weight)))) (combine peaks con) (snd st).
  Proof.
    induction con as [|c con IH]; intros st r H; cbn [ofold] in H.
    - apply Ok_inj in H. subst r. split; [reflexivity|]. split; [apply setting_refl|]. exists [].
      split; [reflexivity|]. split; [intros i Hi; cbn in Hi; lia|reflexivity].
    - unfold soft_step at 1 in H. destruct (nl_magnitudeConstraint h rf (fst st) false c) as [v| | |] eqn:E; cbn [obind] in H; try discriminate.
      destruct (magnitude_state _ _ _ _ E) as (_ & E1 & E2 & e & es & E3 & E4).
      destruct (IH _ _ H) as (A & B & peaks & L & C & D). cbn [fst] in *.
      split; [congruence|]. split; [eapply setting_trans; eassumption|].
      exists (e :: peaks). split; [cbn; lia|]. split.
      + intros [|i] Hi; cbn [nth]; [exists es; exact E3|]. rewrite <- E1. apply C. cbn in Hi. lia.
      + rewrite D. cbn [snd combine fold_left fst]. rewrite E4. reflexivity.
  Qed.

  Lemma finish_state n ct ci r : nl_finishObjective h rf fexp n ct ci = Ok r ->
    nl_opt (fst r) = nl_opt n /\ same_setting n (fst r) /\
    exists soft, snd r = nadd (nadd ct ci) soft /\
      ni_trajectory (nl_inf (fst r)) = ct /\ ni_time (nl_inf (fst r)) = ci /\ ni_soft (nl_inf (fst r)) = soft /\
      (np_soft (nl_par n) = false -> soft = n0) /\
      (np_soft (nl_par n) = true -> exists n', nl_softConstraints h rf fexp n (np_weight (nl_par n)) kMaxSoftCost = Ok (n', soft)).
  Proof.
    unfold nl_finishObjective. destruct (np_soft (nl_par n)) eqn:Es.
    - destruct (nl_softConstraints _ _ _ _ _ _) as [s| | |] eqn:E; cbn [obind]; try discriminate.
      intros H. apply Ok_inj in H. subst r.
      destruct (soft_loop _ _ _ _ _ E) as (A & B & _). cbn [fst snd set_info nl_opt nl_inf ni_trajectory ni_time ni_soft].
      split; [exact A|]. split; [exact B|]. exists (snd s). do 4 (split; [reflexivity|]). split; [discriminate|].
      intros _. exists (fst s). destruct s; reflexivity.
    - cbn [obind]. intros H. apply Ok_inj in H. subst r. cbn [fst snd set_info nl_opt nl_inf ni_trajectory ni_time ni_soft].
      split; [reflexivity|]. split; [repeat split|]. exists n0. do 4 (split; [reflexivity|]). split; [reflexivity|discriminate].
  Qed.

  (** What one evaluation does to the linear optimiser. *)
  Definition step_time o (x : list T) o' : Prop :=
    exists o1, opt_updateSegmentTimes h inv o x = Ok o1 /\ opt_solveLinear h solve o1 = Ok o'.
  Definition step_all o (x : list T) o' : Prop :=
    length x = (o_nseg o + o_nfree o * o_dim o)%nat /\
    exists o1, opt_updateSegmentTimes h inv o (unpack_times (o_nseg o) x) = Ok o1 /\
      opt_setFreeConstraints h o1 (unpack_free (o_nseg o) (o_nfree o) (o_dim o) x) = Ok o'.

  Lemma objectiveTime_step n g x r : nl_objectiveTime h inv solve rf fexp n g x = Ok r ->
    g = false /\ step_time (nl_opt n) x (nl_opt (fst r)) /\ same_setting n (fst r).
  Proof.
    unfold nl_objectiveTime. destruct g; [discriminate|]. destruct (negb _); [discriminate|].
    destruct (opt_updateSegmentTimes h inv (nl_opt n) x) as [o1| | |] eqn:E1; cbn [obind]; try discriminate.
    destruct (opt_solveLinear h solve o1) as [o2| | |] eqn:E2; cbn [obind]; try discriminate.
    destruct (opt_computeCost h o2) as [c| | |] eqn:E3; cbn [obind]; try discriminate.
    intros H. destruct (finish_state _ _ _ _ H) as (A & B & _). split; [reflexivity|].
    split; [exists o1; rewrite A; split; [exact E1|exact E2]|]. exact B.
  Qed.
  Lemma objectiveAll_step n g x r : nl_objectiveAll h inv rf fexp n g x = Ok r ->
    g = false /\ step_all (nl_opt n) x (nl_opt (fst r)) /\ same_setting n (fst r).
  Proof.
    unfold nl_objectiveAll. destruct g; [discriminate|].
    destruct (Nat.eqb_spec (length x) (o_nseg (nl_opt n) + o_nfree (nl_opt n) * o_dim (nl_opt n))) as [El|]; cbn [negb]; [|discriminate].
    destruct (opt_updateSegmentTimes h inv (nl_opt n) _) as [o1| | |] eqn:E1; cbn [obind]; try discriminate.
    destruct (opt_setFreeConstraints h o1 _) as [o2| | |] eqn:E2; cbn [obind]; try discriminate.
    destruct (opt_computeCost h o2) as [c| | |] eqn:E3; cbn [obind]; try discriminate.
    intros H. destruct (finish_state _ _ _ _ H) as (A & B & _). split; [reflexivity|].
    split; [split; [exact El|]; exists o1; rewrite A; split; [exact E1|exact E2]|]. exact B.
  Qed.

  (** Mellinger gradient. *)
  Lemma mellinger_loop times nseg J : forall idx st r,
    ofold (mellinger_step h inv solve times nseg J) idx st = Ok r ->
    same_problem (fst st) (fst r) /\ length (snd r) = (length (snd st) + length idx)%nat.
  Proof.
    induction idx as [|i idx IH]; intros st r H; cbn [ofold] in H.
    - apply Ok_inj in H. subst r. split; [apply same_refl|cbn; lia].
    - unfold mellinger_step at 1 in H.
      destruct (opt_updateSegmentTimes h inv (fst st) _) as [o1| | |] eqn:E1; cbn [obind] in H; try discriminate.
      destruct (opt_solveLinear h solve o1) as [o2| | |] eqn:E2; cbn [obind] in H; try discriminate.
      destruct (opt_computeCost h o2) as [c| | |] eqn:E3; cbn [obind] in H; try discriminate.
      destruct (IH _ _ H) as (A & B). cbn [fst snd] in *. split.
      + eapply same_trans; [|exact A]. eapply same_trans; [apply (times_same h inv _ _ _ E1)|apply (solve_same_problem h solve _ _ E2)].
      + rewrite B, app_length. cbn. lia.
  Qed.
End Objectives.

(** ** Path independence *)
Section Path.
  Context {T : Type} {ops : NumOps T} (h : nat) (inv : mat T -> mat T) (solve : mat T -> list T -> list T).
  Context (Hsol : forall A v, length (solve A v) = length v).
  Implicit Types (o a b : opt T) (vs : list (vertex T)).

  Lemma step_time_same o x o' : step_time h inv solve o x o' -> same_problem o o' /\ o_times o' = x.
  Proof.
    intros (o1 & E1 & E2). destruct (times_same h inv _ _ _ E1) as (A & B & _).
    destruct (solve_same_problem h solve _ _ E2) as (C & D & _). split; [eapply same_trans; eassumption|congruence].
  Qed.
  Lemma step_time_prepared vs o x o' : prepared h inv vs o -> step_time h inv solve o x o' -> prepared h inv vs o' /\ synced h o'.
  Proof.
    intros P (o1 & E1 & E2). destruct (times_prepared h inv vs _ _ _ P E1) as (P1 & _).
    destruct (solve_prepared h inv solve vs _ _ P1 E2) as (P2 & S2 & _). split; assumption.
  Qed.

  Lemma step_time_again vs o o' y o2 : (0 < o_dim o)%nat -> prepared h inv vs o -> prepared h inv vs o' ->
    same_problem o o' -> step_time h inv solve o' y o2 -> step_time h inv solve o y o2.
  Proof.
    intros Hd P P' S (a & E1 & E2). destruct (times_same h inv _ _ _ E1) as (A1 & A2 & A3 & A4 & A5).
    specialize (A5 o (same_sym _ _ S)).
    set (b := varied a (o_times a) (o_inv a) (o_cost a) (o_segments o) (o_free o)) in *.
    exists b. split; [exact A5|].
    destruct (times_prepared h inv vs _ _ _ P' E1) as (Pa & _). destruct (times_prepared h inv vs _ _ _ P A5) as (Pb & _).
    assert (Sab : same_problem a b).
    { split; [reflexivity|]. intros Hn. cbn [b varied o_free]. rewrite A3.
      destruct S as (_ & F). symmetry. apply F. 
      destruct (same_fields _ _ A1) as (_ & _ & _ & _ & _ & _ & _ & _ & _ & X).
      destruct (times_same h inv _ _ _ A5) as (Y & _).
      destruct (same_fields _ _ Y) as (_ & _ & _ & _ & _ & _ & _ & _ & _ & Z). cbn [b varied o_nfree] in Z. congruence. }
    apply (solve_same h inv solve vs a b o2 Hsol); try assumption; try reflexivity.
    destruct (same_fields _ _ A1) as (X & _). rewrite X.
    destruct (times_same h inv _ _ _ A5) as (Y & _). destruct (same_fields _ _ Y) as (Z & _).
    cbn [b varied o_dim] in Z. rewrite <- X, Z. exact Hd.
  Qed.

  (** For steps that set the free constraints the earlier ones do not matter. *)
  Definition alike o o' : Prop := o' = varied o (o_times o') (o_inv o') (o_cost o') (o_segments o') (o_free o').
  Lemma alike_refl o : alike o o.
  Proof. destruct o; reflexivity. Qed.
  Lemma alike_fields o o' : alike o o' ->
    o_dim o' = o_dim o /\ o_deriv o' = o_deriv o /\ o_vertices o' = o_vertices o /\ o_reorder o' = o_reorder o /\
    o_fixed o' = o_fixed o /\ o_nvert o' = o_nvert o /\ o_nseg o' = o_nseg o /\ o_nall o' = o_nall o /\
    o_nfixed o' = o_nfixed o /\ o_nfree o' = o_nfree o.
  Proof. intros E. rewrite E. cbn [varied o_dim o_deriv o_vertices o_reorder o_fixed o_nvert o_nseg o_nall o_nfixed o_nfree]. tauto. Qed.
  Lemma alike_of o o' : o_dim o' = o_dim o -> o_deriv o' = o_deriv o -> o_vertices o' = o_vertices o -> o_reorder o' = o_reorder o ->
    o_fixed o' = o_fixed o -> o_nvert o' = o_nvert o -> o_nseg o' = o_nseg o -> o_nall o' = o_nall o ->
    o_nfixed o' = o_nfixed o -> o_nfree o' = o_nfree o -> alike o o'.
  Proof. intros. unfold alike, varied. destruct o'; cbn in *; congruence. Qed.
  Lemma alike_sym o o' : alike o o' -> alike o' o.
  Proof. intros H. destruct (alike_fields _ _ H) as (?&?&?&?&?&?&?&?&?&?). apply alike_of; congruence. Qed.
  Lemma alike_trans o1 o2 o3 : alike o1 o2 -> alike o2 o3 -> alike o1 o3.
  Proof.
    intros H H'. destruct (alike_fields _ _ H) as (?&?&?&?&?&?&?&?&?&?). destruct (alike_fields _ _ H') as (?&?&?&?&?&?&?&?&?&?).
    apply alike_of; congruence.
  Qed.
  Lemma same_alike o o' : same_problem o o' -> alike o o'.
  Proof. intros (E & _). exact E. Qed.
  Lemma times_alike o o' times a : alike o o' -> opt_updateSegmentTimes h inv o times = Ok a ->
    opt_updateSegmentTimes h inv o' times = Ok (varied a (o_times a) (o_inv a) (o_cost a) (o_segments o') (o_free o')).
  Proof.
    intros S H. unfold opt_updateSegmentTimes in *.
    destruct (alike_fields _ _ S) as (E1 & E2 & E3 & E4 & E5 & E6 & E7 & E8 & E9 & E10).
    rewrite E7, E2. destruct (negb _) eqn:El; [discriminate|].
    destruct (omap _ times) as [ms| | |] eqn:Em; cbn [obind] in *; try discriminate.
    apply Ok_inj in H. subst a. f_equal.
    unfold varied. cbn [o_dim o_deriv o_vertices o_reorder o_fixed o_nvert o_nseg o_nall o_nfixed o_nfree o_times o_inv o_cost].
    congruence.
  Qed.

  Lemma setFree_eq vs a b free r : (0 < o_dim a)%nat -> prepared h inv vs a -> prepared h inv vs b -> alike a b ->
    o_times b = o_times a -> o_inv b = o_inv a -> o_cost b = o_cost a ->
    opt_setFreeConstraints h a free = Ok r -> opt_setFreeConstraints h b free = Ok r.
  Proof.
    intros Hd Pa Pb S Et Ei Ec H. unfold opt_setFreeConstraints in *.
    destruct (alike_fields _ _ S) as (E1 & E2 & E3 & E4 & E5 & E6 & E7 & E8 & E9 & E10).
    rewrite E1, E10.
    destruct (Nat.eqb_spec (length free) (o_dim a)) as [El|]; cbn [negb] in *; [|discriminate].
    destruct (forallb _ free) eqn:Ef; cbn [negb] in *; [|discriminate].
    fold (with_free a free) in H. rewrite <- H.
    match goal with |- opt_updateSegments h ?x = _ =>
      assert (Q1 : x = with_segments (with_free a free) (o_segments b)) by
        (unfold with_segments, with_free; cbn [o_dim o_deriv o_vertices o_reorder o_fixed o_nvert o_nseg o_nall o_nfixed o_nfree o_times o_inv o_cost o_free]; congruence)
    end.
    rewrite Q1. transitivity (opt_updateSegments h (with_segments (with_free a free) (o_segments a))); [|reflexivity].
    destruct (prepared_shaped h inv vs a Pa) as (A1 & A2 & A3). destruct (prepared_shaped h inv vs b Pb) as (B1 & B2 & B3).
    apply update_same.
    - exact Hd.
    - split; [cbn [with_segments with_free o_segments o_nseg]; congruence|]. cbn [with_segments with_free o_segments o_dim o_free].
      split; [rewrite <- E1; exact B2|exact El].
    - split; [exact A1|]. split; [exact A2|exact El].
    - exact (prepared_sized h inv vs a Pa).
    - intros d Hdd. cbn [with_free o_free o_nfree o_dim] in *. rewrite forallb_forall in Ef. apply Nat.eqb_eq, Ef, nth_In. lia.
  Qed.

  Lemma step_all_same o x o' : step_all h inv o x o' ->
    alike o o' /\ o_times o' = unpack_times (o_nseg o) x /\ o_free o' = unpack_free (o_nseg o) (o_nfree o) (o_dim o) x.
  Proof.
    intros (_ & o1 & E1 & E2). destruct (times_same h inv _ _ _ E1) as (A & B & _).
    destruct (setFree_same_problem h _ _ _ E2) as (C & _ & _ & D & E & _).
    split; [eapply alike_trans; [apply same_alike, A|exact E]|]. split; congruence.
  Qed.
  Lemma step_all_prepared vs o x o' : prepared h inv vs o -> step_all h inv o x o' -> prepared h inv vs o' /\ synced h o'.
  Proof.
    intros P (_ & o1 & E1 & E2). destruct (times_prepared h inv vs _ _ _ P E1) as (P1 & _).
    destruct (setFree_prepared h inv vs _ _ _ P1 E2) as (P2 & S2 & _). split; assumption.
  Qed.
  Lemma step_all_again vs o o' y o2 : (0 < o_dim o)%nat -> prepared h inv vs o -> prepared h inv vs o' ->
    alike o o' -> step_all h inv o' y o2 -> step_all h inv o y o2.
  Proof.
    intros Hd P P' S (El & a & E1 & E2). destruct (alike_fields _ _ S) as (F1 & _ & _ & _ & _ & _ & F7 & _ & _ & F10).
    assert (A5 := times_alike _ o _ _ (alike_sym _ _ S) E1).
    rewrite F1, F7, F10 in *. split; [exact El|]. eexists. split; [exact A5|].
    destruct (times_prepared h inv vs _ _ _ P' E1) as (Pa & _). destruct (times_prepared h inv vs _ _ _ P A5) as (Pb & _).
    apply (setFree_eq vs a); try assumption; try reflexivity.
    destruct (times_same h inv _ _ _ E1) as (Y & _). destruct (same_fields _ _ Y) as (Z & _). congruence.
  Qed.
End Path.
