(** C62: the sampler node. *)
From Coq Require Import ZArith Reals List Bool Lia Lra.
From Flocq Require Import IEEE754.BinarySingleNaN.
From Verif Require Import Num RSum ModelPolynomial ModelSegment SpecSegment ModelVertex ModelTrajectory SpecTrajectory ProofTrajectory
  ProofLinear ProofFloat ModelSampling PropSampling ModelMsgs ModelNode.
Import ListNotations.
Notation length := List.length.

(** * Histories *)
Section Histories.
  Context {T M M4 : Type} {ops : NumOps T}.
  Variable mav : mav_functions T.
  Variable dec : M -> outcome (eigen_segment T).
  Variable dec4 : M4 -> outcome (eigen_segment T).
  Variable fuel : nat.
  Variable dt : T.

  (** The event delivers the trajectory tr. *)
  Definition delivers (e : event M M4) (tr : trajectory T) : Prop :=
    match e with
    | PathSegments _ msg => msgToTrajectory dec msg traj_new = Ok (true, tr)
    | PathSegments4D _ msg => msgToTrajectory4D dec4 msg traj_new = Ok (true, tr)
    | _ => False
    end.
  Definition hold_available (e : event M M4) : bool :=
    match e with PathSegments h _ | PathSegments4D h _ => h | _ => false end.
  Definition empty_message (e : event M M4) : Prop :=
    match e with PathSegments _ msg => msg = [] | PathSegments4D _ msg => msg = [] | _ => False end.
  Definition is_tick (e : event M M4) : bool := match e with Tick => true | _ => false end.
  Definition ticks (es : list (event M M4)) : nat := length (filter is_tick es).
  (** Nothing but ticks and empty messages. *)
  Definition quiet (e : event M M4) : Prop := e = Tick \/ empty_message e.
  (** Nothing that delivers a trajectory. *)
  Definition no_delivery (e : event M M4) : Prop := e = StopSampling \/ quiet e.

  (** 0, dt, 2 dt, ... as running sums. *)
  Definition sample_time (k : nat) : T := Nat.iter k (fun t => nadd t dt) n0.
  Definition fresh (tr : trajectory T) (k : nat) : node T := mkNode false dt (sample_time k) tr true.

  Notation step := (node_step mav dec dec4 fuel).
  Notation run := (node_run mav dec dec4 fuel).

  (** ** Runs *)
  Lemma run_app a b n : run n (a ++ b) =
    match run n a with
    | Ok (Some (n', oa)) =>
        match run n' b with
        | Ok (Some (n'', ob)) => Ok (Some (n'', oa ++ ob))
        | Ok None => Ok None | Abort => Abort | UB => UB | Throw => Throw
        end
    | Ok None => Ok None | Abort => Abort | UB => UB | Throw => Throw
    end.
  Proof.
    revert n. induction a as [|e a IH]; intros n; cbn [app node_run].
    - destruct (run n b) as [[(n', ob)|]| | |]; reflexivity.
    - destruct (step n e) as [[(n1, o)|]| | |]; cbn [obind]; try reflexivity. rewrite IH.
      destruct (run n1 a) as [[(n2, oa)|]| | |]; cbn [obind]; try reflexivity.
      destruct (run n2 b) as [[(n3, ob)|]| | |]; reflexivity.
  Qed.
  Lemma run_length es : forall n n' outs, run n es = Ok (Some (n', outs)) -> length outs = length es.
  Proof.
    induction es as [|e es IH]; intros n n' outs; cbn [node_run].
    - intros H. injection H as _ <-. reflexivity.
    - destruct (step n e) as [[(n1, o)|]| | |]; cbn [obind]; try discriminate.
      destruct (run n1 es) as [[(n2, os)|]| | |] eqn:E; cbn [obind]; try discriminate.
      intros H. injection H as _ <-. cbn. f_equal. exact (IH _ _ _ E).
  Qed.
  (** A run that reaches an event, and what that event does. *)
  Lemma run_at pre e post n n' outs : run n (pre ++ e :: post) = Ok (Some (n', outs)) ->
    exists n1 o1 n2 o, run n pre = Ok (Some (n1, o1)) /\ step n1 e = Ok (Some (n2, o)) /\ nth (length pre) outs [] = o.
  Proof.
    rewrite run_app. destruct (run n pre) as [[(n1, o1)|]| | |] eqn:E1; try discriminate. cbn [node_run].
    destruct (step n1 e) as [[(n2, o)|]| | |] eqn:E2; cbn [obind]; try discriminate.
    destruct (run n2 post) as [[(n3, os)|]| | |]; cbn [obind]; try discriminate. intros H. injection H as <- <-.
    exists n1, o1, n2, o. split; [reflexivity|]. split; [exact E2|]. rewrite <- (run_length _ _ _ _ E1).
    rewrite app_nth2 by lia. rewrite Nat.sub_diag. reflexivity.
  Qed.

  (** ** Single events *)
  Lemma delivered_nonempty e tr : delivers e tr -> ~ empty_message e.
  Proof. destruct e; cbn; try tauto; intros H ->; discriminate. Qed.
  (** The trajectory of a message does not depend on the earlier one. *)
  Lemma step_delivers e tr n : delivers e tr -> nd_whole n = false ->
    step n e = Ok (Some (mkNode false (nd_dt n) n0 tr true, if hold_available e then [PositionHold] else [])).
  Proof.
    intros H W. pose proof (delivered_nonempty e tr H) as Hne.
    destruct e as [h msg|h msg| |]; cbn in H; try tauto; cbn [node_step]; unfold pathSegmentsCallback, pathSegments4DCallback, segments_callback;
      (destruct msg as [|m ms]; [exfalso; apply Hne; reflexivity|]).
    - change (msgToTrajectory dec (m :: ms) (nd_trajectory n)) with (msgToTrajectory dec (m :: ms) traj_new). rewrite H.
      cbn [obind fst snd]. unfold processTrajectory. cbn [nd_whole]. rewrite W. reflexivity.
    - change (msgToTrajectory4D dec4 (m :: ms) (nd_trajectory n)) with (msgToTrajectory4D dec4 (m :: ms) traj_new). rewrite H.
      cbn [obind fst snd]. unfold processTrajectory. cbn [nd_whole]. rewrite W. reflexivity.
  Qed.
  Lemma step_delivers_whole e tr n n' o : delivers e tr -> nd_whole n = true -> step n e = Ok (Some (n', o)) ->
    n' = mkNode true (nd_dt n) (nd_time n) tr (nd_running n) /\
    exists b sts, sampleWholeTrajectory mav fuel tr (nd_dt n) [] = Ok (Some (b, sts)) /\
      o = (if hold_available e then [PositionHold] else []) ++ [PublishWhole sts].
  Proof.
    intros H W. pose proof (delivered_nonempty e tr H) as Hne.
    destruct e as [h msg|h msg| |]; cbn in H; try tauto; cbn [node_step]; unfold pathSegmentsCallback, pathSegments4DCallback, segments_callback;
      (destruct msg as [|m ms]; [exfalso; apply Hne; reflexivity|]).
    - change (msgToTrajectory dec (m :: ms) (nd_trajectory n)) with (msgToTrajectory dec (m :: ms) traj_new). rewrite H.
      cbn [obind fst snd]. unfold processTrajectory. cbn [nd_whole nd_trajectory nd_dt nd_running nd_time]. rewrite W.
      destruct (sampleWholeTrajectory _ _ _ _ _) as [[(b, sts)|]| | |]; cbn [obind]; try discriminate. intros Q. injection Q as <- <-.
      split; [reflexivity|]. exists b, sts. split; reflexivity.
    - change (msgToTrajectory4D dec4 (m :: ms) (nd_trajectory n)) with (msgToTrajectory4D dec4 (m :: ms) traj_new). rewrite H.
      cbn [obind fst snd]. unfold processTrajectory. cbn [nd_whole nd_trajectory nd_dt nd_running nd_time]. rewrite W.
      destruct (sampleWholeTrajectory _ _ _ _ _) as [[(b, sts)|]| | |]; cbn [obind]; try discriminate. intros Q. injection Q as <- <-.
      split; [reflexivity|]. exists b, sts. split; reflexivity.
  Qed.
  Lemma step_empty e n : empty_message e -> step n e = Ok (Some (n, [])).
  Proof. destruct e; cbn; try tauto; intros ->; reflexivity. Qed.
  (** An event never changes the parameters. *)
  Lemma convert_true {A} (d : A -> outcome (eigen_segment T)) w6 msg tr b tr' : from_msg d w6 msg tr = Ok (b, tr') -> b = true.
  Proof.
    unfold from_msg. destruct (omap _ msg); cbn [obind]; try discriminate. destruct (traj_setSegments _ _); cbn [obind]; try discriminate.
    intros H. injection H as <- _. reflexivity.
  Qed.
  (** Every event is of one of four kinds, or the program ends. *)
  Lemma step_kinds n e n' o : step n e = Ok (Some (n', o)) -> (exists tr, delivers e tr) \/ no_delivery e.
  Proof.
    destruct e as [h [|m ms]|h [|m ms]| |]; cbn [node_step].
    - intros _. right. right. right. reflexivity.
    - unfold pathSegmentsCallback, segments_callback. change (msgToTrajectory dec (m :: ms) (nd_trajectory n)) with (msgToTrajectory dec (m :: ms) traj_new).
      intros H. left. cbn [delivers]. destruct (msgToTrajectory dec (m :: ms) traj_new) as [(b, tr)| | |] eqn:E; cbn [obind] in H; try discriminate.
      exists tr. rewrite (convert_true _ _ _ _ _ _ E). reflexivity.
    - intros _. right. right. right. reflexivity.
    - unfold pathSegments4DCallback, segments_callback. change (msgToTrajectory4D dec4 (m :: ms) (nd_trajectory n)) with (msgToTrajectory4D dec4 (m :: ms) traj_new).
      intros H. left. cbn [delivers]. destruct (msgToTrajectory4D dec4 (m :: ms) traj_new) as [(b, tr)| | |] eqn:E; cbn [obind] in H; try discriminate.
      exists tr. rewrite (convert_true _ _ _ _ _ _ E). reflexivity.
    - intros _. right. left. reflexivity.
    - intros _. right. right. left. reflexivity.
  Qed.
  Lemma step_params n e n' o : step n e = Ok (Some (n', o)) -> nd_whole n' = nd_whole n /\ nd_dt n' = nd_dt n.
  Proof.
    intros H. destruct (step_kinds _ _ _ _ H) as [(tr & D)|[->|[->|E]]].
    - destruct (nd_whole n) eqn:W.
      + destruct (step_delivers_whole e tr n n' o D W H) as (-> & _). split; reflexivity.
      + rewrite (step_delivers e tr n D W) in H. injection H as <- _. split; reflexivity.
    - cbn in H. injection H as <- _. split; reflexivity.
    - cbn in H. destruct (nd_running n); [|injection H as <- _; split; reflexivity]. unfold commandTimerCallback in H.
      destruct (nleb _ _); [|injection H as <- _; split; reflexivity].
      destruct (sampleTrajectoryAtTime _ _ _ _); cbn [obind] in H; try discriminate. injection H as <- _. split; reflexivity.
    - rewrite (step_empty e n E) in H. injection H as <- _. split; reflexivity.
  Qed.
  Lemma run_params es : forall n n' outs, run n es = Ok (Some (n', outs)) -> nd_whole n' = nd_whole n /\ nd_dt n' = nd_dt n.
  Proof.
    induction es as [|e es IH]; intros n n' outs; cbn [node_run].
    - intros H. injection H as <- _. split; reflexivity.
    - destruct (step n e) as [[(n1, o)|]| | |] eqn:E1; cbn [obind]; try discriminate.
      destruct (run n1 es) as [[(n2, os)|]| | |] eqn:E; cbn [obind]; try discriminate.
      intros H. injection H as <- _. destruct (step_params _ _ _ _ E1) as (<- & <-). exact (IH _ _ _ E).
  Qed.

  (** ** A timer that does not run *)
  Lemma step_idle n e n' o : nd_running n = false -> no_delivery e -> step n e = Ok (Some (n', o)) -> nd_running n' = false /\ o = [].
  Proof.
    intros R [->|[->|E]] H.
    - cbn in H. injection H as <- <-. split; reflexivity.
    - cbn in H. rewrite R in H. injection H as <- <-. split; [exact R|reflexivity].
    - rewrite (step_empty e n E) in H. injection H as <- <-. split; [exact R|reflexivity].
  Qed.
  Lemma run_idle es : forall n n' outs, nd_running n = false -> List.Forall no_delivery es -> run n es = Ok (Some (n', outs)) -> nd_running n' = false.
  Proof.
    induction es as [|e es IH]; intros n n' outs R F; cbn [node_run].
    - intros H. injection H as <- _. exact R.
    - inversion F as [|? ? Fe Fes]; subst.
      destruct (step n e) as [[(n1, o)|]| | |] eqn:E1; cbn [obind]; try discriminate.
      destruct (run n1 es) as [[(n2, os)|]| | |] eqn:E; cbn [obind]; try discriminate.
      intros H. injection H as <- _. exact (IH _ _ _ (proj1 (step_idle _ _ _ _ R Fe E1)) Fes E).
  Qed.

  (** ** Ticks after a trajectory *)
  Definition reaches (tr : trajectory T) (k : nat) : bool := nleb (sample_time k) (tr_max_time tr).
  (** A sample time that is not beyond the end lies in the range that
      sampleTrajectoryAtTime accepts. *)
  Definition ordered_until (tr : trajectory T) (k : nat) : Prop :=
    forall j, (j <= k)%nat -> reaches tr j = true -> nltb (sample_time j) n0 = false /\ nltb (tr_max_time tr) (sample_time j) = false.

  Lemma sample_in_range tr k r : (3 <= tr_D tr)%nat -> nltb (sample_time k) n0 = false -> nltb (tr_max_time tr) (sample_time k) = false ->
    sampleTrajectoryAtTime mav tr (sample_time k) point_new = Ok r -> fst r = true.
  Proof.
    intros HD H1 H2. unfold sampleTrajectoryAtTime, sampleFlatState. rewrite H1, H2. cbn [orb]. destruct (Nat.ltb_spec (tr_D tr) 3); [lia|].
    repeat (match goal with |- context [obind (traj_evaluate ?a ?b ?c) _] => destruct (traj_evaluate a b c); cbn [obind]; try discriminate end).
    destruct (fill_state _ _ _ _ _ _ _ _ _); cbn [obind]; try discriminate. intros Q. injection Q as <-. reflexivity.
  Qed.
  Lemma run_ticks tr es : (3 <= tr_D tr)%nat -> forall k n' outs, List.Forall quiet es -> ordered_until tr (k + ticks es) -> run (fresh tr k) es = Ok (Some (n', outs)) ->
    (forallb (reaches tr) (seq k (ticks es)) = true -> n' = fresh tr (k + ticks es)) /\
    (forallb (reaches tr) (seq k (ticks es)) = false -> nd_running n' = false).
  Proof.
    intros HD. induction es as [|e es IH]; intros k n' outs F O.
    - cbn [node_run ticks filter List.length seq forallb]. intros H. injection H as <- _. split; [|discriminate]. intros _. unfold ticks. cbn. rewrite Nat.add_0_r. reflexivity.
    - inversion F as [|? ? Fe Fes]; subst. cbn [node_run]. destruct Fe as [->|Fe].
      + unfold ticks in *. cbn [filter is_tick List.length seq forallb] in *. cbn [node_step nd_running fresh].
        unfold commandTimerCallback. cbn [nd_time nd_trajectory nd_whole nd_dt nd_running fresh]. fold (reaches tr k).
        destruct (reaches tr k) eqn:Ek.
        * destruct (sampleTrajectoryAtTime mav tr (sample_time k) point_new) as [r| | |] eqn:Es; cbn [obind]; try discriminate.
          destruct (O k ltac:(lia) Ek) as (O1 & O2). rewrite (sample_in_range tr k r HD O1 O2 Es).
          destruct (run _ es) as [[(n2, os)|]| | |] eqn:Er; cbn [obind]; try discriminate. intros H. injection H as <- _.
          change (mkNode false dt (nadd (sample_time k) dt) tr true) with (fresh tr (S k)) in Er.
          destruct (IH (S k) n2 os Fes) as (A & B); [intros j Hj; apply O; lia|exact Er|]. cbn [andb]. split; [|exact B].
          intros H. rewrite (A H). f_equal. lia.
        * cbn [obind]. destruct (run _ es) as [[(n2, os)|]| | |] eqn:Er; cbn [obind]; try discriminate. intros H. injection H as <- _.
          cbn [andb]. split; [discriminate|]. intros _. refine (run_idle es _ _ _ _ _ Er); [reflexivity|].
          apply List.Forall_impl with (2 := Fes). intros; right; assumption.
      + rewrite (step_empty e _ Fe). cbn [obind]. destruct (run _ es) as [[(n2, os)|]| | |] eqn:Er; cbn [obind]; try discriminate. intros H. injection H as <- _.
        assert (Et : ticks (e :: es) = ticks es) by (destruct e; try reflexivity; contradiction). rewrite Et in *. exact (IH k n2 os Fes O Er).
  Qed.

  (** ** What a message delivers *)
  Lemma segment_received w6 e s : segment_of_eigen w6 e = Ok s -> seg_wf s /\ In (seg_D s) [3; 4; 6]%nat.
  Proof.
    unfold segment_of_eigen, poly_setCoefficients. rewrite repeat_length.
    destruct (w6 && _ && _ && _); [|destruct (negb _)]; cbn [Nat.eqb obind];
      repeat match goal with |- context [if Nat.eqb ?a ?b then Ok ?c else Abort] => destruct (Nat.eqb_spec a b); cbn [obind]; try discriminate end;
      intros H; apply Ok_inj in H; subst s; (split; [unfold seg_wf; cbn; repeat constructor; congruence|cbn; tauto]).
  Qed.
  Lemma received {A} (d : A -> outcome (eigen_segment T)) w6 msg tr0 tr : from_msg d w6 msg tr0 = Ok (true, tr) ->
    traj_consistent tr /\ In (tr_D tr) [3; 4; 6]%nat /\ (0 < tr_K tr)%nat /\ List.Forall seg_wf (tr_segments tr).
  Proof.
    unfold from_msg. destruct (omap _ msg) as [segs| | |] eqn:E; cbn [obind]; try discriminate.
    destruct (traj_setSegments tr0 segs) as [tr1| | |] eqn:Es; cbn [obind]; try discriminate. intros H. injection H as ->.
    assert (F : List.Forall (fun s => seg_wf s /\ In (seg_D s) [3; 4; 6]%nat) segs).
    { pose proof (omap_Forall2 _ _ _ E) as F2. clear -F2. induction F2 as [|m s msg segs H F2 IH]; constructor; [|exact IH].
      destruct (d m) as [e| | |]; cbn [obind] in H; try discriminate. exact (segment_received w6 e s H). }
    assert (C : traj_consistent tr).
    { destruct segs as [|s0 segs0]; [discriminate|]. exact (proj1 (addSegments_inv _ _ _ (consistent_empty _ _) Es)). }
    unfold traj_setSegments in Es. destruct segs as [|s segs]; [discriminate|]. unfold traj_addSegments in Es.
    destruct (ofold _ _ _) as [mt| | |]; cbn [obind] in Es; try discriminate. apply Ok_inj in Es. subst tr. cbn [tr_D tr_segments app].
    split; [exact C|]. split; [inversion F; tauto|]. split; [unfold tr_K; cbn; lia|].
    apply List.Forall_impl with (2 := F). tauto.
  Qed.
  Lemma delivered e tr : delivers e tr -> traj_consistent tr /\ In (tr_D tr) [3; 4; 6]%nat /\ (0 < tr_K tr)%nat /\ List.Forall seg_wf (tr_segments tr).
  Proof. destruct e; cbn; try tauto; apply received. Qed.
End Histories.

(** * C62 *)
Section Statements.
  Context {T M M4 : Type} {ops : NumOps T}.
  Variable mav : mav_functions T.
  Variable dec : M -> outcome (eigen_segment T).
  Variable dec4 : M4 -> outcome (eigen_segment T).
  Variable fuel : nat.
  Variable dt : T.
  Notation run := (node_run mav dec dec4 fuel).

  (** The tick after a trajectory tr and k ticks, with nothing but empty messages
      and ticks in between: the sample at k dt if the end has not been passed,
      nothing otherwise. *)
  Theorem C62_ticks_after_trajectory pre e (tr : trajectory T) mid post n outs :
    delivers dec dec4 e tr -> List.Forall quiet mid -> ordered_until dt tr (ticks mid) ->
    run (node_new false dt) (pre ++ e :: mid ++ Tick :: post) = Ok (Some (n, outs)) ->
    let o := nth (length pre + S (length mid)) outs [] in
    ((forall j, (j <= ticks mid)%nat -> nleb (sample_time dt j) (tr_max_time tr) = true) ->
       exists st, sampleTrajectoryAtTime mav tr (sample_time dt (ticks mid)) point_new = Ok (true, st) /\
         o = [PublishPoint (sample_time dt (ticks mid)) st]) /\
    ((exists j, (j <= ticks mid)%nat /\ nleb (sample_time dt j) (tr_max_time tr) = false) -> o = []).
  Proof.
    intros D F O H. cbv zeta.
    assert (El : (length pre + S (length mid))%nat = length (pre ++ e :: mid)) by (rewrite app_length; reflexivity). rewrite El. clear El.
    replace (pre ++ e :: mid ++ Tick :: post) with ((pre ++ e :: mid) ++ Tick :: post) in H by (rewrite <- app_assoc; reflexivity).
    destruct (run_at mav dec dec4 fuel _ _ _ _ _ _ H) as (n1 & o1 & n2 & o & R1 & S1 & ->).
    rewrite run_app in R1. destruct (run (node_new false dt) pre) as [[(n0', o0)|]| | |] eqn:R0; try discriminate.
    destruct (run_params mav dec dec4 fuel _ _ _ _ R0) as (W0 & D0). cbn [node_new nd_whole nd_dt] in W0, D0. cbn [node_run] in R1.
    rewrite (step_delivers mav dec dec4 fuel e tr n0' D W0) in R1. cbn [obind] in R1. rewrite D0 in R1.
    change (mkNode false dt n0 tr true) with (fresh dt tr 0) in R1.
    destruct (run (fresh dt tr 0) mid) as [[(n3, o3)|]| | |] eqn:R3; cbn [obind] in R1; try discriminate. injection R1 as <- _.
    destruct (delivered dec dec4 e tr D) as (_ & HD & _). assert (HD3 : (3 <= tr_D tr)%nat) by (cbn in HD; lia).
    destruct (run_ticks mav dec dec4 fuel dt tr mid HD3 0 n3 o3 F O R3) as (A & B). cbn [Nat.add] in A.
    set (k := ticks mid) in *. cbn [node_step] in S1. split.
    - intros Hle. assert (Q : forallb (reaches dt tr) (seq 0 k) = true). { apply forallb_forall. intros j Hj. apply in_seq in Hj. apply Hle. lia. }
      rewrite (A Q) in S1. cbn [nd_running fresh] in S1. unfold commandTimerCallback in S1. cbn [nd_time nd_trajectory nd_dt nd_whole nd_running fresh] in S1.
      rewrite (Hle k) in S1 by lia. destruct (O k ltac:(lia) (Hle k ltac:(lia))) as (O1 & O2).
      destruct (sampleTrajectoryAtTime mav tr (sample_time dt k) point_new) as [r| | |] eqn:Es; cbn [obind] in S1; try discriminate.
      pose proof (sample_in_range mav dt tr k r HD3 O1 O2 Es) as Fr. destruct r as (b, st). cbn [fst snd] in *. subst b.
      injection S1 as _ <-. exists st. split; reflexivity.
    - intros (j & Hj & Hf). destruct (nd_running n3) eqn:Er; [|injection S1 as _ <-; reflexivity].
      destruct (forallb (reaches dt tr) (seq 0 k)) eqn:Q; [|discriminate (B eq_refl)].
      assert (j = k). { destruct (Nat.eq_dec j k); [assumption|]. rewrite forallb_forall in Q. assert (X : reaches dt tr j = true) by (apply Q, in_seq; lia). unfold reaches in X. congruence. }
      subst j. rewrite (A eq_refl) in S1. unfold commandTimerCallback in S1. cbn [nd_time nd_trajectory fresh] in S1. rewrite Hf in S1. injection S1 as _ <-. reflexivity.
  Qed.

  (** Nothing is published before the first trajectory, nor after a stop until
      the next one. *)
  Theorem C62_nothing_before_trajectory pre post e n outs : List.Forall no_delivery pre -> no_delivery e ->
    run (node_new false dt) (pre ++ e :: post) = Ok (Some (n, outs)) -> nth (length pre) outs [] = [].
  Proof.
    intros F D H. destruct (run_at mav dec dec4 fuel _ _ _ _ _ _ H) as (n1 & o1 & n2 & o & R1 & S1 & ->).
    pose proof (run_idle mav dec dec4 fuel _ (node_new false dt) _ _ eq_refl F R1) as R. exact (proj2 (step_idle mav dec dec4 fuel _ _ _ _ R D S1)).
  Qed.
  Theorem C62_nothing_after_stop pre mid post e n outs : List.Forall no_delivery mid -> no_delivery e ->
    run (node_new false dt) (pre ++ StopSampling :: mid ++ e :: post) = Ok (Some (n, outs)) -> nth (length pre + S (length mid)) outs [] = [].
  Proof.
    intros F D H.
    assert (El : (length pre + S (length mid))%nat = length (pre ++ StopSampling :: mid)) by (rewrite app_length; reflexivity). rewrite El. clear El.
    replace (pre ++ StopSampling :: mid ++ e :: post) with ((pre ++ StopSampling :: mid) ++ e :: post) in H by (rewrite <- app_assoc; reflexivity).
    destruct (run_at mav dec dec4 fuel _ _ _ _ _ _ H) as (n1 & o1 & n2 & o & R1 & S1 & ->).
    rewrite run_app in R1. destruct (run (node_new false dt) pre) as [[(n0', o0)|]| | |] eqn:R0; try discriminate. cbn [node_run node_step obind] in R1.
    destruct (run (stopSamplingCallback n0') mid) as [[(n3, o3)|]| | |] eqn:R3; cbn [obind] in R1; try discriminate. injection R1 as <- _.
    pose proof (run_idle mav dec dec4 fuel _ (stopSamplingCallback n0') _ _ eq_refl F R3) as R. exact (proj2 (step_idle mav dec dec4 fuel _ _ _ _ R D S1)).
  Qed.
  (** The other events publish nothing themselves: a trajectory only calls the
      position-hold service when there is one. *)
  Theorem C62_other_events pre e post n outs : run (node_new false dt) (pre ++ e :: post) = Ok (Some (n, outs)) ->
    (forall tr, delivers dec dec4 e tr -> nth (length pre) outs [] = if hold_available e then [PositionHold] else []) /\
    (e = StopSampling \/ empty_message e -> nth (length pre) outs [] = []).
  Proof.
    intros H. destruct (run_at mav dec dec4 fuel _ _ _ _ _ _ H) as (n1 & o1 & n2 & o & R1 & S1 & ->).
    destruct (run_params mav dec dec4 fuel _ _ _ _ R1) as (W0 & _). split.
    - intros tr D. rewrite (step_delivers mav dec dec4 fuel e tr n1 D W0) in S1. injection S1 as _ <-. reflexivity.
    - intros [->|E]; [injection S1 as _ <-; reflexivity|]. rewrite (step_empty mav dec dec4 fuel e n1 E) in S1. injection S1 as _ <-. reflexivity.
  Qed.
  (** Every event of a run is of one of these kinds. *)
  Theorem C62_kinds_of_events pre e post n outs : run (node_new false dt) (pre ++ e :: post) = Ok (Some (n, outs)) ->
    (exists tr, delivers dec dec4 e tr) \/ e = StopSampling \/ e = Tick \/ empty_message e.
  Proof.
    intros H. destruct (run_at mav dec dec4 fuel _ _ _ _ _ _ H) as (n1 & o1 & n2 & o & R1 & S1 & _). exact (step_kinds mav dec dec4 fuel _ _ _ _ S1).
  Qed.
  (** Empty messages change nothing at all. *)
  Theorem C62_empty_message_ignored (nd : node T) e : empty_message e -> node_step mav dec dec4 fuel nd e = Ok (Some (nd, [])).
  Proof. apply step_empty. Qed.

  (** With publish_whole_trajectory: one message per trajectory, at once, and
      nothing else. *)
  Theorem C62_whole_mode pre e post n outs : run (node_new true dt) (pre ++ e :: post) = Ok (Some (n, outs)) ->
    (forall tr, delivers dec dec4 e tr -> exists b sts, sampleWholeTrajectory mav fuel tr dt [] = Ok (Some (b, sts)) /\
        nth (length pre) outs [] = (if hold_available e then [PositionHold] else []) ++ [PublishWhole sts]) /\
    (no_delivery e -> nth (length pre) outs [] = []).
  Proof.
    intros H. destruct (run_at mav dec dec4 fuel _ _ _ _ _ _ H) as (n1 & o1 & n2 & o & R1 & S1 & ->).
    destruct (run_params mav dec dec4 fuel _ _ _ _ R1) as (W0 & D0). cbn [node_new nd_whole nd_dt] in W0, D0. split.
    - intros tr D. destruct (step_delivers_whole mav dec dec4 fuel e tr n1 n2 o D W0 S1) as (_ & Q). rewrite D0 in Q. exact Q.
    - intros D. assert (R : nd_running n1 = false).
      { assert (G : forall es n n' outs, nd_whole n = true -> nd_running n = false -> run n es = Ok (Some (n', outs)) -> nd_running n' = false).
        { induction es as [|e' es IH]; intros m m' os Wm Rm; cbn [node_run].
          - intros Q. injection Q as <- _. exact Rm.
          - destruct (node_step mav dec dec4 fuel m e') as [[(m1, o')|]| | |] eqn:E1; cbn [obind]; try discriminate.
            destruct (run m1 es) as [[(m2, os')|]| | |] eqn:E; cbn [obind]; try discriminate. intros Q. injection Q as <- _.
            destruct (step_params mav dec dec4 fuel _ _ _ _ E1) as (W1 & _). rewrite Wm in W1. refine (IH _ _ _ W1 _ E).
            destruct (step_kinds mav dec dec4 fuel _ _ _ _ E1) as [(tr & Dl)|Nd].
            + destruct (step_delivers_whole mav dec dec4 fuel e' tr m m1 o' Dl Wm E1) as (-> & _). exact Rm.
            + exact (proj1 (step_idle mav dec dec4 fuel _ _ _ _ Rm Nd E1)). }
        exact (G _ (node_new true dt) _ _ eq_refl eq_refl R1). }
      exact (proj2 (step_idle mav dec dec4 fuel _ _ _ _ R D S1)).
  Qed.

  (** A malformed message ends the program. *)
  Theorem C62_malformed_message_finding hold m ms (es : eigen_segment T) (nd : node T) : dec m = Ok es ->
    length (es_y es) <> length (es_x es) -> node_step mav dec dec4 fuel nd (PathSegments hold (m :: ms)) = Abort.
  Proof.
    intros E H. cbn [node_step]. unfold pathSegmentsCallback, segments_callback, msgToTrajectory, from_msg. cbn [omap]. rewrite E. cbn [obind].
    unfold segment_of_eigen, poly_setCoefficients. rewrite repeat_length, Nat.eqb_refl. cbn [obind].
    destruct (Nat.eqb_spec (length (es_x es)) (length (es_y es))); [congruence|reflexivity].
  Qed.
End Statements.
Print Assumptions C62_ticks_after_trajectory.
Print Assumptions C62_nothing_before_trajectory.
Print Assumptions C62_nothing_after_stop.
Print Assumptions C62_other_events.
Print Assumptions C62_kinds_of_events.
Print Assumptions C62_empty_message_ignored.
Print Assumptions C62_whole_mode.
Print Assumptions C62_malformed_message_finding.
