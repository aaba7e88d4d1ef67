(** C62 over the reals and in binary64. *)
From Coq Require Import ZArith Reals List Bool Lia Lra.
From Flocq Require Import IEEE754.BinarySingleNaN Core.
From Verif Require Import Num RSum ModelPolynomial ModelSegment SpecSegment ModelVertex ModelTrajectory SpecTrajectory ProofTrajectory
  ProofLinear ProofFloat ModelSampling PropSampling ModelMsgs ModelNode PropNode.
Import ListNotations.
Notation length := List.length.
Open Scope R_scope.

(** * Real arithmetic *)
(** The conditions of C51 on a trajectory; sizes, dimension and the total time
    of a delivered trajectory are in order by themselves. *)
Definition sampleable (tr : trajectory R) : Prop :=
  (tr_N tr <= 22)%nat /\ times_nonneg tr /\ 10 ^ 9 * duration tr < IZR (2 ^ 63).
Definition good_event {M M4} dec dec4 (e : event M M4) : Prop :=
  no_delivery e \/ exists tr, delivers dec dec4 e tr /\ sampleable tr.

Lemma sample_time_R (dt : R) k : sample_time dt k = INR k * dt.
Proof. induction k as [|k IH]; [cbn; unfold n0; rnum; ring|]. change (sample_time dt (S k)) with (sample_time dt k + dt). rewrite IH, S_INR. ring. Qed.
Lemma max_is_duration (tr : trajectory R) : traj_consistent tr -> tr_max_time tr = duration tr.
Proof. intros (_ & Hc). rewrite Hc. unfold n0. rnum. rewrite fold_left_lsum. unfold duration. lra. Qed.

Section Reals.
  Context {M M4 : Type}.
  Variable mav : mav_functions R.
  Variable dec : M -> outcome (eigen_segment R).
  Variable dec4 : M4 -> outcome (eigen_segment R).
  Variable fuel : nat.
  Variable dt : R.
  Notation run := (node_run mav dec dec4 fuel).

  Lemma delivered_wf e (tr : trajectory R) : delivers dec dec4 e tr -> sampleable tr ->
    traj_wf tr /\ traj_consistent tr /\ (3 <= tr_D tr)%nat /\ (0 < tr_K tr)%nat.
  Proof.
    intros D (HN & _). destruct (delivered dec dec4 e tr D) as (C & HD & HK & W). split; [|split; [exact C|split; [cbn in HD; lia|exact HK]]].
    split; [|exact HN]. destruct C as (C & _). rewrite List.Forall_forall in *. intros s Hs. destruct (C s Hs). auto.
  Qed.
  Definition in_service (n : node R) : Prop :=
    nd_whole n = false /\ nd_dt n = dt /\
    (nd_running n = true -> exists e, delivers dec dec4 e (nd_trajectory n) /\ sampleable (nd_trajectory n) /\ 0 <= nd_time n).
  Lemma good_step n e : 0 < dt -> in_service n -> good_event dec dec4 e ->
    exists n' o, node_step mav dec dec4 fuel n e = Ok (Some (n', o)) /\ in_service n'.
  Proof.
    intros Hdt (W & Ed & Hr) [[->|[->|E]]|(tr & D & S)].
    - exists (stopSamplingCallback n), []. split; [reflexivity|]. split; [exact W|]. split; [exact Ed|discriminate].
    - cbn [node_step]. destruct (nd_running n) eqn:R; [|exists n, []; split; [reflexivity|]; split; [exact W|]; split; [exact Ed|rewrite R; discriminate]].
      destruct (Hr eq_refl) as (e & D & S & T0). unfold commandTimerCallback. rnum.
      destruct (Rleb_spec (nd_time n) (tr_max_time (nd_trajectory n))) as [L|L].
      + destruct (delivered_wf e _ D S) as (Hw & Hc & HD & HK). destruct S as (S1 & S2 & S3).
        destruct (C51_at_time mav (nd_trajectory n) (nd_time n) point_new Hw S2 Hc HK S3) as (G & _).
        destruct (G (conj (conj T0 L) HD)) as (i & st & _ & _ & E & _). rewrite E. cbn [obind fst snd]. eexists _, _. split; [reflexivity|].
        split; [exact W|]. split; [exact Ed|]. intros _. exists e. split; [exact D|]. split; [exact (conj S1 (conj S2 S3))|]. cbn [nd_time]. rewrite Ed. lra.
      + eexists _, _. split; [reflexivity|]. split; [exact W|]. split; [exact Ed|discriminate].
    - exists n, []. split; [apply step_empty; exact E|]. split; [exact W|]. split; [exact Ed|exact Hr].
    - eexists _, _. split; [apply step_delivers; [exact D|exact W]|]. split; [reflexivity|]. split; [exact Ed|]. intros _. exists e.
      split; [exact D|]. split; [exact S|]. cbn. unfold n0. rnum. lra.
  Qed.
  Lemma good_run es : 0 < dt -> List.Forall (good_event dec dec4) es -> forall n, in_service n -> exists n' outs, run n es = Ok (Some (n', outs)).
  Proof.
    intros Hdt. induction es as [|e es IH]; intros F n I; cbn [node_run]; [eexists _, _; reflexivity|]. inversion F as [|? ? Fe Fes]; subst.
    destruct (good_step n e Hdt I Fe) as (n1 & o & -> & I1). cbn [obind]. destruct (IH Fes n1 I1) as (n2 & os & ->). eexists _, _. reflexivity.
  Qed.

  (** Every sequence of events is served, and the tick after k ticks since the
      last trajectory publishes its state at k dt as long as that is within the
      duration. *)
  Theorem C62_sample_times es : 0 < dt -> List.Forall (good_event dec dec4) es ->
    exists n outs, run (node_new false dt) es = Ok (Some (n, outs)) /\ length outs = length es /\
      forall pre e tr mid post, es = pre ++ e :: mid ++ Tick :: post -> delivers dec dec4 e tr -> List.Forall quiet mid ->
        let t := INR (ticks mid) * dt in
        let o := nth (length pre + S (length mid)) outs [] in
        (t <= duration tr -> exists st f, o = [PublishPoint t st] /\ (forall d, (d < 5)%nat -> value_at tr d t (f d)) /\ holds mav (tr_D tr) f t point_new st) /\
        (duration tr < t -> o = []).
  Proof.
    intros Hdt F. destruct (good_run es Hdt F (node_new false dt)) as (n & outs & E); [split; [reflexivity|split; [reflexivity|discriminate]]|].
    exists n, outs. split; [exact E|]. split; [exact (run_length mav dec dec4 fuel _ _ _ _ E)|]. intros pre e tr mid post -> D Q. cbv zeta.
    assert (S : sampleable tr).
    { rewrite List.Forall_forall in F. destruct (F e) as [N|(tr' & D' & S)]; [apply in_or_app; right; left; reflexivity| |].
      - exfalso. pose proof (delivered_nonempty dec dec4 e tr D) as Hne. destruct N as [->|[->|N]]; [exact D|exact D|exact (Hne N)].
      - assert (tr' = tr); [|subst; exact S]. destruct e; cbn in D, D'; try contradiction; rewrite D in D'; injection D' as ->; reflexivity. }
    destruct (delivered_wf e tr D S) as (Hw & Hc & HD & HK). pose proof (max_is_duration tr Hc) as Em.
    assert (T0 : forall j, 0 <= INR j * dt) by (intros j; apply Rmult_le_pos; [apply pos_INR|lra]).
    assert (Mono : forall i j, (i <= j)%nat -> INR i * dt <= INR j * dt) by (intros i j H; apply Rmult_le_compat_r; [lra|apply le_INR; exact H]).
    assert (O : ordered_until dt tr (ticks mid)).
    { intros j _. unfold reaches. rewrite sample_time_R, Em. unfold n0. rnum. destruct (Rleb_spec (INR j * dt) (duration tr)) as [L|L]; [|discriminate]. intros _.
      specialize (T0 j). split; apply Rltb_false; lra. }
    destruct (C62_ticks_after_trajectory mav dec dec4 fuel dt pre e tr mid post n outs D Q O E) as (A & B). rewrite Em in A, B. split.
    - intros L. destruct A as (st & E1 & E2).
      { intros j Hj. rewrite sample_time_R. rnum. destruct (Rleb_spec (INR j * dt) (duration tr)) as [|X]; [reflexivity|]. specialize (Mono j _ Hj). lra. }
      rewrite sample_time_R in E1, E2. destruct S as (S1 & S2 & S3).
      destruct (C51_at_time mav tr (INR (ticks mid) * dt) point_new Hw S2 Hc HK S3) as (G & _). rewrite Em in G.
      destruct (G (conj (conj (T0 _) L) HD)) as (i & st' & Hi & Hb & E' & Hh). rewrite E1 in E'. injection E' as <-.
      exists st, (seg_value (seg_at tr i) (INR (ticks mid) * dt - start_time tr i)). split; [exact E2|]. split; [|exact Hh].
      intros d _. exists i. auto.
    - intros L. apply B. exists (ticks mid). split; [lia|]. rewrite sample_time_R. rnum. destruct (Rleb_spec (INR (ticks mid) * dt) (duration tr)); [lra|reflexivity].
  Qed.

  (** A sampling interval of 0 publishes the start for ever; a negative one
      publishes the start and then a default state (origin, identity). *)
  Theorem C62_needs_positive_interval_finding e (tr : trajectory R) : delivers dec dec4 e tr -> sampleable tr ->
    (dt = 0 -> forall k, exists n outs st, run (node_new false dt) (e :: repeat Tick (S k)) = Ok (Some (n, outs)) /\ nth (S k) outs [] = [PublishPoint 0 st]) /\
    (dt < 0 -> exists n outs st, run (node_new false dt) [e; Tick; Tick] = Ok (Some (n, outs)) /\
       nth 1 outs [] = [PublishPoint 0 st] /\ nth 2 outs [] = [PublishPoint dt point_new]).
  Proof.
    intros D S. destruct (delivered_wf e tr D S) as (Hw & Hc & HD & HK). destruct S as (S1 & S2 & S3). pose proof (max_is_duration tr Hc) as Em.
    assert (Du : 0 <= duration tr). { unfold duration. clear -S2. unfold times_nonneg in S2. induction S2; cbn; [lra|]. cbn in *. lra. }
    destruct (C51_at_time mav tr 0 point_new Hw S2 Hc HK S3) as (G & _). rewrite Em in G.
    destruct (G (conj (conj (Rle_refl 0) Du) HD)) as (i & st & _ & _ & E & _). split.
    - intros E0 k.
      assert (Loop : forall k n, n = mkNode false 0 0 tr true -> exists outs, run n (repeat Tick k) = Ok (Some (n, outs)) /\ outs = repeat [PublishPoint 0 st] k).
      { induction k0 as [|k0 IH]; intros n ->; [exists []; split; reflexivity|]. cbn [repeat node_run node_step nd_running]. unfold commandTimerCallback. cbn [nd_time nd_trajectory nd_dt nd_whole nd_running].
        rewrite Em. rnum. destruct (Rleb_spec 0 (duration tr)); [|lra]. rewrite E. cbn [obind fst snd]. rewrite Rplus_0_r.
        destruct (IH _ eq_refl) as (os & -> & ->). cbn [obind]. eexists. split; reflexivity. }
      cbn [node_run]. rewrite (step_delivers mav dec dec4 fuel e tr (node_new false dt) D eq_refl). cbn [obind node_new nd_dt].
      change (mkNode false dt n0 tr true) with (mkNode false dt (0 : R) tr true). rewrite E0.
      destruct (Loop (S k) _ eq_refl) as (outs & E1 & E2). rewrite E1. cbn [obind]. eexists _, _, st. split; [reflexivity|]. cbn [nth]. rewrite E2.
      clear. induction k as [|k IH]; [reflexivity|]. exact IH.
    - intros Hn. cbn [node_run]. rewrite (step_delivers mav dec dec4 fuel e tr (node_new false dt) D eq_refl). cbn [obind node_new nd_dt node_step nd_running].
      unfold commandTimerCallback at 1. cbn [nd_time nd_trajectory nd_dt nd_whole nd_running]. rewrite Em. unfold n0. rnum. destruct (Rleb_spec 0 (duration tr)); [|lra].
      rewrite E. cbn [obind fst snd nd_running]. unfold commandTimerCallback. cbn [nd_time nd_trajectory nd_dt nd_whole nd_running]. rewrite Em. rewrite Rplus_0_l. rnum.
      destruct (Rleb_spec dt (duration tr)); [|lra].
      assert (E2 : sampleTrajectoryAtTime mav tr dt point_new = Ok (false, point_new)).
      { unfold sampleTrajectoryAtTime. unfold n0. rnum. rewrite (proj2 (Rltb_true dt 0)) by lra. reflexivity. }
      rewrite E2. cbn [obind fst snd]. eexists _, _, st. split; [reflexivity|]. split; reflexivity.
  Qed.

  (** With publish_whole_trajectory, a delivered trajectory of positive duration
      is published as its states at k dt before the end, given a large enough
      bound. *)
  Theorem C62_whole_mode_states e (tr : trajectory R) : delivers dec dec4 e tr -> sampleable tr -> 0 < dt -> 0 < duration tr -> duration tr / dt + 1 < IZR (2 ^ 59) ->
    exists fuel0 sts, (forall k, (k < length sts)%nat <-> INR k * dt < duration tr) /\
      (forall k, (k < length sts)%nat -> exists f, (forall d, (d < 5)%nat -> value_at tr d (INR k * dt) (f d)) /\ holds mav (tr_D tr) f (INR k * dt) point_new (nth k sts point_new)) /\
      forall fuel nd, (fuel0 <= fuel)%nat -> nd_whole nd = true -> nd_dt nd = dt -> exists nd',
        node_step mav dec dec4 fuel nd e = Ok (Some (nd', (if hold_available e then [PositionHold] else []) ++ [PublishWhole sts])).
  Proof.
    intros D S Hdt H0 Hq. destruct (delivered_wf e tr D S) as (Hw & Hc & HD & HK). destruct S as (S1 & S2 & S3).
    destruct (C51_whole_trajectory mav tr dt [] Hw S2 Hc HD S3 Hdt H0 Hq) as (f0 & sts & E & N & V). exists f0, sts. split; [exact N|]. split.
    - intros k Hk. destruct (V k Hk) as (f & V1 & V2). exists f. split; [exact V1|]. rewrite (nth_overflow [] point_new) in V2 by (cbn; lia). exact V2.
    - intros fl nd Hf W Ed. pose proof (delivered_nonempty dec dec4 e tr D) as Hne.
      destruct e as [h [|m ms]|h [|m ms]| |]; cbn in D, Hne; try contradiction; try (exfalso; apply Hne; reflexivity); cbn [node_step];
        unfold pathSegmentsCallback, pathSegments4DCallback, segments_callback.
      + change (msgToTrajectory dec (m :: ms) (nd_trajectory nd)) with (msgToTrajectory dec (m :: ms) traj_new). rewrite D. cbn [obind fst snd].
        unfold processTrajectory. cbn [nd_whole nd_trajectory nd_dt]. rewrite W, Ed, (E fl Hf). cbn [obind]. eexists. reflexivity.
      + change (msgToTrajectory4D dec4 (m :: ms) (nd_trajectory nd)) with (msgToTrajectory4D dec4 (m :: ms) traj_new). rewrite D. cbn [obind fst snd].
        unfold processTrajectory. cbn [nd_whole nd_trajectory nd_dt]. rewrite W, Ed, (E fl Hf). cbn [obind]. eexists. reflexivity.
  Qed.
End Reals.
Print Assumptions C62_sample_times.
Print Assumptions C62_needs_positive_interval_finding.
Print Assumptions C62_whole_mode_states.

(** * Binary64 *)
Lemma cmp_fnn (x y : b64) : fnn x -> fnn y -> Bcompare x y <> None.
Proof. intros Hx Hy. destruct x as [sx|sx| |sx mx ex Bx], y as [sy|sy| |sy my ey By]; cbn in *; try tauto; try discriminate; try (destruct sx, sy; cbn; discriminate). Qed.
Lemma fleb_ltb (x y : b64) : fnn x -> fnn y -> @nleb b64 B64_ops x y = negb (@nltb b64 B64_ops y x).
Proof.
  intros Hx Hy. pose proof (cmp_fnn x y Hx Hy) as N. cbn [nleb nltb B64_ops]. unfold b64_cmp. rewrite (Bcompare_swap 53 1024 x y).
  destruct (Bcompare x y) as [[]|]; [reflexivity|reflexivity|reflexivity|congruence].
Qed.
Lemma fleb_asym (x y : b64) : @nleb b64 B64_ops x y = true -> @nltb b64 B64_ops y x = false.
Proof. cbn [nleb nltb B64_ops]. unfold b64_cmp. rewrite (Bcompare_swap 53 1024 x y). destruct (Bcompare x y) as [[]|]; try discriminate; reflexivity. Qed.
Lemma fleb_fnn (x y : b64) : fnn x -> @nleb b64 B64_ops x y = true -> fnn y.
Proof.
  intros Hx. cbn [nleb B64_ops]. unfold b64_cmp.
  destruct x as [sx|sx| |sx mx ex Bx], y as [sy|sy| |sy my ey By]; cbn in *; try tauto; try discriminate; try subst sx; try (destruct sy; cbn; intros H; try discriminate H; reflexivity).
Qed.
Lemma fleb_trans (x y m : b64) : fnn x -> fnn y -> bval x <= bval y -> @nleb b64 B64_ops y m = true -> @nleb b64 B64_ops x m = true.
Proof.
  intros Hx Hy L H. pose proof (fleb_fnn y m Hy H) as Hm. rewrite fleb_ltb in * by assumption. rewrite fltb_spec in * by assumption.
  apply negb_true_iff in H. apply Rltb_false in H. apply negb_true_iff, Rltb_false. lra.
Qed.
Lemma sample_time_fnn (dt : b64) : fnn dt -> forall k, fnn (@sample_time b64 B64_ops dt k).
Proof.
  intros H. induction k as [|k IH]; [exact I|]. change (fnn (@nadd b64 B64_ops (@sample_time b64 B64_ops dt k) dt)). exact (proj1 (fplus_spec _ _ IH H)).
Qed.
Lemma sample_time_mono (dt : b64) : fnn dt -> forall k j, (j <= k)%nat -> bval (@sample_time b64 B64_ops dt j) <= bval (@sample_time b64 B64_ops dt k).
Proof.
  intros H. induction k as [|k IH]; intros j Hj; [replace j with 0%nat by lia; lra|]. destruct (Nat.eq_dec j (S k)) as [->|]; [lra|].
  apply Rle_trans with (bval (@sample_time b64 B64_ops dt k)); [apply IH; lia|]. exact (proj2 (fplus_spec _ _ (sample_time_fnn dt H k) H)).
Qed.
Lemma ordered_doubles (dt : b64) tr k : fnn dt -> @ordered_until b64 B64_ops dt tr k.
Proof.
  intros H j _ R. unfold reaches in R. split; [|exact (fleb_asym _ _ R)]. pose proof (sample_time_fnn dt H j) as F.
  rewrite fltb_spec; [|exact F|exact I]. apply Rltb_false. change (bval (@n0 b64 B64_ops)) with 0. apply fnn_bval. exact F.
Qed.
(** Doubles, for every interval that is not negative: the sample times are the
    running sums of the interval, published until they pass the end. *)
Theorem C62_doubles {M M4 : Type} (mav : mav_functions b64) (dec : M -> outcome (eigen_segment b64)) (dec4 : M4 -> outcome (eigen_segment b64)) fuel
    (dt : b64) pre e (tr : trajectory b64) mid post n outs :
  fnn dt -> @delivers b64 M M4 B64_ops dec dec4 e tr -> List.Forall quiet mid ->
  @node_run b64 M M4 B64_ops mav dec dec4 fuel (@node_new b64 B64_ops false dt) (pre ++ e :: mid ++ Tick :: post) = Ok (Some (n, outs)) ->
  let t := @sample_time b64 B64_ops dt (ticks mid) in
  let o := nth (length pre + S (length mid)) outs [] in
  (@nleb b64 B64_ops t (tr_max_time tr) = true -> exists st, @sampleTrajectoryAtTime b64 B64_ops mav tr t (@point_new b64 B64_ops) = Ok (true, st) /\ o = [PublishPoint t st]) /\
  (@nleb b64 B64_ops t (tr_max_time tr) = false -> o = []).
Proof.
  intros Hd D Q E. cbv zeta.
  destruct (@C62_ticks_after_trajectory b64 M M4 B64_ops mav dec dec4 fuel dt pre e tr mid post n outs D Q (ordered_doubles dt tr _ Hd) E) as (A & B). split.
  - intros L. apply A. intros j Hj. apply fleb_trans with (@sample_time b64 B64_ops dt (ticks mid)); try (apply sample_time_fnn; exact Hd); [|exact L].
    apply sample_time_mono; assumption.
  - intros L. apply B. exists (ticks mid). split; [lia|exact L].
Qed.
Print Assumptions C62_doubles.

(** With the default interval of 0.01 s, a trajectory of 1 s is not published at
    its end: a hundred times 0.01 is 1, but adding 0.01 a hundred times gives
    more. *)
Definition hundredth64 : b64 := @nlit b64 B64_ops 1 100.
Definition hundred64 : b64 := b64_of_Z 100.
Definition z64 : b64 := @n0 b64 B64_ops.
Definition eseg64 : eigen_segment b64 :=
  mkEseg [z64; @n1 b64 B64_ops] [z64; z64] [z64; z64] [] [] [] [] 2 (10 ^ 9).
Definition id64 (e : eigen_segment b64) : outcome (eigen_segment b64) := Ok e.
Definition mav64 : mav_functions b64 := mkMav b64 (fun y => [y]) (fun y => [y]) (fun y => [y]) (fun r => r) (fun r _ => r) (fun r _ _ => r).
Definition events64 : list (event (eigen_segment b64) (eigen_segment b64)) := PathSegments false [eseg64] :: repeat Tick 101.
Definition run64 := @node_run b64 _ _ B64_ops mav64 id64 id64 0 (@node_new b64 B64_ops false hundredth64) events64.
Definition line64 : trajectory b64 := mkTraj 3 2 [mkSegment 2 [[z64; @n1 b64 B64_ops]; [z64; z64]; [z64; z64]] (@ModelIO.nsec_time b64 B64_ops (10 ^ 9))]
  (@nadd b64 B64_ops z64 (@ModelIO.nsec_time b64 B64_ops (10 ^ 9))).
Definition lengths (r : outcome (option (node b64 * list (list (output b64))))) : list nat :=
  match r with Ok (Some (_, outs)) => map (@List.length _) outs | _ => [] end.
Lemma run64_lengths : lengths run64 = 0%nat :: repeat 1%nat 100 ++ [0%nat].
Proof. vm_compute. reflexivity. Qed.
Lemma line64_delivered : @delivers b64 _ _ B64_ops id64 id64 (PathSegments false [eseg64]) line64.
Proof. reflexivity. Qed.
Lemma end64 : @neqb b64 B64_ops (@nmul b64 B64_ops hundred64 hundredth64) (tr_max_time line64) = true.
Proof. vm_compute. reflexivity. Qed.
Lemma lengths_some r l : lengths r = l -> l <> [] -> exists n outs, r = Ok (Some (n, outs)) /\ map (@List.length _) outs = l.
Proof. intros H N. destruct r as [[(n, outs)|]| | |]; cbn in H; try congruence. exists n, outs. split; [reflexivity|exact H]. Qed.
Theorem C62_end_in_doubles_refuted : exists (e : event (eigen_segment b64) (eigen_segment b64)) tr n outs,
  @delivers b64 _ _ B64_ops id64 id64 e tr /\
  @neqb b64 B64_ops (@nmul b64 B64_ops hundred64 hundredth64) (tr_max_time tr) = true /\
  @node_run b64 _ _ B64_ops mav64 id64 id64 0 (@node_new b64 B64_ops false hundredth64) (e :: repeat Tick 100 ++ [Tick]) = Ok (Some (n, outs)) /\
  (forall i, (1 <= i <= 100)%nat -> length (nth i outs []) = 1%nat) /\ nth 101 outs [] = [].
Proof.
  destruct (lengths_some run64 _ run64_lengths) as (n & outs & E & L); [discriminate|].
  exists (PathSegments false [eseg64]), line64, n, outs. split; [exact line64_delivered|]. split; [exact end64|]. split; [exact E|].
  assert (G : forall i, length (nth i outs []) = nth i (0%nat :: repeat 1%nat 100 ++ [0%nat]) 0%nat). { intros i. rewrite <- L. symmetry. exact (map_nth (@List.length _) outs [] i). }
  split.
  - intros i Hi. rewrite G. destruct i as [|i]; [lia|]. cbn [nth]. rewrite app_nth1 by (rewrite repeat_length; lia). assert (X : forall m k, (k < m)%nat -> nth k (repeat 1%nat m) 0%nat = 1%nat) by (induction m as [|m IH]; intros [|k] H; cbn; try lia; apply IH; lia). apply X. lia.
  - apply length_zero_iff_nil. rewrite G. reflexivity.
Qed.
Print Assumptions C62_end_in_doubles_refuted.

(** * Examples *)
Definition eseg_ex : eigen_segment R := mkEseg [0; 1] [0; 2] [3; 0] [] [] [] [] 2 (10 ^ 9).
Definition idR (e : eigen_segment R) : outcome (eigen_segment R) := Ok e.
Definition line_msg : event (eigen_segment R) (eigen_segment R) := PathSegments true [eseg_ex].
Definition line_msg4 : event (eigen_segment R) (eigen_segment R) := PathSegments4D false [eseg_ex; eseg_ex].
Definition second : R := ModelIO.nsec_time (10 ^ 9).
Lemma second_1 : second = 1.
Proof. unfold second, ModelIO.nsec_time, ModelIO.kNumSecPerNsec, nlit. cbn [nmul ndiv nofZ R_ops]. change (IZR (10 ^ 9)) with (IZR 1000000000). lra. Qed.
Definition line1 : trajectory R := mkTraj 3 2 [mkSegment 2 [[0; 1]; [0; 2]; [3; 0]] second] (0 + second).
Definition line2 : trajectory R := mkTraj 3 2 [mkSegment 2 [[0; 1]; [0; 2]; [3; 0]] second; mkSegment 2 [[0; 1]; [0; 2]; [3; 0]] second] (0 + second + second).
Lemma line1_delivered : delivers idR idR line_msg line1. Proof. reflexivity. Qed.
Lemma line2_delivered : delivers idR idR line_msg4 line2. Proof. reflexivity. Qed.
Local Opaque second.
Lemma line1_duration : duration line1 = 1. Proof. unfold duration. cbn. rewrite second_1. lra. Qed.
Lemma line2_duration : duration line2 = 2. Proof. unfold duration. cbn. rewrite second_1. lra. Qed.
Lemma line1_sampleable : sampleable line1.
Proof.
  split; [cbn; lia|]. split; [unfold times_nonneg; cbn [line1 line2 tr_segments]; repeat (apply List.Forall_cons; [cbn [seg_time]; rewrite second_1; lra|]); apply List.Forall_nil|]. rewrite line1_duration. apply Rlt_le_trans with (IZR 10000000000); [lra|apply IZR_le; discriminate].
Qed.
Lemma line2_sampleable : sampleable line2.
Proof.
  split; [cbn; lia|]. split; [unfold times_nonneg; cbn [line1 line2 tr_segments]; repeat (apply List.Forall_cons; [cbn [seg_time]; rewrite second_1; lra|]); apply List.Forall_nil|]. rewrite line2_duration. apply Rlt_le_trans with (IZR 10000000000); [lra|apply IZR_le; discriminate].
Qed.
(** A tick before any trajectory, a trajectory of 1 s sampled every second with
    an empty message in between, a stop, and a trajectory of 2 s. *)
Definition events_ex : list (event (eigen_segment R) (eigen_segment R)) :=
  [Tick; line_msg; Tick; PathSegments true []; Tick; Tick; line_msg4; Tick; StopSampling; Tick].
Example C62_example : List.Forall (good_event idR idR) events_ex /\
  exists n outs st0 st1 st2, node_run no_mav idR idR 0 (node_new false 1) events_ex = Ok (Some (n, outs)) /\
    outs = [[]; [PositionHold]; [PublishPoint 0 st0]; []; [PublishPoint 1 st1]; []; []; [PublishPoint 0 st2]; []; []] /\
    pt_position st0 = [0; 0; 3] /\ pt_position st1 = [1; 2; 3].
Proof.
  assert (F : List.Forall (good_event idR idR) events_ex).
  { assert (Tk : good_event idR idR (Tick (M := eigen_segment R) (M4 := eigen_segment R))) by (left; right; left; reflexivity).
    assert (L1 : good_event idR idR line_msg) by (right; exists line1; split; [exact line1_delivered|exact line1_sampleable]).
    assert (L2 : good_event idR idR line_msg4) by (right; exists line2; split; [exact line2_delivered|exact line2_sampleable]).
    assert (Em : good_event idR idR (PathSegments (M := eigen_segment R) (M4 := eigen_segment R) true [])) by (left; right; right; reflexivity).
    assert (Sp : good_event idR idR (StopSampling (M := eigen_segment R) (M4 := eigen_segment R))) by (left; left; reflexivity).
    unfold events_ex. repeat (constructor; [assumption|]). constructor. }
  split; [exact F|].
  destruct (C62_sample_times no_mav idR idR 0 1 events_ex ltac:(lra) F) as (n & outs & E & L & G).
  assert (Qt : quiet (Tick (M := eigen_segment R) (M4 := eigen_segment R))) by (left; reflexivity).
  assert (Qe : quiet (PathSegments (M := eigen_segment R) (M4 := eigen_segment R) true [])) by (right; reflexivity).
  destruct (G [Tick] line_msg line1 [] _ eq_refl line1_delivered ltac:(constructor)) as (A & _). rewrite line1_duration in A. cbn [ticks filter List.length INR Nat.add] in A.
  destruct A as (st0 & f0 & O2 & V0 & (P0 & _)); [cbn; lra|].
  destruct (G [Tick] line_msg line1 [Tick; PathSegments true []] _ eq_refl line1_delivered ltac:(repeat (constructor; [assumption|]); constructor)) as (A1 & _). rewrite line1_duration in A1.
  destruct A1 as (st1 & f1 & O4 & V1 & (P1 & _)); [cbn; lra|].
  destruct (G [Tick] line_msg line1 [Tick; PathSegments true []; Tick] _ eq_refl line1_delivered ltac:(repeat (constructor; [assumption|]); constructor)) as (_ & A2). rewrite line1_duration in A2.
  assert (O5 := A2 ltac:(cbn; lra)).
  destruct (G [Tick; line_msg; Tick; PathSegments true []; Tick; Tick] line_msg4 line2 [] _ eq_refl line2_delivered ltac:(constructor)) as (A3 & _). rewrite line2_duration in A3.
  destruct A3 as (st2 & f2 & O7 & _ & _); [cbn; lra|].
  assert (O0 := C62_nothing_before_trajectory no_mav idR idR 0 1 [] _ Tick n outs ltac:(constructor) (or_intror Qt) E).
  assert (O1 := proj1 (C62_other_events no_mav idR idR 0 1 [Tick] line_msg _ n outs E) line1 line1_delivered).
  assert (O3 := proj2 (C62_other_events no_mav idR idR 0 1 [Tick; line_msg; Tick] (PathSegments true []) _ n outs E) (or_intror eq_refl)).
  assert (O6 := proj1 (C62_other_events no_mav idR idR 0 1 [Tick; line_msg; Tick; PathSegments true []; Tick; Tick] line_msg4 _ n outs E) line2 line2_delivered).
  assert (O8 := proj2 (C62_other_events no_mav idR idR 0 1 [Tick; line_msg; Tick; PathSegments true []; Tick; Tick; line_msg4; Tick] StopSampling _ n outs E) (or_introl eq_refl)).
  assert (O9 := C62_nothing_after_stop no_mav idR idR 0 1 [Tick; line_msg; Tick; PathSegments true []; Tick; Tick; line_msg4; Tick] [] [] Tick n outs ltac:(constructor) (or_intror Qt) E).
  exists n, outs, st0, st1, st2. split; [exact E|].
  cbn [events_ex List.length] in L. cbn [List.length Nat.add hold_available line_msg line_msg4 ticks filter is_tick INR] in O0, O1, O2, O3, O4, O5, O6, O7, O8, O9.
  rewrite Rmult_0_l in O2, O7. rewrite Rmult_1_l in O4.
  split.
  { destruct outs as [|a0 [|a1 [|a2 [|a3 [|a4 [|a5 [|a6 [|a7 [|a8 [|a9 [|]]]]]]]]]]]; cbn [List.length] in L; try lia.
    cbn [nth] in O0, O1, O2, O3, O4, O5, O6, O7, O8, O9. congruence. }
  split.
  - rewrite P0. destruct (V0 0%nat ltac:(lia)) as (i & Hi & _ & ->). replace i with 0%nat by (unfold tr_K in Hi; cbn in Hi; lia).
    unfold seg_value, seg_at, start_time, seg_fun. cbn. repeat f_equal; unfold SpecPoly.poly_fun; cbn; lra.
  - rewrite P1. destruct (V1 0%nat ltac:(lia)) as (i & Hi & _ & ->). replace i with 0%nat by (unfold tr_K in Hi; cbn in Hi; lia).
    unfold seg_value, seg_at, start_time, seg_fun. cbn. repeat f_equal; unfold SpecPoly.poly_fun; cbn; lra.
Qed.
Example C62_doubles_example : fnn hundredth64 /\ @nleb b64 B64_ops (@sample_time b64 B64_ops hundredth64 99) (tr_max_time line64) = true /\
  exists n outs st, @node_run b64 _ _ B64_ops mav64 id64 id64 0 (@node_new b64 B64_ops false hundredth64) ([] ++ PathSegments false [eseg64] :: repeat Tick 99 ++ Tick :: [Tick]) = Ok (Some (n, outs)) /\
    nth 100 outs [] = [PublishPoint (@sample_time b64 B64_ops hundredth64 99) st].
Proof.
  assert (Hd : fnn hundredth64) by reflexivity.
  assert (L : @nleb b64 B64_ops (@sample_time b64 B64_ops hundredth64 99) (tr_max_time line64) = true) by (vm_compute; reflexivity).
  split; [exact Hd|]. split; [exact L|].
  destruct (lengths_some run64 _ run64_lengths) as (n & outs & E & _); [discriminate|].
  assert (Q : List.Forall quiet (repeat (Tick (M := eigen_segment b64) (M4 := eigen_segment b64)) 99)).
  { apply List.Forall_forall. intros x Hx. apply repeat_spec in Hx. subst x. left. reflexivity. }
  destruct (C62_doubles mav64 id64 id64 0 hundredth64 [] (PathSegments false [eseg64]) line64 (repeat Tick 99) [Tick] n outs Hd line64_delivered Q E) as (A & _).
  destruct (A L) as (st & _ & Eo). exists n, outs, st. split; [exact E|exact Eo].
Qed.

(** With publish_whole_trajectory the state at the end is never part of the
    message, also when the duration is a multiple of the interval. *)
Theorem C62_whole_mode_end_refuted : exists (e : event (eigen_segment R) (eigen_segment R)) tr dt k sts fuel0, delivers idR idR e tr /\ sampleable tr /\ 0 < dt /\
  INR k * dt = duration tr /\ length sts = k /\
  forall fuel, (fuel0 <= fuel)%nat -> exists n, node_run no_mav idR idR fuel (node_new true dt) [e] = Ok (Some (n, [[PositionHold; PublishWhole sts]])).
Proof.
  assert (D1 : 0 < duration line1) by (rewrite line1_duration; lra).
  assert (D2 : duration line1 / (1 / 2) + 1 < IZR (2 ^ 59)) by (rewrite line1_duration; apply Rle_lt_trans with (IZR 3); [lra|apply IZR_lt; reflexivity]).
  destruct (C62_whole_mode_states no_mav idR idR (1 / 2) line_msg line1 line1_delivered line1_sampleable ltac:(lra) D1 D2) as (f0 & sts & N & _ & E).
  rewrite line1_duration in N. exists line_msg, line1, (1 / 2), 2%nat, sts, f0.
  split; [exact line1_delivered|]. split; [exact line1_sampleable|]. split; [lra|]. split; [rewrite line1_duration; cbn; lra|]. split.
  - assert (A : (1 < length sts)%nat) by (apply N; cbn; lra). assert (B : ~ (2 < length sts)%nat) by (rewrite N; cbn; lra). lia.
  - intros fl Hf. destruct (E fl (node_new true (1 / 2)) Hf eq_refl eq_refl) as (n & En). exists n. cbn [node_run]. rewrite En. reflexivity.
Qed.
Print Assumptions C62_whole_mode_end_refuted.
Example C62_interval_example : exists n outs st, node_run no_mav idR idR 0 (node_new false (-1)) [line_msg; Tick; Tick] = Ok (Some (n, outs)) /\
  nth 1 outs [] = [PublishPoint 0 st] /\ nth 2 outs [] = [PublishPoint (-1) point_new].
Proof. exact (proj2 (C62_needs_positive_interval_finding no_mav idR idR 0 (-1) line_msg line1 line1_delivered line1_sampleable) ltac:(lra)). Qed.
Example C62_malformed_example : node_step no_mav idR idR 0 (node_new false 1) (PathSegments false [mkEseg [0; 1] [0] [0; 1] [] [] [] [] 2 (10 ^ 9)]) = Abort.
Proof. apply (C62_malformed_message_finding no_mav idR idR 0 false _ [] _ _ eq_refl). cbn. lia. Qed.
