(** C50: ROS messages. *)
From Coq Require Import ZArith Reals List Bool Lia Lra.
From Flocq Require Import IEEE754.BinarySingleNaN.
From Verif Require Import Num RSum ModelPolynomial ModelSegment ModelTrajectory ModelYaml ModelIO ProofIO PropIO ProofNsec PropNsec ModelMsgs.
Import ListNotations.
Notation length := List.length.

(** What the message holds for a segment with polynomials ps of N coefficients
    and a time of ns nanoseconds. *)
Definition message_fields {T} (N : nat) (ps : list (list T)) (ns : Z) : option (eigen_segment T) :=
  match ps with
  | [x; y; z] => Some (mkEseg x y z [] [] [] [] (Z.of_nat N) ns)
  | [x; y; z; yaw] => Some (mkEseg x y z yaw [] [] [] (Z.of_nat N) ns)
  | [x; y; z; rx; ry; rz] => Some (mkEseg x y z [] rx ry rz (Z.of_nat N) ns)
  | _ => None
  end.
(** The conversion of mav_planning_msgs reads back what it wrote for these
    fields. *)
Definition codec_reads {T M} (enc : eigen_segment T -> outcome M) (dec : M -> outcome (eigen_segment T)) (e : eigen_segment T) : Prop :=
  exists m, enc e = Ok m /\ dec m = Ok e.

Section Generic.
  Context {T M : Type} {ops : NumOps T}.
  Variable enc : eigen_segment T -> outcome M.
  Variable dec : M -> outcome (eigen_segment T).

  Lemma coeffs_ok (s : segment T) i : (i < seg_D s)%nat -> coeffs_of s i = Ok (nth i (seg_polys s) []).
  Proof.
    intros H. unfold coeffs_of, seg_index. rewrite (proj2 (Nat.ltb_lt _ _) H). unfold oget. unfold seg_D in H. rewrite (nth_error_nth' _ [] H). cbn [obind].
    unfold poly_getCoefficients. destruct (Z.ltb_spec (Z.of_nat (length (nth i (seg_polys s) []))) 0); [lia|]. reflexivity.
  Qed.
  Lemma eigen_ok (s : segment T) ns : In (seg_D s) [3; 4; 6]%nat -> seg_getTimeNSec s = Ok ns ->
    exists e, eigen_of_segment s = Ok e /\ message_fields (seg_N s) (seg_polys s) ns = Some e.
  Proof.
    intros Hd Hn. unfold eigen_of_segment. rewrite Hn. assert (3 <= seg_D s)%nat by (cbn in Hd; lia). rewrite !coeffs_ok by lia. cbn [obind].
    destruct Hd as [Hd|[Hd|[Hd|[]]]]; rewrite <- Hd; cbn [Nat.eqb]; rewrite ?coeffs_ok by lia; cbn [obind]; eexists; (split; [reflexivity|]); unfold seg_D in Hd;
      (destruct (seg_polys s) as [|x [|y [|z [|a [|b [|c [|d rest]]]]]]]; cbn [List.length] in Hd; try lia); reflexivity.
  Qed.

  (** What comes back of the fields of a message. *)
  Lemma segment_back6 (with6 : bool) N ps ns e : message_fields N ps ns = Some e -> (1 <= N)%nat -> List.Forall (fun p => length p = N) ps ->
    (with6 = true \/ length ps <> 6%nat) -> segment_of_eigen with6 e = Ok (mkSegment N ps (nsec_time ns)).
  Proof.
    intros He HN Hl H6.
    assert (Set_ : forall p, In p ps -> forall q, In q ps -> poly_setCoefficients (repeat n0 (length p)) q = Ok q).
    { rewrite List.Forall_forall in Hl. intros p Hp q Hq. unfold poly_setCoefficients. rewrite repeat_length, (Hl p Hp), (Hl q Hq), Nat.eqb_refl. reflexivity. }
    assert (Em : forall p, In p ps -> empty p = false). { rewrite List.Forall_forall in Hl. intros p Hp. specialize (Hl p Hp). destruct p; [cbn in Hl; lia|reflexivity]. }
    rewrite List.Forall_forall in Hl.
    destruct ps as [|x [|y [|z [|a [|b [|c [|d rest]]]]]]]; cbn [message_fields] in He; try discriminate; injection He as <-;
      unfold segment_of_eigen; cbn [es_x es_y es_z es_yaw es_rx es_ry es_rz es_num_coeffs es_time_ns].
    - rewrite andb_false_r. cbn [empty negb andb]. repeat (rewrite Set_ by (cbn; tauto); cbn [obind]). cbn [Nat.eqb obind].
      unfold seg_setTimeNSec, seg_setTime. cbn [seg_N seg_polys]. rewrite (Hl x) by (cbn; tauto). reflexivity.
    - rewrite andb_false_r. cbn [empty negb andb]. rewrite (Em a) by (cbn; tauto). cbn [negb Nat.eqb]. repeat (rewrite Set_ by (cbn; tauto); cbn [obind]).
      unfold seg_setTimeNSec, seg_setTime. cbn [seg_N seg_polys]. rewrite (Hl x) by (cbn; tauto). reflexivity.
    - destruct H6 as [->|H6]; [|cbn in H6; congruence]. rewrite (Em a), (Em b), (Em c) by (cbn; tauto). cbn [negb andb Nat.eqb]. repeat (rewrite Set_ by (cbn; tauto); cbn [obind]).
      unfold seg_setTimeNSec, seg_setTime. cbn [seg_N seg_polys]. rewrite (Hl x) by (cbn; tauto). reflexivity.
  Qed.

  Lemma loop_ok (with6 : bool) dims segs nss : forall msg,
    (forall s, In s segs -> In (seg_D s) dims /\ In (seg_D s) [3; 4; 6]%nat /\ (1 <= seg_N s)%nat /\ List.Forall (fun p => length p = seg_N s) (seg_polys s) /\
       (with6 = true \/ seg_D s <> 6%nat)) ->
    Forall2 (fun s ns => seg_getTimeNSec s = Ok ns /\ forall e, message_fields (seg_N s) (seg_polys s) ns = Some e -> codec_reads enc dec e) segs nss ->
    exists ms, msg_loop enc dims segs msg = Ok (true, msg ++ ms) /\
      omap (fun m => e <-- dec m ;; segment_of_eigen with6 e) ms = Ok (map (fun p => stored (fst p) (snd p)) (combine segs nss)).
  Proof.
    induction segs as [|s segs IH] in nss |- *; intros msg Hs F2; inversion F2 as [|? ns ? nss' (Hn & Hr) F2']; subst.
    { exists []. rewrite app_nil_r. split; reflexivity. }
    destruct (Hs s (or_introl eq_refl)) as (Hd & H346 & H1 & Hl & H6). destruct (eigen_ok s ns H346 Hn) as (e & Ee & Ef). destruct (Hr e Ef) as (m & Em & Ed).
    destruct (IH nss' (msg ++ [m])) as (ms & E1 & E2); [intros s' Hs'; apply Hs; right; exact Hs'|exact F2'|].
    exists (m :: ms). cbn [msg_loop]. replace (existsb (Nat.eqb (seg_D s)) dims) with true.
    2:{ symmetry. apply existsb_exists. exists (seg_D s). split; [exact Hd|apply Nat.eqb_refl]. }
    rewrite Ee. cbn [obind]. rewrite Em. cbn [obind]. rewrite E1, <- app_assoc. split; [reflexivity|].
    cbn [omap]. rewrite Ed. cbn [obind]. rewrite (segment_back6 with6 (seg_N s) (seg_polys s) ns e Ef H1 Hl H6). cbn [obind]. rewrite E2. reflexivity.
  Qed.

  Lemma roundtrip (with6 : bool) dims (tr tr0 : trajectory T) :
    traj_uniform tr -> In (tr_D tr) dims -> In (tr_D tr) [3; 4; 6]%nat -> (with6 = true \/ tr_D tr <> 6%nat) -> (1 <= tr_N tr)%nat ->
    (forall s p, In s (tr_segments tr) -> In p (seg_polys s) -> length p = tr_N tr) ->
    (forall s, In s (tr_segments tr) -> exists ns, seg_getTimeNSec s = Ok ns /\
       forall e, message_fields (tr_N tr) (seg_polys s) ns = Some e -> codec_reads enc dec e) ->
    exists msg tr', to_msg enc dims tr = Ok (true, msg) /\ from_msg dec with6 msg tr0 = Ok (true, tr') /\
      tr_D tr' = tr_D tr /\ tr_N tr' = tr_N tr /\ Forall2 restored (tr_segments tr) (tr_segments tr') /\
      tr_max_time tr' = fold_left (fun m s => nadd m (seg_time s)) (tr_segments tr') n0.
  Proof.
    intros Hu Hd H346 H6 HN Hl Ht.
    assert (F : exists nss, Forall2 (fun s ns => seg_getTimeNSec s = Ok ns /\ forall e, message_fields (seg_N s) (seg_polys s) ns = Some e -> codec_reads enc dec e) (tr_segments tr) nss).
    { assert (Hn : forall s, In s (tr_segments tr) -> seg_N s = tr_N tr) by (intros s Hs; apply Hu, Hs). clear -Ht Hn. induction (tr_segments tr) as [|s l IH]; [exists []; constructor|].
      destruct IH as (nss & F); [intros; apply Ht; right; assumption|intros; apply Hn; right; assumption|]. destruct (Ht s (or_introl eq_refl)) as (ns & E & R). exists (ns :: nss).
      constructor; [|exact F]. split; [exact E|]. rewrite (Hn s (or_introl eq_refl)). exact R. }
    destruct F as (nss & F).
    destruct (loop_ok with6 dims (tr_segments tr) nss []) as (ms & E1 & E2); [|exact F|].
    { intros s Hs. destruct (proj2 Hu s Hs) as (-> & ->). repeat (split; [assumption|]). split; [|exact H6]. apply List.Forall_forall. intros p Hp. exact (Hl s p Hs Hp). }
    assert (F0 : Forall2 (fun s ns => seg_getTimeNSec s = Ok ns) (tr_segments tr) nss) by (clear -F; induction F as [|s ns l l' (A & _)]; constructor; assumption).
    assert (R := stored_restored _ _ F0). destruct (set_restored tr tr0 _ Hu R) as (tr' & E' & D' & N' & S' & M').
    exists ms, tr'. unfold to_msg. rewrite E1. cbn [obind fst app]. split; [reflexivity|]. unfold from_msg. rewrite E2. cbn [obind]. rewrite E'. cbn [obind].
    split; [reflexivity|]. split; [exact D'|]. split; [exact N'|]. rewrite S'. split; [exact R|exact M'].
  Qed.
End Generic.

(** ** C50, for every number type: coefficients, dimension and times. *)
Theorem C50_roundtrip {T M : Type} {ops : NumOps T} enc (dec : M -> outcome (eigen_segment T)) (tr tr0 : trajectory T) :
  traj_uniform tr -> In (tr_D tr) [3; 4; 6]%nat -> (1 <= tr_N tr)%nat ->
  (forall s p, In s (tr_segments tr) -> In p (seg_polys s) -> length p = tr_N tr) ->
  (forall s, In s (tr_segments tr) -> exists ns, seg_getTimeNSec s = Ok ns /\
     forall e, message_fields (tr_N tr) (seg_polys s) ns = Some e -> codec_reads enc dec e) ->
  exists msg tr', trajectoryToMsg enc tr = Ok (true, msg) /\ msgToTrajectory dec msg tr0 = Ok (true, tr') /\
    tr_D tr' = tr_D tr /\ tr_N tr' = tr_N tr /\ Forall2 restored (tr_segments tr) (tr_segments tr') /\
    tr_max_time tr' = fold_left (fun m s => nadd m (seg_time s)) (tr_segments tr') n0.
Proof. intros Hu Hd HN Hl Ht. apply roundtrip; auto. Qed.
Print Assumptions C50_roundtrip.
Theorem C50_roundtrip_4D {T M : Type} {ops : NumOps T} enc (dec : M -> outcome (eigen_segment T)) (tr tr0 : trajectory T) :
  traj_uniform tr -> In (tr_D tr) [3; 4]%nat -> (1 <= tr_N tr)%nat ->
  (forall s p, In s (tr_segments tr) -> In p (seg_polys s) -> length p = tr_N tr) ->
  (forall s, In s (tr_segments tr) -> exists ns, seg_getTimeNSec s = Ok ns /\
     forall e, message_fields (tr_N tr) (seg_polys s) ns = Some e -> codec_reads enc dec e) ->
  exists msg tr', trajectoryToMsg4D enc tr = Ok (true, msg) /\ msgToTrajectory4D dec msg tr0 = Ok (true, tr') /\
    tr_D tr' = tr_D tr /\ tr_N tr' = tr_N tr /\ Forall2 restored (tr_segments tr) (tr_segments tr') /\
    tr_max_time tr' = fold_left (fun m s => nadd m (seg_time s)) (tr_segments tr') n0.
Proof. intros Hu Hd HN Hl Ht. apply roundtrip; auto; cbn in *; lia. Qed.
Print Assumptions C50_roundtrip_4D.

(** Other dimensions are rejected with an empty message. *)
Theorem C50_rejected {T M : Type} {ops : NumOps T} (enc : eigen_segment T -> outcome M) (tr : trajectory T) : traj_uniform tr ->
  (~ In (tr_D tr) [3; 4; 6]%nat -> trajectoryToMsg enc tr = Ok (false, [])) /\
  (~ In (tr_D tr) [3; 4]%nat -> trajectoryToMsg4D enc tr = Ok (false, [])).
Proof.
  intros (Hne & Hu). unfold trajectoryToMsg, trajectoryToMsg4D, to_msg. destruct (tr_segments tr) as [|s segs]; [congruence|].
  destruct (Hu s (or_introl eq_refl)) as (HD & _). cbn [msg_loop]. rewrite HD.
  assert (G : forall dims, ~ In (tr_D tr) dims -> existsb (Nat.eqb (tr_D tr)) dims = false).
  { intros dims H. apply not_true_is_false. intros E. apply existsb_exists in E. destruct E as (k & Hk & E). apply Nat.eqb_eq in E. congruence. }
  split; intros H; rewrite (G _ H); reflexivity.
Qed.
Print Assumptions C50_rejected.

(** Times over the reals: rounded down by less than a nanosecond. *)
Theorem C50_times {M : Type} enc (dec : M -> outcome (eigen_segment R)) (tr tr0 : trajectory R) :
  traj_uniform tr -> In (tr_D tr) [3; 4; 6]%nat -> (1 <= tr_N tr)%nat ->
  (forall s p, In s (tr_segments tr) -> In p (seg_polys s) -> length p = tr_N tr) ->
  (forall s, In s (tr_segments tr) -> (0 <= seg_time s)%R /\ (10 ^ 9 * seg_time s < IZR (2 ^ 64))%R) -> (forall e, codec_reads enc dec e) ->
  exists msg tr', trajectoryToMsg enc tr = Ok (true, msg) /\ msgToTrajectory dec msg tr0 = Ok (true, tr') /\ tr_D tr' = tr_D tr /\
    Forall2 (fun s s' => seg_polys s' = seg_polys s /\ (seg_time s - / 10 ^ 9 < seg_time s' <= seg_time s)%R) (tr_segments tr) (tr_segments tr').
Proof.
  intros Hu Hd HN Hl Ht Hc.
  destruct (C50_roundtrip enc dec tr tr0 Hu Hd HN Hl) as (msg & tr' & E1 & E2 & D' & _ & F & _).
  { intros s Hs. destruct (Ht s Hs) as (T0 & T1). destruct (nsec_R s T0 T1) as (ns & E & _). exists ns. auto. }
  exists msg, tr'. do 3 (split; [assumption|]). clear -F Ht. induction F as [|s s' segs segs' (A & B & ns & C & D) F IH]; constructor.
  - split; [exact B|]. destruct (Ht s (or_introl eq_refl)) as (T0 & T1). destruct (nsec_R s T0 T1) as (ns' & E & Q).
    rewrite C in E. apply Ok_inj in E. subst ns'. rewrite D. exact Q.
  - apply IH. intros; apply Ht; right; assumption.
Qed.
Print Assumptions C50_times.
(** In doubles: the whole nanoseconds of each time are the same on both sides,
    and the time changes by at most one nanosecond (below 2^52 nanoseconds). *)
Theorem C50_times_doubles {M : Type} enc (dec : M -> outcome (eigen_segment b64)) (tr tr0 : trajectory b64) :
  traj_uniform tr -> In (tr_D tr) [3; 4; 6]%nat -> (1 <= tr_N tr)%nat ->
  (forall s p, In s (tr_segments tr) -> In p (seg_polys s) -> length p = tr_N tr) ->
  (forall s, In s (tr_segments tr) -> exists ns, @seg_getTimeNSec b64 B64_ops s = Ok ns /\ (ns < 2 ^ 52)%Z) -> (forall e, codec_reads enc dec e) ->
  exists msg tr', @trajectoryToMsg b64 M B64_ops enc tr = Ok (true, msg) /\ @msgToTrajectory b64 M B64_ops dec msg tr0 = Ok (true, tr') /\ tr_D tr' = tr_D tr /\
    Forall2 (fun s s' => seg_polys s' = seg_polys s /\ @seg_getTimeNSec b64 B64_ops s' = @seg_getTimeNSec b64 B64_ops s /\
      (Rabs (B2R (seg_time s') - B2R (seg_time s)) <= / 1000000000)%R) (tr_segments tr) (tr_segments tr').
Proof.
  intros Hu Hd HN Hl Ht Hc.
  destruct (@C50_roundtrip b64 M B64_ops enc dec tr tr0 Hu Hd HN Hl) as (msg & tr' & E1 & E2 & D' & _ & F & _).
  { intros s Hs. destruct (Ht s Hs) as (ns & E & _). exists ns. auto. }
  exists msg, tr'. do 3 (split; [assumption|]). clear -F Ht. induction F as [|s s' segs segs' (A & B & ns & C & D) F IH]; constructor.
  - split; [exact B|]. destruct (Ht s (or_introl eq_refl)) as (ns' & E & Q). rewrite C in E. apply Ok_inj in E. subst ns'.
    destruct (get_value s ns C) as (H0 & _). assert (Es : seg_time s' = seg_time (@seg_setTimeNSec b64 B64_ops s ns)) by (rewrite D; reflexivity).
    split; [|rewrite Es; apply nsec_cycle; assumption]. rewrite C. rewrite <- (nsec_roundtrip s ns) by lia. unfold seg_getTimeNSec. rewrite Es. reflexivity.
  - apply IH. intros; apply Ht; right; assumption.
Qed.
Print Assumptions C50_times_doubles.

(** Example: the message type is the record itself. *)
Definition id_enc (e : eigen_segment R) : outcome (eigen_segment R) := Ok e.
Definition msg_tr : trajectory R :=
  mkTraj 4 2 [mkSegment 2 [[1; 2]; [3; 4]; [5; 6]; [7; 8]] 1; mkSegment 2 [[3; 2]; [7; 4]; [11; 6]; [15; 8]] 2]%R 3%R.
Example C50_example : exists msg tr', trajectoryToMsg id_enc msg_tr = Ok (true, msg) /\ length msg = 2%nat /\ msgToTrajectory id_enc msg traj_new = Ok (true, tr') /\
  map (fun s => seg_polys s) (tr_segments tr') = map (fun s => seg_polys s) (tr_segments msg_tr).
Proof.
  destruct (C50_times id_enc id_enc msg_tr traj_new) as (msg & tr' & E1 & E2 & D' & F).
  - split; [discriminate|]. intros s [<-|[<-|[]]]; split; reflexivity.
  - cbn. auto.
  - cbn. lia.
  - intros s p [<-|[<-|[]]] Hp; cbn in Hp; repeat (destruct Hp as [<-|Hp]; [reflexivity|]); destruct Hp.
  - assert (Q : (10000000000 < IZR (2 ^ 64))%R) by (apply IZR_lt; reflexivity). intros s [<-|[<-|[]]]; cbn [seg_time]; lra.
  - intros e. exists e. split; reflexivity.
  - exists msg, tr'. split; [exact E1|]. split; [|split; [exact E2|]].
    + revert E1. unfold trajectoryToMsg, to_msg. cbn [msg_tr tr_segments msg_loop existsb Nat.eqb seg_D seg_polys List.length orb].
      destruct (eigen_of_segment _) as [e1| | |]; cbn [obind id_enc]; try discriminate.
      destruct (eigen_of_segment _) as [e2| | |]; cbn [obind id_enc fst app]; try discriminate. intros H. injection H as <-. reflexivity.
    + inversion F as [|? a ? l (A1 & _) F1]; subst. inversion F1 as [|? b ? l' (A2 & _) F2]; subst. inversion F2; subst. cbn [map]. rewrite A1, A2. reflexivity.
Qed.

(** A three-dimensional trajectory of doubles for the 4D message and a
    six-dimensional one for the other. *)
Definition id_enc_b64 (e : eigen_segment b64) : outcome (eigen_segment b64) := Ok e.
Definition b64_tr (D : nat) : trajectory b64 := mkTraj D 2 [mkSegment 2 (repeat [b64_of_Z 1; b64_of_Z 2] D) (b64_of_Z 3)] (b64_of_Z 3).
Example C50_example_doubles : traj_uniform (b64_tr 6) /\ (exists ns, @seg_getTimeNSec b64 B64_ops (mkSegment 2 (repeat [b64_of_Z 1; b64_of_Z 2] 6) (b64_of_Z 3)) = Ok ns /\ (ns < 2 ^ 52)%Z) /\
  (exists msg tr', @trajectoryToMsg b64 _ B64_ops id_enc_b64 (b64_tr 6) = Ok (true, msg) /\ @msgToTrajectory b64 _ B64_ops id_enc_b64 msg (@traj_new b64 B64_ops) = Ok (true, tr') /\ tr_D tr' = 6%nat) /\
  (exists msg tr', @trajectoryToMsg4D b64 _ B64_ops id_enc_b64 (b64_tr 3) = Ok (true, msg) /\ @msgToTrajectory4D b64 _ B64_ops id_enc_b64 msg (@traj_new b64 B64_ops) = Ok (true, tr') /\ tr_D tr' = 3%nat).
Proof.
  assert (U : forall D, traj_uniform (b64_tr D)). { intros D. split; [discriminate|]. intros s [<-|[]]. unfold seg_D. cbn [seg_polys seg_N]. rewrite repeat_length. split; reflexivity. }
  assert (L : forall D s p, In s (tr_segments (b64_tr D)) -> In p (seg_polys s) -> length p = 2%nat) by (intros D s p [<-|[]] Hp; apply repeat_spec in Hp; subst p; reflexivity).
  assert (N : forall D, @seg_getTimeNSec b64 B64_ops (mkSegment 2 (repeat [b64_of_Z 1; b64_of_Z 2] D) (b64_of_Z 3)) = Ok 3000000000%Z) by (intros D; vm_compute; reflexivity).
  assert (C : forall e, codec_reads id_enc_b64 id_enc_b64 e) by (intros e; exists e; split; reflexivity).
  split; [apply U|]. split; [eexists; split; [apply N|lia]|]. split.
  - destruct (C50_times_doubles id_enc_b64 id_enc_b64 (b64_tr 6) (@traj_new b64 B64_ops) (U 6%nat)) as (msg & tr' & E1 & E2 & E3 & _); [cbn; auto|cbn; lia|apply L| |exact C|exists msg, tr'; auto].
    intros s [<-|[]]. eexists. split; [apply N|lia].
  - destruct (@C50_roundtrip_4D b64 _ B64_ops id_enc_b64 id_enc_b64 (b64_tr 3) (@traj_new b64 B64_ops) (U 3%nat)) as (msg & tr' & E1 & E2 & E3 & _); [cbn; auto|cbn; lia|apply L| |exists msg, tr'; auto].
    intros s [<-|[]]. eexists. split; [apply N|]. intros e _. apply C.
Qed.

(** Outside the hypotheses: an empty message aborts; coordinate lists of
    different sizes abort; without coefficients the yaw dimension is lost. *)
Theorem C50_empty_message_aborts {T M : Type} {ops : NumOps T} (dec : M -> outcome (eigen_segment T)) (tr : trajectory T) :
  msgToTrajectory dec [] tr = Abort /\ msgToTrajectory4D dec [] tr = Abort.
Proof. split; reflexivity. Qed.
Print Assumptions C50_empty_message_aborts.
Theorem C50_malformed_message_aborts {T M : Type} {ops : NumOps T} (dec : M -> outcome (eigen_segment T)) (m : M) ms (e : eigen_segment T) (tr : trajectory T) :
  dec m = Ok e -> length (es_y e) <> length (es_x e) \/ length (es_z e) <> length (es_x e) -> msgToTrajectory dec (m :: ms) tr = Abort.
Proof.
  intros E H. unfold msgToTrajectory, from_msg. cbn [omap]. rewrite E. cbn [obind]. unfold segment_of_eigen, poly_setCoefficients. rewrite repeat_length, Nat.eqb_refl. cbn [obind].
  destruct (Nat.eqb_spec (length (es_x e)) (length (es_y e))); [|reflexivity]. cbn [obind].
  destruct (Nat.eqb_spec (length (es_x e)) (length (es_z e))); [|reflexivity]. lia.
Qed.
Print Assumptions C50_malformed_message_aborts.
Theorem C50_needs_coefficients : exists (tr tr' : trajectory R) msg, traj_uniform tr /\ tr_D tr = 4%nat /\ tr_N tr = 0%nat /\
  trajectoryToMsg id_enc tr = Ok (true, msg) /\ msgToTrajectory id_enc msg traj_new = Ok (true, tr') /\ tr_D tr' = 3%nat.
Proof.
  destruct (nsec_R (mkSegment 0 [[]; []; []; []] 1%R)) as (ns & E & _); [cbn [seg_time]; lra|cbn [seg_time]; apply Rlt_le_trans with 10000000000%R; [lra|apply IZR_le; discriminate]|].
  exists (mkTraj 4 0 [mkSegment 0 [[]; []; []; []] 1%R] 1%R). eexists _, _. split; [split; [discriminate|intros s [<-|[]]; split; reflexivity]|].
  split; [reflexivity|]. split; [reflexivity|]. unfold trajectoryToMsg, to_msg. cbn [tr_segments msg_loop existsb Nat.eqb seg_D seg_polys List.length orb].
  unfold eigen_of_segment. rewrite E. split; [reflexivity|]. split; reflexivity.
Qed.
Print Assumptions C50_needs_coefficients.
