(** Properties C46 and C47 (YAML nodes and files). *)
From Coq Require Import ZArith Reals List Bool Lia Lra String DecimalString DecimalZ.
From Verif Require Import Num RSum ModelPolynomial ModelSegment ModelTrajectory ModelYaml ModelIO ProofSegment ProofSegment2 ProofIO.
Import ListNotations.
Notation length := List.length.

(** ** C46 *)
(** All segments of the trajectory have its dimension and number of coefficients,
    and there is at least one (what setSegments and addSegments ensure). *)
Definition traj_uniform {T} (tr : trajectory T) : Prop :=
  tr_segments tr <> [] /\ forall s, In s (tr_segments tr) -> seg_D s = tr_D tr /\ seg_N s = tr_N tr.
(** Texts of the numbers of the trajectory are read back. *)
Definition texts_ok {T} (cd : codec T) (tr : trajectory T) : Prop :=
  (forall z, (0 <= z < 2 ^ 31)%Z -> parseI cd (fmtZ cd z) = Some z) /\
  (forall z, (0 <= z < 2 ^ 64)%Z -> parseU cd (fmtZ cd z) = Some z) /\
  (forall s p x, In s (tr_segments tr) -> In p (seg_polys s) -> In x p -> parseD cd (fmtD cd x) = Some x).
(** Segment s' is segment s with its time cut to nanoseconds. *)
Definition restored {T} {ops : NumOps T} (s s' : segment T) : Prop :=
  seg_N s' = seg_N s /\ seg_polys s' = seg_polys s /\
  exists ns, seg_getTimeNSec s = Ok ns /\ seg_time s' = nmul (nofZ ns) (nlit 1 (10 ^ 9)).

Lemma texts_codec {T} (cd : codec T) tr : texts_ok cd tr -> codec_ok cd (List.concat (List.concat (map seg_polys (tr_segments tr)))).
Proof.
  intros (A & B & C). split; [exact A|]. split; [exact B|]. intros x Hx. apply in_concat in Hx. destruct Hx as (p & Hp & Hx).
  apply in_concat in Hp. destruct Hp as (ps & Hps & Hp). apply in_map_iff in Hps. destruct Hps as (s & <- & Hs). exact (C s p x Hs Hp Hx).
Qed.
Lemma times_list {T} {ops : NumOps T} (segs : list (segment T)) : (forall s, In s segs -> exists ns, seg_getTimeNSec s = Ok ns) ->
  exists nss, Forall2 (fun s ns => seg_getTimeNSec s = Ok ns) segs nss.
Proof.
  induction segs as [|s segs IH]; intros H; [exists []; constructor|]. destruct IH as (nss & F); [intros; apply H; right; assumption|].
  destruct (H s (or_introl eq_refl)) as (ns & E). exists (ns :: nss). constructor; assumption.
Qed.
Lemma stored_restored {T} {ops : NumOps T} (segs : list (segment T)) nss : Forall2 (fun s ns => seg_getTimeNSec s = Ok ns) segs nss ->
  Forall2 restored segs (map (fun p => stored (fst p) (snd p)) (combine segs nss)).
Proof.
  induction 1 as [|s ns segs nss H1 H2 IH]; [constructor|]. cbn [combine map fst snd]. constructor; [|exact IH].
  split; [reflexivity|]. split; [reflexivity|]. exists ns. split; [exact H1|reflexivity].
Qed.
Lemma restored_uniform {T} {ops : NumOps T} (segs segs' : list (segment T)) D N : Forall2 restored segs segs' ->
  (forall s, In s segs -> seg_D s = D /\ seg_N s = N) -> List.Forall (fun s => seg_D s = D /\ seg_N s = N) segs'.
Proof.
  induction 1 as [|s s' segs segs' (E1 & E2 & _) H2 IH]; intros H; constructor.
  - destruct (H s (or_introl eq_refl)) as (HD & HN). unfold seg_D in *. rewrite E2, E1. auto.
  - apply IH. intros; apply H; right; assumption.
Qed.
Lemma set_restored {T} {ops : NumOps T} (tr tr0 : trajectory T) segs' : traj_uniform tr -> Forall2 restored (tr_segments tr) segs' ->
  exists tr', traj_setSegments tr0 segs' = Ok tr' /\ tr_D tr' = tr_D tr /\ tr_N tr' = tr_N tr /\ tr_segments tr' = segs' /\
    tr_max_time tr' = fold_left (fun m s => nadd m (seg_time s)) segs' n0.
Proof.
  intros (Hne & Hu) F. assert (U := restored_uniform _ _ _ _ F Hu). unfold traj_setSegments.
  destruct segs' as [|s' segs']; [inversion F as [Q|]; congruence|]. inversion U as [|? ? (E1 & E2) U']; subst.
  rewrite addSegments_ok. 2:{ cbn [tr_D tr_N]. rewrite E1, E2. exact U. }
  eexists. split; [reflexivity|]. cbn [tr_D tr_N tr_segments tr_max_time app]. auto.
Qed.

(** Nodes, for every arithmetic. *)
Theorem C46_roundtrip {T} {ops : NumOps T} (cd : codec T) (tr tr0 : trajectory T) :
  traj_uniform tr -> (1 <= tr_D tr)%nat -> (Z.of_nat (tr_D tr) < 2 ^ 31)%Z -> (Z.of_nat (tr_N tr) < 2 ^ 31)%Z ->
  texts_ok cd tr -> (forall s, In s (tr_segments tr) -> exists ns, seg_getTimeNSec s = Ok ns) ->
  exists y tr', trajectoryToYaml cd tr = Ok y /\ trajectoryFromYaml cd (Some y) tr0 = Ok (true, tr') /\
    tr_D tr' = tr_D tr /\ tr_N tr' = tr_N tr /\ Forall2 restored (tr_segments tr) (tr_segments tr') /\
    tr_max_time tr' = fold_left (fun m s => nadd m (seg_time s)) (tr_segments tr') n0.
Proof.
  intros Hu HD1 HD HN Hc Ht. destruct (times_list _ Ht) as (nss & F2).
  destruct (segments_back cd (tr_segments tr) nss (texts_codec cd tr Hc)) as (ys & E & L & B); [|exact F2|].
  { apply List.Forall_forall. intros s Hs. destruct (proj2 Hu s Hs) as (-> & ->). auto. }
  assert (R := stored_restored _ _ F2). set (segs' := map _ (combine _ _)) in *.
  destruct (set_restored tr tr0 segs' Hu R) as (tr' & E' & D' & N' & S' & M').
  unfold trajectoryToYaml, segmentsToYaml. rewrite E. cbn [obind]. destruct ys as [|y ys].
  { exfalso. apply (proj1 Hu). apply length_zero_iff_nil. symmetry. exact L. }
  eexists _, tr'. split; [reflexivity|]. unfold trajectoryFromYaml. cbn [y_get assoc String.eqb Ascii.eqb Bool.eqb obind]. rewrite B. cbn [obind]. rewrite E'. cbn [obind].
  split; [reflexivity|]. rewrite S'. auto.
Qed.
Print Assumptions C46_roundtrip.

(** Real numbers: the times are rounded down by less than a nanosecond. *)
Theorem C46_times (cd : codec R) (tr tr0 : trajectory R) :
  traj_uniform tr -> (1 <= tr_D tr)%nat -> (Z.of_nat (tr_D tr) < 2 ^ 31)%Z -> (Z.of_nat (tr_N tr) < 2 ^ 31)%Z ->
  texts_ok cd tr -> (forall s, In s (tr_segments tr) -> (0 <= seg_time s)%R /\ (10 ^ 9 * seg_time s < IZR (2 ^ 64))%R) ->
  exists y tr', trajectoryToYaml cd tr = Ok y /\ trajectoryFromYaml cd (Some y) tr0 = Ok (true, tr') /\
    tr_D tr' = tr_D tr /\ tr_N tr' = tr_N tr /\
    Forall2 (fun s s' => seg_N s' = seg_N s /\ seg_polys s' = seg_polys s /\ (seg_time s - / 10 ^ 9 < seg_time s' <= seg_time s)%R)
      (tr_segments tr) (tr_segments tr').
Proof.
  intros Hu HD1 HD HN Hc Ht.
  destruct (C46_roundtrip cd tr tr0 Hu HD1 HD HN Hc) as (y & tr' & E1 & E2 & E3 & E4 & F & _).
  { intros s Hs. destruct (Ht s Hs) as (T0 & T1). destruct (nsec_R s T0 T1) as (ns & E & _). eauto. }
  exists y, tr'. do 4 (split; [assumption|]). clear -F Ht. induction F as [|s s' segs segs' (A & B & ns & C & D) F IH]; constructor.
  - split; [exact A|]. split; [exact B|]. destruct (Ht s (or_introl eq_refl)) as (T0 & T1). destruct (nsec_R s T0 T1) as (ns' & E & Q).
    rewrite C in E. apply Ok_inj in E. subst ns'. rewrite D. exact Q.
  - apply IH. intros; apply Ht; right; assumption.
Qed.
Print Assumptions C46_times.

(** Files: also for trajectories without dimensions; every polynomial must have
    the trajectory's number of coefficients. *)
Theorem C46_file_roundtrip {T} {ops : NumOps T} (cd : codec T) dump load (fs : files) (filename : string) (tr tr0 : trajectory T) :
  traj_uniform tr -> (Z.of_nat (tr_D tr) < 2 ^ 31)%Z -> (Z.of_nat (tr_N tr) < 2 ^ 31)%Z ->
  (forall s p, In s (tr_segments tr) -> In p (seg_polys s) -> length p = tr_N tr) ->
  texts_ok cd tr ->
  (forall l, omap (segment_document cd) (tr_segments tr) = Ok l -> let y := YMap [("segments", YSeq l)]%string in load (dump y) = Ok y) -> (forall s, In s (tr_segments tr) -> exists ns, seg_getTimeNSec s = Ok ns) ->
  exists fs' tr', trajectoryToFile cd dump true fs filename tr = Ok (true, fs') /\
    trajectoryFromFile cd load fs' filename tr0 = Ok (true, tr') /\
    tr_D tr' = tr_D tr /\ tr_N tr' = tr_N tr /\ Forall2 restored (tr_segments tr) (tr_segments tr') /\
    (forall f, f <> filename -> fs' f = fs f).
Proof.
  intros Hu HD HN Hp Hc Hl Ht. destruct (times_list _ Ht) as (nss & F2).
  destruct (file_segments_back cd (tr_segments tr) nss (texts_codec cd tr Hc)) as (ys & E & L & B); [|exact F2|].
  { apply List.Forall_forall. intros s Hs. destruct (proj2 Hu s Hs) as (E1 & E2). rewrite E1, E2. split; [|auto].
    apply List.Forall_forall. intros p Hpp. exact (Hp s p Hs Hpp). }
  assert (R := stored_restored _ _ F2). set (segs' := map _ (combine _ _)) in *.
  destruct (set_restored tr tr0 segs' Hu R) as (tr' & E' & D' & N' & S' & M').
  unfold trajectoryToFile, segmentsToFile. rewrite E. cbn [obind]. eexists _, tr'. split; [reflexivity|].
  split; [|rewrite S'; split; [exact D'|]; split; [exact N'|]; split; [exact R|]].
  - unfold trajectoryFromFile, segmentsFromFile. rewrite String.eqb_refl, (Hl ys E). cbn [obind y_get_top assoc String.eqb Ascii.eqb Bool.eqb y_defined y_size]. rewrite B.
    cbn [obind fst snd]. rewrite E'. reflexivity.
  - intros f Hf. cbn beta. rewrite (proj2 (String.eqb_neq _ _) Hf). reflexivity.
Qed.
Print Assumptions C46_file_roundtrip.

(** An integer text format, and coefficients that are integers. *)
Definition z_text (z : Z) : string := NilZero.string_of_int (Z.to_int z).
Definition text_z (s : string) : option Z := option_map Z.of_int (NilZero.int_of_string s).
Lemma text_z_text z : text_z (z_text z) = Some z.
Proof.
  unfold text_z, z_text. rewrite NilZero.isi.
  - cbn [option_map]. rewrite DecimalZ.of_to. reflexivity.
  - destruct z; cbn; try discriminate. intros H. assert (Q := DecimalPos.Unsigned.to_uint_nonnil p). congruence.
  - destruct z; cbn; try discriminate. intros H. assert (Q := DecimalPos.Unsigned.to_uint_nonnil p). congruence.
Qed.
Definition int_codec : codec R := mkCodec R (fun x => z_text (Int_part x)) (fun s => option_map IZR (text_z s)) z_text text_z text_z.
Lemma Int_part_IZR z : Int_part (IZR z) = z.
Proof.
  destruct (Int_part_spec (IZR z)) as (A & B). apply le_IZR in A. rewrite <- plus_IZR in B. apply lt_IZR in B. lia.
Qed.
Definition io_tr : trajectory R := mkTraj 2 2 [mkSegment 2 [[1; 2]; [3; 4]]%R 5; mkSegment 2 [[0; 1]; [7; 8]]%R 1]%R 6.
Example C46_example : traj_uniform io_tr /\ (1 <= tr_D io_tr)%nat /\ texts_ok int_codec io_tr /\
  (forall s, In s (tr_segments io_tr) -> (0 <= seg_time s)%R /\ (10 ^ 9 * seg_time s < IZR (2 ^ 64))%R) /\
  (forall s p, In s (tr_segments io_tr) -> In p (seg_polys s) -> length p = tr_N io_tr) /\
  (exists (dump : yaml -> string) load, forall l, omap (segment_document int_codec) (tr_segments io_tr) = Ok l ->
     let y := YMap [("segments", YSeq l)]%string in load (dump y) = Ok y).
Proof.
  split; [split; [discriminate|]; intros s [<-|[<-|[]]]; split; reflexivity|]. split; [cbn; lia|]. split; [|split; [|split]].
  - split; [intros z _; apply text_z_text|]. split; [intros z _; apply text_z_text|].
    assert (G : forall z, parseD int_codec (fmtD int_codec (IZR z)) = Some (IZR z)) by (intros z; cbn; rewrite Int_part_IZR, text_z_text; reflexivity).
    intros s p x [<-|[<-|[]]] [<-|[<-|[]]] [<-|[<-|[]]]; apply G.
  - intros s [<-|[<-|[]]]; cbn [seg_time]; (split; [lra|]); apply Rlt_le_trans with (IZR 10000000000); [lra|apply IZR_le; discriminate|lra|apply IZR_le; discriminate].
  - intros s p [<-|[<-|[]]] [<-|[<-|[]]]; reflexivity.
  - destruct (omap (segment_document int_codec) (tr_segments io_tr)) as [l0| | |].
    + exists (fun _ => ""%string), (fun _ => Ok (YMap [("segments", YSeq l0)]%string)). intros l E. injection E as <-. reflexivity.
    + exists (fun _ => ""%string), (fun _ => Throw). discriminate.
    + exists (fun _ => ""%string), (fun _ => Throw). discriminate.
    + exists (fun _ => ""%string), (fun _ => Throw). discriminate.
Qed.

(** A trajectory without dimensions, an empty one, and one with a negative time
    are not restored. *)
Theorem C46_needs_dimension :
  (exists tr y : _, trajectoryToYaml int_codec tr = Ok y /\ traj_uniform tr /\ trajectoryFromYaml int_codec (Some y) traj_new = Ok (false, traj_new)) /\
  (exists y, trajectoryToYaml int_codec traj_new = Ok y /\ trajectoryFromYaml int_codec (Some y) traj_new = Throw).
Proof.
  split.
  - destruct (nsec_R (mkSegment 2 [] 1%R)) as (ns & E & _); cbn [seg_time]; [lra|apply Rlt_le_trans with (IZR 10000000000); [lra|apply IZR_le; discriminate]|].
    exists (mkTraj 0 2 [mkSegment 2 [] 1]%R 1%R). unfold trajectoryToYaml, segmentsToYaml. cbn [tr_segments omap]. unfold segmentToYaml. rewrite E. cbn [obind app seg_polys].
    eexists. split; [reflexivity|]. split; [split; [discriminate|]; intros s [<-|[]]; split; reflexivity|]. reflexivity.
  - eexists. split; reflexivity.
Qed.
Print Assumptions C46_needs_dimension.
Theorem C46_needs_nonnegative_time : exists tr : trajectory R, traj_uniform tr /\ trajectoryToYaml int_codec tr = UB.
Proof.
  exists (mkTraj 1 1 [mkSegment 1 [[1]] (-1)]%R (-1)%R). split; [split; [discriminate|]; intros s [<-|[]]; split; reflexivity|].
  unfold trajectoryToYaml, segmentsToYaml, segmentToYaml, seg_getTimeNSec, to_uint64. cbn [tr_segments omap seg_time ntoZ R_ops nmul kNumNSecPerSec nofZ].
  unfold Rtrunc. change (10 ^ 9)%Z with 1000000000%Z. destruct (Rlt_dec (1000000000 * -1) 0) as [|n]; [|exfalso; apply n; lra].
  replace (- (1000000000 * -1))%R with (IZR 1000000000) by lra. rewrite Int_part_IZR. reflexivity.
Qed.
Print Assumptions C46_needs_nonnegative_time.

(** ** C47 *)
(** Whatever the document, the segments that segmentsFromFile hands out have
    exactly the coefficient counts they declare, also when it reports failure. *)
Theorem C47_file_partial {T} {ops : NumOps T} (cd : codec T) load (fs : files) (filename : string) b segs :
  segmentsFromFile cd load fs filename [] = Ok (b, segs) ->
  List.Forall (fun s => List.Forall (fun p => length p = seg_N s) (seg_polys s)) segs /\
  (fs filename = None -> b = false).
Proof.
  unfold segmentsFromFile. destruct (fs filename) as [text|].
  - intros H. split; [|discriminate]. destruct (load text) as [y| | |]; cbn [obind] in H; try discriminate.
    destruct (y_get_top y "segments") as [n| | |]; cbn [obind] in H; try discriminate. destruct (y_defined n).
    + destruct (y_size n) as [k| | |]; cbn [obind] in H; try discriminate. apply (file_segments_wf cd n k 0 b segs H).
    + apply Ok_inj in H. injection H as <- <-. constructor.
  - intros H. apply Ok_inj in H. injection H as <- <-. split; [constructor|reflexivity].
Qed.
Print Assumptions C47_file_partial.

(** A segment map in which one of the four keys is missing, or whose coefficients
    are not a list, is reported by segmentFromYaml. *)
Theorem C47_missing_key {T} {ops : NumOps T} (cd : codec T) (l : list (string * yaml)) :
  (exists k, In k ["N"; "D"; "time"; "coefficients"]%string /\ assoc l k = None) \/
  (exists y, assoc l "coefficients" = Some y /\ forall e, y <> YSeq e) ->
  segmentFromYaml cd (Some (YMap l)) = Ok None.
Proof.
  intros H. unfold segmentFromYaml. cbn [y_get obind].
  destruct (assoc l "N") eqn:E1; cbn [y_defined negb]; [|reflexivity].
  destruct (assoc l "D") eqn:E2; cbn [y_defined negb]; [|reflexivity].
  destruct (assoc l "time") eqn:E3; cbn [y_defined negb]; [|reflexivity].
  destruct (assoc l "coefficients") as [yc|] eqn:E4; cbn [y_defined negb]; [|reflexivity].
  destruct H as [(k & Hk & E)|(yy & E & Hy)].
  - cbn [In] in Hk. destruct Hk as [<-|[<-|[<-|[<-|[]]]]]; congruence.
  - injection E as ->. destruct yy; cbn [y_isSeq obind negb]; try reflexivity. exfalso. eapply Hy. reflexivity.
Qed.
Print Assumptions C47_missing_key.
(** The same for files. *)
Theorem C47_file_missing_key {T} {ops : NumOps T} (cd : codec T) (l : list (string * yaml)) :
  (exists k, In k ["N"; "D"; "time"; "coefficients"]%string /\ assoc l k = None) -> file_segment cd (Some (YMap l)) = Ok None.
Proof.
  intros H. unfold file_segment. cbn [y_get obind].
  destruct (assoc l "N") eqn:E1; cbn [y_defined negb]; [|reflexivity].
  destruct (assoc l "D") eqn:E2; cbn [y_defined negb]; [|reflexivity].
  destruct (assoc l "time") eqn:E3; cbn [y_defined negb]; [|reflexivity].
  destruct (assoc l "coefficients") as [yc|] eqn:E4; cbn [y_defined negb]; [|reflexivity].
  destruct H as (k & Hk & E). cbn [In] in Hk. destruct Hk as [<-|[<-|[<-|[<-|[]]]]]; congruence.
Qed.
Print Assumptions C47_file_missing_key.
Example C47_example : assoc [("N", YScalar "2"); ("D", YScalar "1"); ("coefficients", YSeq [])]%string "time" = None /\
  exists segs : list (segment R), segmentsFromFile int_codec (fun _ => Ok (YMap [("segments", YSeq [YMap [("N", YScalar "2"); ("D", YScalar "1"); ("time", YScalar "5"); ("coefficients", YSeq [YSeq [YScalar "1"; YScalar "4"]])]])]))%string
    (fun _ => Some ""%string) "f" [] = Ok (true, segs) /\ length segs = 1%nat.
Proof. split; [reflexivity|]. eexists. split; reflexivity. Qed.

(** trajectoryFromFile aborts on every file that cannot be read, and on every
    file in which no segment can be read. *)
Theorem C47_unreadable_file_aborts {T} {ops : NumOps T} (cd : codec T) load (fs : files) (filename : string) (tr : trajectory T) b :
  segmentsFromFile cd load fs filename [] = Ok (b, []) -> trajectoryFromFile cd load fs filename tr = Abort.
Proof. intros H. unfold trajectoryFromFile. rewrite H. reflexivity. Qed.
Print Assumptions C47_unreadable_file_aborts.
Theorem C47_missing_file_refuted : exists (fs : files) (filename : string),
  trajectoryFromFile int_codec (fun _ => Throw) fs filename (@traj_new R _) = Abort.
Proof. exists (fun _ => None), "absent.yaml"%string. reflexivity. Qed.
Print Assumptions C47_missing_file_refuted.
(** "segments: 5" counts as success without segments. *)
Theorem C47_scalar_segments_refuted : exists (load : string -> outcome yaml) (fs : files),
  segmentsFromFile int_codec load fs "f" ([] : list (segment R)) = Ok (true, []) /\
  trajectoryFromFile int_codec load fs "f" (@traj_new R _) = Abort.
Proof. exists (fun _ => Ok (YMap [("segments", YScalar "5")]))%string, (fun _ => Some ""%string). split; reflexivity. Qed.
Print Assumptions C47_scalar_segments_refuted.
(** A text that is not YAML throws. *)
Theorem C47_unparsable_refuted : exists (load : string -> outcome yaml) (fs : files),
  segmentsFromFile int_codec load fs "f" ([] : list (segment R)) = Throw.
Proof. exists (fun _ => Throw), (fun _ => Some "{"%string). reflexivity. Qed.
Print Assumptions C47_unparsable_refuted.
(** Nodes: no "segments" key throws; too few coefficient lists throw; wrong
    numbers of coefficients are accepted; a segment of another size aborts. *)
Definition yseg (N D : string) (cs : list (list string)) : yaml :=
  YMap [("N", YScalar N); ("D", YScalar D); ("time", YScalar "5"); ("coefficients", YSeq (map (fun c => YSeq (map YScalar c)) cs))]%string.
Theorem C47_nodes_refuted :
  (exists y, trajectoryFromYaml int_codec (Some y) (@traj_new R _) = Throw /\ y = YMap []) /\
  (exists y, segmentFromYaml int_codec (Some y) = (Throw : outcome (option (segment R))) /\ y = yseg "2" "2" [["1"; "2"]]%string) /\
  (exists y (s : segment R), segmentFromYaml int_codec (Some y) = Ok (Some s) /\ exists p, In p (seg_polys s) /\ length p <> seg_N s) /\
  (exists y, trajectoryFromYaml int_codec (Some y) (@traj_new R _) = Abort /\
     y = YMap [("segments", YSeq [yseg "2" "1" [["1"; "2"]]; yseg "3" "1" [["1"; "2"; "3"]]])]%string) /\
  (exists y, segmentFromYaml int_codec (Some y) = (UB : outcome (option (segment R))) /\ y = yseg "-1" "1" [["1"]]%string).
Proof.
  split; [|split; [|split; [|split]]].
  - exists (YMap []). split; reflexivity.
  - eexists. split; [|reflexivity]. vm_compute. reflexivity.
  - exists (yseg "5" "1" [["1"; "2"]]%string). eexists. split; [reflexivity|]. cbn. eexists. split; [left; reflexivity|]. discriminate.
  - eexists. split; [|reflexivity]. vm_compute. reflexivity.
  - eexists. split; [|reflexivity]. vm_compute. reflexivity.
Qed.
Print Assumptions C47_nodes_refuted.
