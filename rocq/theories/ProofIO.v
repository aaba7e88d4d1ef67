(** Lemmas on YAML input and output. *)
From Coq Require Import ZArith Reals List Bool Lia Lra String.
From Verif Require Import Num RSum ModelPolynomial ModelSegment ModelTrajectory ModelYaml ModelIO ProofSegment ProofSegment2.
Import ListNotations.
Notation length := List.length.

Section IO.
  Context {T : Type} {ops : NumOps T}.
  Variable cd : codec T.

  (** Texts of numbers read back. *)
  Definition codec_ok (cs : list T) : Prop :=
    (forall z, (0 <= z < 2 ^ 31)%Z -> parseI cd (fmtZ cd z) = Some z) /\
    (forall z, (0 <= z < 2 ^ 64)%Z -> parseU cd (fmtZ cd z) = Some z) /\
    (forall x, In x cs -> parseD cd (fmtD cd x) = Some x).

  Lemma getTimeNSec_range (s : segment T) ns : seg_getTimeNSec s = Ok ns -> (0 <= ns < 2 ^ 64)%Z.
  Proof.
    unfold seg_getTimeNSec, to_uint64. destruct (ntoZ _) as [z|]; [|discriminate].
    destruct (Z.leb_spec 0 z); destruct (Z.ltb_spec z (2 ^ 64)); cbn [andb]; try discriminate. intros E. apply Ok_inj in E. lia.
  Qed.

  Lemma coef_back (c : list T) : (forall x, In x c -> parseD cd (fmtD cd x) = Some x) ->
    coefficientsFromYaml cd (Some (coefficientsToYaml cd c)) = Ok (Some c).
  Proof.
    intros H. unfold coefficientsFromYaml, coefficientsToYaml. cbn [y_isSeq obind y_size]. rewrite map_length.
    assert (G : forall pre l, (forall x, In x l -> parseD cd (fmtD cd x) = Some x) ->
      omap (fun i => e <-- y_idx cd (Some (YSeq (map (fun x => YScalar (fmtD cd x)) (pre ++ l)))) i ;; y_asDouble cd e) (seq (length pre) (length l)) = Ok l).
    { intros pre l. revert pre. induction l as [|x l IH]; intros pre Hl; [reflexivity|]. cbn [length seq omap].
      cbn [y_idx obind]. rewrite nth_error_map, nth_error_app2, Nat.sub_diag by lia. cbn [nth_error option_map y_asDouble y_as].
      unfold y_asDouble, y_as. rewrite Hl by (left; reflexivity). cbn [obind].
      specialize (IH (pre ++ [x]) ltac:(intros; apply Hl; right; assumption)). rewrite app_length, Nat.add_comm in IH. cbn [length Nat.add] in IH.
      rewrite <- app_assoc in IH. cbn [app y_idx obind] in IH. unfold y_asDouble, y_as in IH. rewrite IH. reflexivity. }
    specialize (G [] c H). cbn [app length] in G. rewrite G. reflexivity.
  Qed.

  Lemma polys_back (ps : list (list T)) : (forall p x, In p ps -> In x p -> parseD cd (fmtD cd x) = Some x) ->
    read_polys cd (Some (YSeq (map (coefficientsToYaml cd) ps))) 0 (length ps) = Ok (Some ps).
  Proof.
    intros H. assert (G : forall l pre, (forall p x, In p l -> In x p -> parseD cd (fmtD cd x) = Some x) ->
      read_polys cd (Some (YSeq (map (coefficientsToYaml cd) (pre ++ l)))) (length pre) (length l) = Ok (Some l)).
    { induction l as [|p l IH]; intros pre Hl; [reflexivity|]. cbn [length read_polys y_idx obind].
      rewrite nth_error_map, nth_error_app2, Nat.sub_diag by lia. cbn [nth_error option_map].
      rewrite coef_back by (intros x Hx; apply (Hl p x); [left; reflexivity|exact Hx]). cbn [obind].
      specialize (IH (pre ++ [p]) ltac:(intros q x Hq; apply (Hl q x); right; exact Hq)). rewrite app_length, Nat.add_comm, <- app_assoc in IH. cbn [length Nat.add app] in IH.
      rewrite IH. reflexivity. }
    exact (G ps [] H).
  Qed.

  (** The segment that is read for a segment written. *)
  Definition stored (s : segment T) (ns : Z) : segment T := mkSegment (seg_N s) (seg_polys s) (nsec_time ns).

  Lemma segment_back (s : segment T) ns : codec_ok (List.concat (seg_polys s)) ->
    (1 <= seg_D s)%nat -> (Z.of_nat (seg_D s) < 2 ^ 31)%Z -> (Z.of_nat (seg_N s) < 2 ^ 31)%Z -> seg_getTimeNSec s = Ok ns ->
    exists y, segmentToYaml cd s = Ok y /\ segmentFromYaml cd (Some y) = Ok (Some (stored s ns)).
  Proof.
    intros (HI & HU & Hc) Hd HD HN Ht. unfold segmentToYaml. rewrite Ht. cbn [obind].
    destruct (seg_polys s) as [|p ps] eqn:Ep; [unfold seg_D in Hd; rewrite Ep in Hd; cbn in Hd; lia|].
    eexists. split; [reflexivity|]. unfold segmentFromYaml. cbn [app y_get assoc String.eqb Ascii.eqb Bool.eqb obind y_defined negb y_isSeq].
    unfold y_asInt, y_asU64, y_as. rewrite !HI by lia. cbn [obind]. unfold seg_make.
    rewrite (proj2 (Z.ltb_ge _ _)) by lia. rewrite (proj2 (Z.ltb_ge _ _)) by lia. cbn [obind]. rewrite !Nat2Z.id.
    unfold seg_new at 1. unfold seg_D at 1. cbn [seg_polys]. rewrite repeat_length.
    replace (seg_D s) with (length (p :: ps)) by (unfold seg_D; rewrite Ep; reflexivity).
    rewrite (polys_back (p :: ps)).
    2:{ intros q x Hq Hx. apply Hc. apply in_concat. exists q. split; [exact Hq|exact Hx]. }
    cbn [obind]. rewrite HU by (apply (getTimeNSec_range s), Ht). cbn [obind]. unfold stored. rewrite Ep. reflexivity.
  Qed.

  Lemma codec_ok_incl cs cs' : incl cs' cs -> codec_ok cs -> codec_ok cs'.
  Proof. intros H (A & B & C). split; [exact A|]. split; [exact B|]. intros x Hx. apply C, H, Hx. Qed.

  Lemma segments_back (segs : list (segment T)) nss : codec_ok (List.concat (List.concat (map seg_polys segs))) ->
    List.Forall (fun s => (1 <= seg_D s)%nat /\ (Z.of_nat (seg_D s) < 2 ^ 31)%Z /\ (Z.of_nat (seg_N s) < 2 ^ 31)%Z) segs ->
    Forall2 (fun s ns => seg_getTimeNSec s = Ok ns) segs nss ->
    exists ys, omap (segmentToYaml cd) segs = Ok ys /\ length ys = length segs /\
      segmentsFromYaml cd (Some (YSeq ys)) = Ok (Some (map (fun p => stored (fst p) (snd p)) (combine segs nss))).
  Proof.
    intros Hc Hf Ht.
    assert (G : exists ys, omap (segmentToYaml cd) segs = Ok ys /\ length ys = length segs /\
      forall pre, read_segments cd (Some (YSeq (pre ++ ys))) (length pre) (length ys) = Ok (Some (map (fun p => stored (fst p) (snd p)) (combine segs nss)))).
    { induction Ht as [|s ns segs nss H1 H2 IH].
      - exists []. split; [reflexivity|]. split; [reflexivity|]. reflexivity.
      - inversion Hf as [|? ? (F1 & F2 & F3) Hf']; subst. cbn [map List.concat] in Hc. rewrite concat_app in Hc.
        destruct IH as (ys & E & L & G); [eapply codec_ok_incl; [|exact Hc]; intros x Hx; apply in_or_app; right; exact Hx|exact Hf'|].
        destruct (segment_back s ns) as (y & Ey & Eb); [eapply codec_ok_incl; [|exact Hc]; intros x Hx; apply in_or_app; left; exact Hx|assumption..|].
        exists (y :: ys). split; [cbn [omap]; rewrite Ey; cbn [obind]; rewrite E; reflexivity|]. split; [cbn [length]; lia|].
        intros pre. cbn [length read_segments y_idx obind]. rewrite nth_error_app2, Nat.sub_diag by lia. cbn [nth_error].
        rewrite Eb. cbn [obind]. specialize (G (pre ++ [y])). rewrite app_length, Nat.add_comm, <- app_assoc in G. cbn [length Nat.add app] in G. rewrite G. reflexivity. }
    destruct G as (ys & E & L & G). exists ys. split; [exact E|]. split; [exact L|]. unfold segmentsFromYaml. cbn [y_isSeq obind negb y_size]. exact (G []).
  Qed.

  Lemma addSegments_ok (tr : trajectory T) segs : List.Forall (fun s => seg_D s = tr_D tr /\ seg_N s = tr_N tr) segs ->
    traj_addSegments tr segs = Ok (mkTraj (tr_D tr) (tr_N tr) (tr_segments tr ++ segs) (fold_left (fun m s => nadd m (seg_time s)) segs (tr_max_time tr))).
  Proof.
    intros H. unfold traj_addSegments.
    assert (G : forall m, ofold (fun mt s => if negb (Nat.eqb (seg_D s) (tr_D tr)) then Abort else if negb (Nat.eqb (seg_N s) (tr_N tr)) then Abort else Ok (nadd mt (seg_time s))) segs m
      = Ok (fold_left (fun m s => nadd m (seg_time s)) segs m)).
    { induction H as [|s segs (E1 & E2) H IH]; intros m; [reflexivity|]. cbn [ofold fold_left]. rewrite E1, E2, !Nat.eqb_refl. cbn [negb obind]. apply IH. }
    rewrite G. reflexivity.
  Qed.

  (** Document of a file. *)
  Lemma row_back (p : list T) N : length p = N ->
    omap (fun j => c <-- oget p j ;; Ok (YScalar (fmtD cd c))) (seq 0 N) = Ok (map (fun x => YScalar (fmtD cd x)) p).
  Proof.
    intros <-. assert (G : forall l pre, omap (fun j => c <-- oget (pre ++ l) j ;; Ok (YScalar (fmtD cd c))) (seq (length pre) (length l)) = Ok (map (fun x => YScalar (fmtD cd x)) l)).
    { induction l as [|x l IH]; intros pre; [reflexivity|]. cbn [length seq omap map]. unfold oget at 1. rewrite nth_error_app2, Nat.sub_diag by lia. cbn [nth_error obind].
      specialize (IH (pre ++ [x])). rewrite app_length, Nat.add_comm, <- app_assoc in IH. cbn [length Nat.add app] in IH. rewrite IH. reflexivity. }
    exact (G p []).
  Qed.
  Lemma rows_back (ps : list (list T)) N : List.Forall (fun p => length p = N) ps ->
    omap (fun p => cs <-- omap (fun j => c <-- oget p j ;; Ok (YScalar (fmtD cd c))) (seq 0 N) ;; Ok (YSeq cs)) ps = Ok (map (coefficientsToYaml cd) ps).
  Proof.
    induction 1 as [|p ps H Hf IH]; [reflexivity|]. cbn [omap map]. rewrite (row_back p N H). cbn [obind]. rewrite IH. reflexivity.
  Qed.
  Lemma asDoubles_back (c : list T) : (forall x, In x c -> parseD cd (fmtD cd x) = Some x) ->
    omap (fun i => e <-- y_idx cd (Some (coefficientsToYaml cd c)) i ;; y_asDouble cd e) (seq 0 (length c)) = Ok c.
  Proof.
    intros H. assert (Q := coef_back c H). unfold coefficientsFromYaml, coefficientsToYaml in Q. cbn [y_isSeq obind y_size] in Q. rewrite map_length in Q.
    unfold coefficientsToYaml. destruct (omap _ (seq 0 (length c))) as [r| | |]; cbn [obind] in Q; try discriminate. apply Ok_inj in Q. injection Q as ->. reflexivity.
  Qed.
  Lemma file_polys_back (ps : list (list T)) N : List.Forall (fun p => length p = N) ps -> (forall p x, In p ps -> In x p -> parseD cd (fmtD cd x) = Some x) ->
    file_polys cd (Some (YSeq (map (coefficientsToYaml cd) ps))) (Z.of_nat N) 0 (length ps) = Ok (Some ps).
  Proof.
    intros Hf H. assert (G : forall l pre, List.Forall (fun p => length p = N) l -> (forall p x, In p l -> In x p -> parseD cd (fmtD cd x) = Some x) ->
      file_polys cd (Some (YSeq (map (coefficientsToYaml cd) (pre ++ l)))) (Z.of_nat N) (length pre) (length l) = Ok (Some l)).
    { induction l as [|p l IH]; intros pre Hn Hl; [reflexivity|]. cbn [length file_polys y_idx obind]. inversion Hn as [|? ? Hp Hn']; subst.
      rewrite nth_error_map, nth_error_app2, Nat.sub_diag by lia. cbn [nth_error option_map y_size obind coefficientsToYaml].
      rewrite map_length, Z.eqb_refl. cbn [negb]. rewrite Nat2Z.id.
      fold (coefficientsToYaml cd p). assert (Q := asDoubles_back p ltac:(intros x Hx; apply (Hl p x); [left; reflexivity|exact Hx])).
      rewrite Q. cbn [obind].
      specialize (IH (pre ++ [p]) Hn' ltac:(intros q x Hq; apply (Hl q x); right; exact Hq)). rewrite app_length, Nat.add_comm, <- app_assoc in IH. cbn [length Nat.add app] in IH.
      rewrite IH. reflexivity. }
    exact (G ps [] Hf H).
  Qed.
  Lemma file_segment_back (s : segment T) ns : codec_ok (List.concat (seg_polys s)) -> List.Forall (fun p => length p = seg_N s) (seg_polys s) ->
    (Z.of_nat (seg_D s) < 2 ^ 31)%Z -> (Z.of_nat (seg_N s) < 2 ^ 31)%Z -> seg_getTimeNSec s = Ok ns ->
    exists y, segment_document cd s = Ok y /\ file_segment cd (Some y) = Ok (Some (stored s ns)).
  Proof.
    intros (HI & HU & Hc) Hf HD HN Ht. unfold segment_document. rewrite Ht. cbn [obind]. rewrite (rows_back _ _ Hf). cbn [obind].
    eexists. split; [reflexivity|]. unfold file_segment. cbn [app y_get assoc String.eqb Ascii.eqb Bool.eqb obind y_defined negb y_isSeq].
    unfold y_asInt, y_asU64, y_as. rewrite !HI by lia. cbn [obind]. unfold seg_make.
    rewrite (proj2 (Z.ltb_ge _ _)) by lia. rewrite (proj2 (Z.ltb_ge _ _)) by lia. cbn [obind]. rewrite !Nat2Z.id.
    rewrite HU by (apply (getTimeNSec_range s), Ht). cbn [obind y_size]. rewrite map_length. fold (seg_D s). rewrite Z.eqb_refl. cbn [negb].
    unfold seg_D at 1. rewrite file_polys_back; [|exact Hf|]. 2:{ intros q x Hq Hx. apply Hc. apply in_concat. exists q. split; [exact Hq|exact Hx]. }
    reflexivity.
  Qed.
  Lemma file_segments_back (segs : list (segment T)) nss : codec_ok (List.concat (List.concat (map seg_polys segs))) ->
    List.Forall (fun s => List.Forall (fun p => length p = seg_N s) (seg_polys s) /\ (Z.of_nat (seg_D s) < 2 ^ 31)%Z /\ (Z.of_nat (seg_N s) < 2 ^ 31)%Z) segs ->
    Forall2 (fun s ns => seg_getTimeNSec s = Ok ns) segs nss ->
    exists ys, omap (segment_document cd) segs = Ok ys /\ length ys = length segs /\
      file_segments cd (Some (YSeq ys)) 0 (length ys) = Ok (true, map (fun p => stored (fst p) (snd p)) (combine segs nss)).
  Proof.
    intros Hc Hf Ht.
    assert (G : exists ys, omap (segment_document cd) segs = Ok ys /\ length ys = length segs /\
      forall pre, file_segments cd (Some (YSeq (pre ++ ys))) (length pre) (length ys) = Ok (true, map (fun p => stored (fst p) (snd p)) (combine segs nss))).
    { induction Ht as [|s ns segs nss H1 H2 IH].
      - exists []. split; [reflexivity|]. split; [reflexivity|]. reflexivity.
      - inversion Hf as [|? ? (F1 & F2 & F3) Hf']; subst. cbn [map List.concat] in Hc. rewrite concat_app in Hc.
        destruct IH as (ys & E & L & G); [eapply codec_ok_incl; [|exact Hc]; intros x Hx; apply in_or_app; right; exact Hx|exact Hf'|].
        destruct (file_segment_back s ns) as (y & Ey & Eb); [eapply codec_ok_incl; [|exact Hc]; intros x Hx; apply in_or_app; left; exact Hx|assumption..|].
        exists (y :: ys). split; [cbn [omap]; rewrite Ey; cbn [obind]; rewrite E; reflexivity|]. split; [cbn [length]; lia|].
        intros pre. cbn [length file_segments y_idx obind]. rewrite nth_error_app2, Nat.sub_diag by lia. cbn [nth_error].
        rewrite Eb. cbn [obind]. specialize (G (pre ++ [y])). rewrite app_length, Nat.add_comm, <- app_assoc in G. cbn [length Nat.add app] in G. rewrite G. reflexivity. }
    destruct G as (ys & E & L & G). exists ys. split; [exact E|]. split; [exact L|]. exact (G []).
  Qed.

  (** What is read from a file is well formed. *)
  Lemma file_polys_wf nc N : forall k j ps, (0 <= N)%Z -> file_polys cd nc N j k = Ok (Some ps) -> length ps = k /\ List.Forall (fun p => length p = Z.to_nat N) ps.
  Proof.
    induction k as [|k IH]; intros j ps HN H; cbn [file_polys] in H.
    - apply Ok_inj in H. injection H as <-. split; [reflexivity|constructor].
    - destruct (y_idx cd nc j) as [e| | |]; cbn [obind] in H; try discriminate. destruct (y_size e) as [sz| | |]; cbn [obind] in H; try discriminate.
      destruct (Z.eqb_spec (Z.of_nat sz) N); cbn [negb] in H; try discriminate.
      destruct (omap _ (seq 0 (Z.to_nat N))) as [c| | |] eqn:E; cbn [obind] in H; try discriminate. apply omap_length in E. rewrite seq_length in E.
      destruct (file_polys cd nc N (S j) k) as [[rest|]| | |] eqn:Er; cbn [obind option_map] in H; try discriminate. apply Ok_inj in H. injection H as <-.
      destruct (IH (S j) rest HN Er) as (L & F). split; [cbn [length]; lia|]. constructor; assumption.
  Qed.
  Lemma file_segment_wf n s : file_segment cd n = Ok (Some s) ->
    List.Forall (fun p => length p = seg_N s) (seg_polys s).
  Proof.
    unfold file_segment. intros H.
    destruct (y_get n "N") as [nN| | |]; cbn [obind] in H; try discriminate. destruct (y_defined nN); cbn [negb] in H; try discriminate.
    destruct (y_get n "D") as [nD| | |]; cbn [obind] in H; try discriminate. destruct (y_defined nD); cbn [negb] in H; try discriminate.
    destruct (y_get n "time") as [nt| | |]; cbn [obind] in H; try discriminate. destruct (y_defined nt); cbn [negb] in H; try discriminate.
    destruct (y_get n "coefficients") as [nc| | |]; cbn [obind] in H; try discriminate. destruct (y_defined nc); cbn [negb] in H; try discriminate.
    destruct (y_asInt cd nN) as [N| | |]; cbn [obind] in H; try discriminate. destruct (y_asInt cd nD) as [D| | |]; cbn [obind] in H; try discriminate.
    unfold seg_make in H. destruct (Z.ltb_spec N 0); cbn [obind] in H; try discriminate. destruct (Z.ltb_spec D 0); cbn [obind] in H; try discriminate.
    destruct (y_asU64 cd nt) as [t| | |]; cbn [obind] in H; try discriminate. destruct (y_size nc) as [sz| | |]; cbn [obind] in H; try discriminate.
    destruct (Z.of_nat sz =? D)%Z; cbn [negb] in H; try discriminate.
    destruct (file_polys cd nc N 0 (Z.to_nat D)) as [[ps|]| | |] eqn:E; cbn [obind] in H; try discriminate.
    apply Ok_inj in H. injection H as <-. cbn [seg_N seg_polys seg_new]. apply (file_polys_wf nc N _ _ ps ltac:(lia) E).
  Qed.
  Lemma file_segments_wf n : forall k i b segs, file_segments cd n i k = Ok (b, segs) ->
    List.Forall (fun s => List.Forall (fun p => length p = seg_N s) (seg_polys s)) segs /\ (b = true -> length segs = k).
  Proof.
    induction k as [|k IH]; intros i b segs H; cbn [file_segments] in H.
    - apply Ok_inj in H. injection H as <- <-. split; [constructor|reflexivity].
    - destruct (y_idx cd n i) as [e| | |]; cbn [obind] in H; try discriminate. destruct (file_segment cd e) as [[s|]| | |] eqn:Es; cbn [obind] in H; try discriminate.
      + destruct (file_segments cd n (S i) k) as [(b' & rest)| | |] eqn:Er; cbn [obind fst snd] in H; try discriminate. apply Ok_inj in H. injection H as <- <-.
        destruct (IH _ _ _ Er) as (F & L). split; [constructor; [exact (file_segment_wf e s Es)|exact F]|]. intros Hb. cbn [length]. rewrite (L Hb). reflexivity.
      + apply Ok_inj in H. injection H as <- <-. split; [constructor|discriminate].
  Qed.
End IO.

(** Real numbers: rounding down to nanoseconds. *)
Lemma Int_part_spec (x : R) : (IZR (Int_part x) <= x < IZR (Int_part x) + 1)%R.
Proof. destruct (base_Int_part x). lra. Qed.
Lemma nsec_R (s : segment R) : (0 <= seg_time s)%R -> (10 ^ 9 * seg_time s < IZR (2 ^ 64))%R ->
  exists ns, seg_getTimeNSec s = Ok ns /\ (seg_time s - / 10 ^ 9 < nsec_time ns <= seg_time s)%R.
Proof.
  intros H0 H1. unfold seg_getTimeNSec, to_uint64, nsec_time, kNumNSecPerSec, kNumSecPerNsec, nlit. cbn [ntoZ nmul nofZ ndiv R_ops].
  change (10 ^ 9)%Z with 1000000000%Z. replace (10 ^ 9)%R with 1000000000%R in * by ring.
  set (x := (1000000000 * seg_time s)%R) in *. assert (Hx : (0 <= x)%R) by (unfold x; lra).
  unfold Rtrunc. destruct (Rlt_dec x 0); [lra|]. destruct (Int_part_spec x) as (I1 & I2). set (z := Int_part x) in *.
  assert (Hz0 : (0 <= z)%Z). { apply Znot_gt_le. intros Hg. assert (Q : (z <= -1)%Z) by lia. apply IZR_le in Q. lra. }
  assert (Hz1 : (z < 2 ^ 64)%Z). { apply lt_IZR. lra. }
  rewrite (proj2 (Z.leb_le _ _) Hz0), (proj2 (Z.ltb_lt _ _) Hz1). cbn [andb]. exists z. split; [reflexivity|]. unfold x in I1, I2. lra.
Qed.
