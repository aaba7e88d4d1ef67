From Coq Require Import ZArith Reals List Bool Lia Lra.
From Coquelicot Require Import Coquelicot.
From Verif Require Import Num RSum SpecPoly ModelPolynomial ModelSegment SpecSegment ModelVertex
  ModelTrajectory SpecTrajectory ProofPolynomial ProofSegment ProofSegment2.
Import ListNotations.
Open Scope R_scope.

Lemma lsum_nonneg l : List.Forall (fun x => 0 <= x) l -> 0 <= lsum l.
Proof. induction 1; simpl; lra. Qed.
Lemma fold_left_lsum l : forall acc, fold_left Rplus l acc = acc + lsum l.
Proof. induction l as [|x l IH]; intro acc; simpl; [lra|]. rewrite IH. lra. Qed.

Definition tsum (segs : list (segment R)) (i : nat) : R := lsum (map seg_time (firstn i segs)).
Definition nonneg (segs : list (segment R)) := List.Forall (fun s => 0 <= seg_time s) segs.

Lemma tsum_0 segs : tsum segs 0 = 0.
Proof. reflexivity. Qed.
Lemma tsum_cons s segs i : tsum (s :: segs) (S i) = seg_time s + tsum segs i.
Proof. reflexivity. Qed.
Lemma tsum_S segs i d : (i < length segs)%nat -> tsum segs (S i) = tsum segs i + seg_time (nth i segs d).
Proof.
  revert i. induction segs as [|s segs IH]; intros i Hi; simpl in Hi; [lia|].
  destruct i.
  - rewrite tsum_cons, !tsum_0. simpl. lra.
  - rewrite !tsum_cons, IH by lia. simpl nth. lra.
Qed.
Lemma tsum_all segs i : (length segs <= i)%nat -> tsum segs i = lsum (map seg_time segs).
Proof. intro H. unfold tsum. now rewrite firstn_all2. Qed.
Lemma nonneg_nth segs i d : nonneg segs -> (i < length segs)%nat -> 0 <= seg_time (nth i segs d).
Proof. intros H Hi. unfold nonneg in H. rewrite List.Forall_forall in H. apply H. now apply nth_In. Qed.
Lemma tsum_mono segs i j : nonneg segs -> (i <= j)%nat -> tsum segs i <= tsum segs j.
Proof.
  intros H Hij. induction Hij as [|j Hij IH]; [lra|].
  destruct (Nat.lt_ge_cases j (length segs)) as [Hj|Hj].
  - rewrite (tsum_S _ _ (mkSegment 0 [] 0)) by auto.
    pose proof (nonneg_nth segs j (mkSegment 0 [] 0) H Hj). lra.
  - rewrite (tsum_all segs (S j)) by lia. rewrite (tsum_all segs j) in IH by lia. auto.
Qed.
Lemma tsum_nonneg segs i : nonneg segs -> 0 <= tsum segs i.
Proof. intro H. rewrite <- (tsum_0 segs). apply tsum_mono; auto. lia. Qed.
Lemma tsum_app_l a b i : (i <= length a)%nat -> tsum (a ++ b) i = tsum a i.
Proof. intro H. unfold tsum. rewrite firstn_app. replace (i - length a)%nat with 0%nat by lia.
  now rewrite app_nil_r. Qed.
Lemma tsum_app_r a b i : tsum (a ++ b) (length a + i) = lsum (map seg_time a) + tsum b i.
Proof.
  unfold tsum. rewrite firstn_app, firstn_all2 by lia. replace (length a + i - length a)%nat with i by lia.
  now rewrite map_app, lsum_app.
Qed.

(** * Search *)
Lemma find_segment_hit segs t : forall j i acc, nonneg segs -> (j < length segs)%nat ->
  (j = 0%nat \/ acc + tsum segs j <= t) -> t < acc + tsum segs (S j) ->
  find_segment segs t i acc = ((i + j)%nat, acc + tsum segs (S j)).
Proof.
  induction segs as [|s segs IH]; intros j i acc Hn Hj Hlo Hhi; simpl in Hj; [lia|].
  apply Forall_cons_iff in Hn as [Hs Hn].
  cbn [find_segment]. rnum.
  destruct j as [|j].
  - rewrite tsum_cons, tsum_0, Rplus_0_r in *.
    destruct (Rltb_spec t (acc + seg_time s)); [|lra]. now rewrite Nat.add_0_r.
  - destruct Hlo as [|Hlo]; [discriminate|]. rewrite tsum_cons in Hlo.
    pose proof (tsum_nonneg segs j Hn).
    destruct (Rltb_spec t (acc + seg_time s)); [lra|].
    rewrite (IH j); auto; try lia.
    + rewrite tsum_cons. f_equal; [lia|lra].
    + right. lra.
    + rewrite tsum_cons in Hhi. lra.
Qed.
Lemma find_segment_miss segs t : forall i acc, nonneg segs -> acc + lsum (map seg_time segs) <= t ->
  find_segment segs t i acc = ((i + length segs)%nat, acc + lsum (map seg_time segs)).
Proof.
  induction segs as [|s segs IH]; intros i acc Hn Hlo; cbn [find_segment].
  - simpl. rewrite Nat.add_0_r. f_equal. lra.
  - apply Forall_cons_iff in Hn as [Hs Hn]. simpl in Hlo.
    pose proof (tsum_nonneg segs (length segs) Hn) as Hp. rewrite tsum_all in Hp by lia.
    rnum. destruct (Rltb_spec t (acc + seg_time s)); [lra|].
    rewrite IH by (auto; lra). simpl. f_equal; [lia|lra].
Qed.

(** * evaluate *)
Lemma evaluate_in tr j t d : times_nonneg tr -> (j < tr_K tr)%nat ->
  (j = 0%nat \/ start_time tr j <= t) -> t < start_time tr (S j) ->
  traj_evaluate tr t d = seg_evaluate (seg_at tr j) (t - start_time tr j) d.
Proof.
  intros Hn Hj Hlo Hhi. unfold traj_evaluate.
  rewrite (find_segment_hit _ _ j); auto.
  2:{ destruct Hlo as [|Hlo]; auto. right. rnum. unfold start_time in Hlo. unfold tsum. lra. }
  2:{ rnum. unfold start_time in Hhi. unfold tsum. lra. }
  rnum. unfold start_time in Hhi. fold (tsum (tr_segments tr) (S j)) in Hhi.
  destruct (Rltb_spec (0 + tsum (tr_segments tr) (S j)) t); [lra|].
  cbn [Nat.add]. destruct (Nat.leb_spec (tr_K tr) j); [lia|].
  rewrite (oget_nth _ _ no_segment) by auto. cbn [obind].
  fold (seg_at tr j). f_equal.
  rewrite (tsum_S _ _ no_segment) by auto. unfold seg_at, start_time, tsum. ring.
Qed.

Lemma evaluate_end tr t d : times_nonneg tr -> (0 < tr_K tr)%nat -> t = duration tr ->
  traj_evaluate tr t d = seg_evaluate (seg_at tr (tr_K tr - 1)) (seg_time (seg_at tr (tr_K tr - 1))) d.
Proof.
  intros Hn HK ->. unfold traj_evaluate, duration.
  rewrite find_segment_miss by (auto; rnum; lra).
  rnum. destruct (Rltb_spec (0 + lsum (map seg_time (tr_segments tr))) (lsum (map seg_time (tr_segments tr)))); [lra|].
  cbn [Nat.add]. unfold tr_K in *. rewrite Nat.leb_refl.
  rewrite (oget_nth _ _ no_segment) by lia. cbn [obind]. unfold seg_at. f_equal. ring.
Qed.

Lemma evaluate_out tr t d : times_nonneg tr -> duration tr < t ->
  traj_evaluate tr t d = Ok (repeat 0 (tr_D tr)).
Proof.
  intros Hn H. unfold traj_evaluate, duration in *.
  rewrite find_segment_miss by (auto; rnum; lra).
  rnum. destruct (Rltb_spec (0 + lsum (map seg_time (tr_segments tr))) t); [reflexivity|lra].
Qed.

Lemma evaluate_empty tr t d : tr_segments tr = [] ->
  traj_evaluate tr t d = if Rlt_dec 0 t then Ok (repeat 0 (tr_D tr)) else UB.
Proof.
  intros H. unfold traj_evaluate. rewrite H. cbn [find_segment]. rnum. unfold Rltb.
  destruct (Rlt_dec 0 t); auto.
  unfold tr_K. rewrite H. reflexivity.
Qed.

(** Success and value of seg_evaluate in well-formed trajectories. *)
Lemma seg_evaluate_value s t (d : nat) : seg_wf s -> (seg_N s <= 22)%nat ->
  seg_evaluate s t (Z.of_nat d) = Ok (seg_value s t d).
Proof.
  intros Hw HN. rewrite seg_evaluate_eq.
  - f_equal. unfold seg_value, seg_D.
    apply (nth_ext _ _ 0 0); [now rewrite !map_length, seq_length|].
    rewrite map_length. intros k Hk. rewrite nth_map_seq by auto.
    rewrite (nth_map_lt _ _ _ []) by auto. symmetry. apply seg_fun_dpoly.
  - eapply List.Forall_impl; [|exact Hw]. simpl. intros p Hp. left. lia.
Qed.

Lemma traj_wf_seg tr i : traj_wf tr -> (i < tr_K tr)%nat ->
  seg_D (seg_at tr i) = tr_D tr /\ seg_N (seg_at tr i) = tr_N tr /\ seg_wf (seg_at tr i) /\ (seg_N (seg_at tr i) <= 22)%nat.
Proof.
  intros [H HN] Hi. rewrite List.Forall_forall in H.
  destruct (H (seg_at tr i)) as (H1 & H2 & H3); [now apply nth_In|]. rewrite H2. auto.
Qed.

(** Existence of the segment containing a time. *)
Lemma find_index tr t : (0 < tr_K tr)%nat -> 0 <= t < duration tr ->
  exists j, (j < tr_K tr)%nat /\ start_time tr j <= t < start_time tr (S j).
Proof.
  intros HK Ht. unfold duration, start_time, tr_K in *.
  assert (H : forall n, (n <= length (tr_segments tr))%nat -> t < tsum (tr_segments tr) n ->
              exists j, (j < n)%nat /\ tsum (tr_segments tr) j <= t < tsum (tr_segments tr) (S j)).
  { induction n as [|n IH]; intros Hn Hlt.
    - rewrite tsum_0 in Hlt. lra.
    - destruct (Rle_lt_dec (tsum (tr_segments tr) n) t).
      + exists n. split; [lia|lra].
      + destruct IH as (j & Hj & Hb); [lia|auto|]. exists j. split; [lia|auto]. }
  apply H; [lia|]. rewrite tsum_all by lia. lra.
Qed.

Lemma index_unique tr t i j : times_nonneg tr ->
  start_time tr i <= t < start_time tr (S i) -> start_time tr j <= t < start_time tr (S j) -> i = j.
Proof.
  intros Hn Hi Hj. unfold start_time in *. fold (tsum (tr_segments tr) i) in *.
  fold (tsum (tr_segments tr) (S i)) in *. fold (tsum (tr_segments tr) j) in *.
  fold (tsum (tr_segments tr) (S j)) in *.
  destruct (Nat.lt_total i j) as [H|[H|H]]; auto; exfalso.
  - pose proof (tsum_mono (tr_segments tr) (S i) j Hn). lra || (specialize (H0 ltac:(lia)); lra).
  - pose proof (tsum_mono (tr_segments tr) (S j) i Hn). lra || (specialize (H0 ltac:(lia)); lra).
Qed.

Lemma start_time_K tr : start_time tr (tr_K tr) = duration tr.
Proof. apply tsum_all. unfold tr_K. lia. Qed.
Lemma start_time_0 tr : start_time tr 0 = 0.
Proof. reflexivity. Qed.
Lemma start_time_S tr i : (i < tr_K tr)%nat -> start_time tr (S i) = start_time tr i + seg_time (seg_at tr i).
Proof. intro H. apply (tsum_S (tr_segments tr) i no_segment H). Qed.

(** * Bookkeeping, for every arithmetic *)
Section Generic.
  Context {T : Type} {ops : NumOps T}.

  Lemma addSegments_inv (tr tr' : trajectory T) segs :
    traj_consistent tr -> traj_addSegments tr segs = Ok tr' ->
    traj_consistent tr' /\ tr_D tr' = tr_D tr /\ tr_N tr' = tr_N tr /\
    tr_segments tr' = tr_segments tr ++ segs /\
    List.Forall (fun s => seg_D s = tr_D tr /\ seg_N s = tr_N tr) segs.
  Proof.
    intros [Hf Hm] E. unfold traj_addSegments in E.
    destruct (ofold _ segs (tr_max_time tr)) as [mt| | |] eqn:Eo; try discriminate.
    cbn [obind] in E. apply Ok_inj in E. subst tr'. simpl.
    assert (H : forall segs mt0 mt,
      ofold (fun mt s => if negb (Nat.eqb (seg_D s) (tr_D tr)) then Abort
                    else if negb (Nat.eqb (seg_N s) (tr_N tr)) then Abort
                    else Ok (nadd mt (seg_time s))) segs mt0 = Ok mt ->
      List.Forall (fun s => seg_D s = tr_D tr /\ seg_N s = tr_N tr) segs /\
      mt = fold_left nadd (map seg_time segs) mt0).
    { clear. induction segs as [|s segs IH]; intros mt0 mt E; simpl in E.
      - apply Ok_inj in E. simpl. auto.
      - destruct (Nat.eqb_spec (seg_D s) (tr_D tr)); [|discriminate].
        destruct (Nat.eqb_spec (seg_N s) (tr_N tr)); [|discriminate].
        simpl in E. destruct (IH _ _ E). simpl. auto. }
    destruct (H _ _ _ Eo) as [H1 H2]. split; [|auto]. split; simpl.
    - apply List.Forall_app. auto.
    - rewrite map_app, fold_left_app, <- Hm. auto.
  Qed.

  Lemma addSegments_ok (tr : trajectory T) segs :
    List.Forall (fun s => seg_D s = tr_D tr /\ seg_N s = tr_N tr) segs ->
    traj_addSegments tr segs =
    Ok (mkTraj (tr_D tr) (tr_N tr) (tr_segments tr ++ segs)
          (fold_left nadd (map seg_time segs) (tr_max_time tr))).
  Proof.
    intro H. unfold traj_addSegments.
    assert (E : forall mt0, ofold (fun mt s => if negb (Nat.eqb (seg_D s) (tr_D tr)) then Abort
                    else if negb (Nat.eqb (seg_N s) (tr_N tr)) then Abort
                    else Ok (nadd mt (seg_time s))) segs mt0 = Ok (fold_left nadd (map seg_time segs) mt0)).
    { induction H as [|s segs [H1 H2] Hs IH]; intro mt0; simpl; auto.
      rewrite H1, H2, !Nat.eqb_refl. simpl. apply IH. }
    rewrite E. reflexivity.
  Qed.
  Lemma addSegments_abort (tr : trajectory T) segs :
    ~ List.Forall (fun s => seg_D s = tr_D tr /\ seg_N s = tr_N tr) segs ->
    traj_addSegments tr segs = Abort.
  Proof.
    intro H. unfold traj_addSegments.
    assert (E : forall mt0, ofold (fun mt s => if negb (Nat.eqb (seg_D s) (tr_D tr)) then Abort
                    else if negb (Nat.eqb (seg_N s) (tr_N tr)) then Abort
                    else Ok (nadd mt (seg_time s))) segs mt0 = Abort).
    { induction segs as [|s segs IH]; intro mt0; simpl.
      - exfalso. apply H. constructor.
      - destruct (Nat.eqb_spec (seg_D s) (tr_D tr)); auto.
        destruct (Nat.eqb_spec (seg_N s) (tr_N tr)); auto.
        simpl. apply IH. intro. apply H. constructor; auto. }
    rewrite E. reflexivity.
  Qed.

  Lemma consistent_empty D N : traj_consistent (mkTraj D N [] (n0 : T)).
  Proof. split; simpl; auto. Qed.

  Lemma setSegments_inv (tr tr' : trajectory T) segs :
    traj_setSegments tr segs = Ok tr' ->
    traj_consistent tr' /\ tr_segments tr' = segs /\ segs <> [] /\
    List.Forall (fun s => seg_D s = tr_D tr' /\ seg_N s = tr_N tr') segs.
  Proof.
    destruct segs as [|s segs]; simpl; [discriminate|]. intro E.
    destruct (addSegments_inv _ _ _ (consistent_empty _ _) E) as (H1 & H2 & H3 & H4 & H5).
    split; [auto|]. split; [exact H4|]. split; [discriminate|]. rewrite H2, H3. exact H5.
  Qed.

  Lemma stretch_inv (tr : trajectory T) s : traj_consistent tr -> traj_consistent (traj_stretch tr s).
  Proof.
    intros [Hf Hm]. split; simpl; auto. apply Forall_map.
    eapply List.Forall_impl; [|exact Hf]. intros g [H1 H2]. unfold seg_stretch, seg_D in *. simpl.
    now rewrite map_length.
  Qed.

  Lemma offset_loop_inv segs o :
    List.Forall2 (fun s s' => seg_D s = seg_D s' /\ seg_N s = seg_N s' /\ seg_time s = seg_time s')
      segs (snd (offset_loop segs o)).
  Proof.
    induction segs as [|s segs IH]; simpl; [constructor|].
    unfold seg_offset. destruct (Nat.ltb _ _).
    - simpl. constructor; auto. clear. induction segs; constructor; auto.
    - destruct (offset_loop segs o); simpl in *. constructor; auto.
      unfold seg_D. simpl. now rewrite map_length, seq_length.
  Qed.
  Lemma offset_inv (tr : trajectory T) o : traj_consistent tr -> traj_consistent (snd (traj_offset tr o)).
  Proof.
    intros [Hf Hm]. unfold traj_offset. destruct (Nat.ltb _ _); [split; auto|].
    pose proof (offset_loop_inv (tr_segments tr) o) as H2.
    destruct (offset_loop (tr_segments tr) o) as [ok segs]. simpl in *. split; simpl.
    - clear Hm. revert Hf. induction H2; intro Hf; constructor.
      + apply List.Forall_inv in Hf. intuition congruence.
      + apply IHForall2. now apply List.Forall_inv_tail in Hf.
    - rewrite Hm. f_equal. clear Hm Hf. induction H2; simpl; auto. f_equal; auto. tauto.
  Qed.

  Lemma scaleToMeet_inv rf k v a : forall w (tr : trajectory T) r, traj_consistent tr ->
    scale_to_meet_loop rf k v a w tr = Ok r -> traj_consistent (snd r).
  Proof.
    induction k as [|k IH]; intros w tr r Hc E; simpl in E.
    - apply Ok_inj in E. now subst.
    - destruct (traj_maxVelAcc rf tr) as [va| | |]; try discriminate. cbn [obind] in E.
      destruct (_ && _).
      + apply Ok_inj in E. now subst.
      + eapply IH; [|exact E]. now apply stretch_inv.
  Qed.

  Lemma run_top_inv rf (tr tr' : trajectory T) o :
    traj_consistent tr -> run_top rf tr o = Ok tr' -> traj_consistent tr'.
  Proof.
    intros Hc E. destruct o; simpl in E.
    - apply Ok_inj in E. subst. apply consistent_empty.
    - apply setSegments_inv in E. tauto.
    - unfold traj_setSegments_self in E. destruct (tr_segments tr); [discriminate|].
      simpl in E. apply Ok_inj in E. subst. apply consistent_empty.
    - apply (addSegments_inv tr) in E; tauto.
    - apply Ok_inj in E. subst. now apply offset_inv.
    - apply Ok_inj in E. subst. unfold traj_scale. destruct (nltb _ _); simpl; auto. now apply stretch_inv.
    - destruct (traj_scaleToMeet rf tr v a) as [r| | |] eqn:Er; try discriminate.
      apply Ok_inj in E. subst. eapply scaleToMeet_inv; eauto.
  Qed.
  Lemma run_tops_inv rf l : forall (tr tr' : trajectory T),
    traj_consistent tr -> ofold (run_top rf) l tr = Ok tr' -> traj_consistent tr'.
  Proof.
    induction l as [|o l IH]; intros tr tr' Hc E; simpl in E.
    - apply Ok_inj in E. now subst.
    - destruct (run_top rf tr o) as [t1| | |] eqn:E1; try discriminate. cbn [obind] in E.
      eapply IH; [|exact E]. eapply run_top_inv; eauto.
  Qed.

  (** C15 *)
  Lemma find_segment_last (segs : list (segment T)) t : forall i acc,
    let (j, a) := find_segment segs t i acc in
    (nltb t a = true /\ (i <= j < i + length segs)%nat) \/
    (j = (i + length segs)%nat /\ a = fold_left nadd (map seg_time segs) acc).
  Proof.
    induction segs as [|s segs IH]; intros i acc; simpl.
    - right. rewrite Nat.add_0_r. auto.
    - destruct (nltb t (nadd acc (seg_time s))) eqn:E.
      + left. split; auto. lia.
      + specialize (IH (S i) (nadd acc (seg_time s))).
        destruct (find_segment segs t (S i) _) as [j a]. destruct IH as [[H1 H2]|[H1 H2]].
        * left. split; auto. lia.
        * right. split; auto. lia.
  Qed.
End Generic.
