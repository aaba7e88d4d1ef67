(** Single dimension, appended dimensions, merging, time scaling, vertices. *)
From Coq Require Import ZArith Reals List Bool Lia Lra.
From Coquelicot Require Import Coquelicot.
From Verif Require Import Num RSum SpecPoly ModelPolynomial ModelSegment SpecSegment ModelVertex SpecVertex
  ModelTrajectory SpecTrajectory ProofPolynomial ProofSegment ProofSegment2 ProofVertex ProofTrajectory.
Import ListNotations.
Open Scope R_scope.

Lemma nth_map_dflt {A B} (f : A -> B) (da : A) l i : nth i (map f l) (f da) = f (nth i l da).
Proof. apply map_nth. Qed.

(** The consistent total time is the duration. *)
Lemma consistent_max tr : traj_consistent tr -> tr_max_time tr = duration tr.
Proof. intros [_ H]. rewrite H. rnum. rewrite fold_left_lsum. unfold duration. lra. Qed.

(** * Single dimension *)
Lemma traj_single_ok (tr : trajectory R) (k : nat) :
  traj_consistent tr -> (k < tr_D tr)%nat -> (0 < tr_K tr)%nat ->
  traj_single tr (Z.of_nat k) =
  Ok (mkTraj 1 (tr_N tr) (map (fun s => mkSegment (tr_N tr) [nth k (seg_polys s) []] 0) (tr_segments tr)) 0).
Proof.
  intros [Hf Hm] Hk HK. unfold traj_single.
  destruct (Z.leb_spec (Z.of_nat (tr_D tr)) (Z.of_nat k)); [lia|].
  rewrite (omap_ok _ (fun s => mkSegment (tr_N tr) [nth k (seg_polys s) []] 0)).
  - cbn [obind]. unfold tr_K in HK. destruct (tr_segments tr) as [|s segs]; [simpl in HK; lia|].
    cbn [map]. unfold traj_setSegments. rewrite addSegments_ok.
    + cbn [tr_D tr_N tr_segments tr_max_time app seg_D seg_polys length seg_N].
      do 2 f_equal. rnum. rewrite fold_left_lsum.
      assert (lsum (map seg_time (mkSegment (tr_N tr) [nth k (seg_polys s) []] 0 ::
              map (fun s => mkSegment (tr_N tr) [nth k (seg_polys s) []] 0) segs)) = 0); [|lra].
      cbn [map lsum seg_time]. clear. induction segs; simpl; lra.
    + constructor; [split; reflexivity|]. apply Forall_map. apply List.Forall_forall. intros; split; reflexivity.
  - intros s Hs. destruct (Z.ltb_spec (Z.of_nat k) 0); [lia|].
    rewrite Nat2Z.id. unfold seg_index. rewrite List.Forall_forall in Hf. destruct (Hf s Hs) as [HD _].
    destruct (Nat.ltb_spec k (seg_D s)); [|lia].
    rewrite (oget_nth _ _ []) by auto. reflexivity.
Qed.

Lemma traj_single_abort (tr : trajectory R) (k : Z) :
  ~ (0 <= k < Z.of_nat (tr_D tr))%Z \/ tr_K tr = 0%nat -> traj_single tr k = Abort.
Proof.
  intro H. unfold traj_single. destruct (Z.leb_spec (Z.of_nat (tr_D tr)) k); auto.
  unfold tr_K in H. destruct (tr_segments tr) as [|s segs]; [reflexivity|].
  cbn [omap]. destruct (Z.ltb_spec k 0); [reflexivity|]. simpl in H. lia.
Qed.

(** * Appended dimensions *)
Definition append_rel (a b r : segment R) : Prop :=
  seg_wf r /\ seg_N r = Nat.max (seg_N a) (seg_N b) /\ seg_D r = (seg_D a + seg_D b)%nat /\
  seg_time r = seg_time a /\
  forall t d, seg_value r t d = seg_value a t d ++ seg_value b t d.

Lemma seg_append_rel (a b : segment R) :
  seg_wf a -> seg_wf b -> (1 <= seg_N a)%nat -> (1 <= seg_N b)%nat ->
  (1 <= seg_D a)%nat -> (1 <= seg_D b)%nat -> 0 < seg_time a -> seg_time b = seg_time a ->
  exists r, seg_append ToOther a b = Ok (Some r) /\ append_rel a b r.
Proof.
  intros Wa Wb Na Nb Da Db Ta Tb.
  destruct (seg_append_spec a b) as (r & E & Wr & Nr & Dr & Tr & F1 & F2); auto; try lra.
  exists r. split; auto.
  rewrite Tb, Rmax_left in Tr by lra.
  repeat (split; auto). intros t d. unfold seg_value. rewrite Dr, seq_app, map_app. f_equal.
  - apply map_ext_in. intros k Hk. apply in_seq in Hk. unfold seg_fun. apply Derive_n_ext. intro x.
    rewrite F1 by lia. f_equal. rewrite Tr. field. lra.
  - apply (nth_ext _ _ 0 0); [now rewrite !map_length, !seq_length|].
    rewrite map_length, seq_length. intros k Hk. rewrite !nth_map_seq by auto.
    unfold seg_fun. apply Derive_n_ext. intro x.
    rewrite !Nat.add_0_l. rewrite F2 by lia. f_equal. rewrite Tb, Tr. field. lra.
Qed.

Lemma append_segments_ok : forall a b,
  length a = length b ->
  (forall i, (i < length a)%nat -> exists r, seg_append ToOther (nth i a no_segment) (nth i b no_segment) = Ok (Some r) /\
        append_rel (nth i a no_segment) (nth i b no_segment) r) ->
  exists l, append_segments a b = Ok (Some l) /\ length l = length a /\
    forall i, (i < length a)%nat -> append_rel (nth i a no_segment) (nth i b no_segment) (nth i l no_segment).
Proof.
  induction a as [|s a IH]; intros [|r b] HL H; simpl in HL; try lia.
  - exists []. split; auto. split; auto. simpl; lia.
  - cbn [append_segments].
    destruct (H 0%nat ltac:(simpl; lia)) as (q & E & Q). cbn [nth] in E. rewrite E. cbn [obind].
    destruct (IH b) as (l & El & Ll & Hl); [lia| |].
    { intros i Hi. apply (H (S i)). simpl. lia. }
    rewrite El. cbn [obind option_map]. eexists. split; [reflexivity|]. split; [simpl; lia|].
    intros [|i] Hi; cbn [nth]; auto. apply Hl. simpl in Hi. lia.
Qed.

Lemma find_segment_times : forall (a b : list (segment R)) t i acc,
  map seg_time a = map seg_time b -> find_segment a t i acc = find_segment b t i acc.
Proof.
  induction a as [|s a IH]; intros [|r b] t i acc H; simpl in H; try discriminate; auto.
  injection H as H1 H2. cbn [find_segment]. rewrite H1. destruct (nltb _ _); auto.
Qed.

Lemma find_segment_bound : forall (a : list (segment R)) t i acc,
  (fst (find_segment a t i acc) <= i + length a)%nat.
Proof.
  induction a as [|s a IH]; intros t i acc; cbn [find_segment length]; [simpl; lia|].
  destruct (nltb _ _); cbn [fst]; [lia|]. specialize (IH t (S i) (acc + seg_time s)%num). lia.
Qed.

(** evaluate depends on the times only through a choice of segment and local
    time; this form relates evaluations of trajectories with equal times. *)
Lemma evaluate_shape (tr : trajectory R) (t : R) :
  (exists j x, (j < tr_K tr)%nat /\
     forall tr' : trajectory R, map seg_time (tr_segments tr') = map seg_time (tr_segments tr) ->
       forall d, traj_evaluate tr' t d = seg_evaluate (seg_at tr' j) x d) \/
  (forall tr' : trajectory R, map seg_time (tr_segments tr') = map seg_time (tr_segments tr) ->
     forall d, traj_evaluate tr' t d = Ok (repeat 0 (tr_D tr'))) \/
  (tr_K tr = 0%nat /\ t <= 0 /\
   forall tr' : trajectory R, map seg_time (tr_segments tr') = map seg_time (tr_segments tr) ->
     forall d, traj_evaluate tr' t d = UB).
Proof.
  pose proof (find_segment_bound (tr_segments tr) t 0 n0) as Hb.
  destruct (find_segment (tr_segments tr) t 0 n0) as [i acc] eqn:Ef. simpl in Hb.
  assert (HL : forall tr' : trajectory R, map seg_time (tr_segments tr') = map seg_time (tr_segments tr) ->
            length (tr_segments tr') = length (tr_segments tr)).
  { intros tr' H. apply (f_equal (@length R)) in H. now rewrite !map_length in H. }
  destruct (nltb acc t) eqn:Ec.
  - right. left. intros tr' H d. unfold traj_evaluate. rewrite (find_segment_times _ _ _ _ _ H), Ef, Ec. reflexivity.
  - destruct (Nat.eq_dec (tr_K tr) 0) as [Hz|Hz].
    + right. right. split; auto. split.
      { unfold tr_K in Hz. apply length_zero_iff_nil in Hz. rewrite Hz in Ef. simpl in Ef.
        injection Ef as _ <-. rnum. apply Rltb_false in Ec. auto. }
      intros tr' H d. unfold traj_evaluate. rewrite (find_segment_times _ _ _ _ _ H), Ef, Ec.
      unfold tr_K in *. specialize (HL tr' H). rewrite oget_UB; [reflexivity|]. lia.
    + left. exists (if Nat.leb (tr_K tr) i then (tr_K tr - 1)%nat else i).
      set (j := if Nat.leb (tr_K tr) i then (tr_K tr - 1)%nat else i).
      assert (Hj : (j < tr_K tr)%nat).
      { subst j. destruct (Nat.leb_spec (tr_K tr) i); lia. }
      exists (t - (acc - seg_time (seg_at tr j))). split; auto.
      intros tr' H d. unfold traj_evaluate. rewrite (find_segment_times _ _ _ _ _ H), Ef, Ec.
      assert (HK : tr_K tr' = tr_K tr) by (apply HL; auto). rewrite HK. fold j.
      rewrite (oget_nth _ _ no_segment) by (unfold tr_K in *; lia). cbn [obind]. rnum.
      fold (seg_at tr' j).
      assert (Ht : seg_time (seg_at tr' j) = seg_time (seg_at tr j)).
      { unfold seg_at. rewrite <- !(map_nth seg_time). now rewrite H. }
      now rewrite Ht.
Qed.

Lemma evaluate_total (tr : trajectory R) (t : R) (d : nat) : traj_wf tr ->
  (0 < tr_K tr)%nat \/ 0 < t -> exists v, traj_evaluate tr t (Z.of_nat d) = Ok v /\ length v = tr_D tr.
Proof.
  intros Hw Hd. destruct (evaluate_shape tr t) as [(j & x & Hj & H)|[H|(H & Hx & _)]].
  - rewrite H by reflexivity. destruct (traj_wf_seg tr j Hw Hj) as (HD & _ & W & HN).
    rewrite seg_evaluate_value by auto. eexists. split; [reflexivity|].
    unfold seg_value. now rewrite map_length, seq_length.
  - rewrite H by reflexivity. eexists. split; [reflexivity|]. apply repeat_length.
  - exfalso. destruct Hd; [lia|lra].
Qed.

Lemma traj_append_spec (a b : trajectory R) :
  traj_wf a -> traj_wf b -> traj_consistent a -> traj_consistent b ->
  (1 <= tr_N a)%nat -> (1 <= tr_N b)%nat -> (1 <= tr_D a)%nat -> (1 <= tr_D b)%nat ->
  (0 < tr_K a)%nat -> traj_getSegmentTimes a = traj_getSegmentTimes b ->
  List.Forall (fun t => 0 < t) (traj_getSegmentTimes a) ->
  exists r, traj_append a b = Ok (Some r) /\ traj_consistent r /\ traj_wf r /\
    tr_D r = (tr_D a + tr_D b)%nat /\ tr_N r = Nat.max (tr_N a) (tr_N b) /\
    traj_getSegmentTimes r = traj_getSegmentTimes a /\ tr_max_time r = tr_max_time a /\
    forall t d, exists va vb,
      traj_evaluate a t (Z.of_nat d) = Ok va /\ traj_evaluate b t (Z.of_nat d) = Ok vb /\
      traj_evaluate r t (Z.of_nat d) = Ok (va ++ vb).
Proof.
  intros Wa Wb Ca Cb Na Nb Da Db HK Ht Hp. unfold traj_getSegmentTimes in *.
  assert (HL : length (tr_segments a) = length (tr_segments b)).
  { apply (f_equal (@length R)) in Ht. now rewrite !map_length in Ht. }
  unfold traj_append.
  destruct (Nat.eqb_spec (tr_N a) 0); [lia|]. destruct (Nat.eqb_spec (tr_D a) 0); [lia|].
  destruct (Nat.eqb_spec (tr_N b) 0); [lia|]. destruct (Nat.eqb_spec (tr_D b) 0); [lia|].
  cbn [orb]. unfold tr_K in *. rewrite HL, Nat.eqb_refl. cbn [negb].
  assert (Htime : forall i, seg_time (nth i (tr_segments b) no_segment) = seg_time (nth i (tr_segments a) no_segment)).
  { intro i. rewrite <- !(map_nth seg_time). now rewrite Ht. }
  destruct (append_segments_ok (tr_segments a) (tr_segments b) HL) as (l & El & Ll & Hl).
  { intros i Hi. destruct (traj_wf_seg a i Wa Hi) as (D1 & N1 & W1 & _).
    destruct (traj_wf_seg b i Wb) as (D2 & N2 & W2 & _); [unfold tr_K; lia|].
    unfold seg_at in *. apply seg_append_rel; auto; try lia.
    rewrite List.Forall_forall in Hp. apply Hp. apply in_map. now apply nth_In. }
  rewrite El. cbn [obind].
  assert (Hfa : forall i, (i < length l)%nat ->
     seg_D (nth i l no_segment) = (tr_D a + tr_D b)%nat /\ seg_N (nth i l no_segment) = Nat.max (tr_N a) (tr_N b) /\
     seg_wf (nth i l no_segment)).
  { intros i Hi. destruct (Hl i ltac:(lia)) as (W & N' & D' & _).
    destruct (traj_wf_seg a i Wa) as (D1 & N1 & _); [unfold tr_K; lia|].
    destruct (traj_wf_seg b i Wb) as (D2 & N2 & _); [unfold tr_K; lia|].
    unfold seg_at in *. rewrite N', D', D1, N1, D2, N2. auto. }
  assert (Hall : List.Forall (fun s => seg_D s = (tr_D a + tr_D b)%nat /\ seg_N s = Nat.max (tr_N a) (tr_N b) /\ seg_wf s) l).
  { apply List.Forall_forall. intros s Hs. destruct (In_nth _ _ no_segment Hs) as (i & Hi & <-). auto. }
  assert (Etimes : map seg_time l = map seg_time (tr_segments a)).
  { apply (nth_ext _ _ 0 0); [now rewrite !map_length|]. rewrite map_length. intros i Hi.
    change 0 with (seg_time no_segment). rewrite !map_nth. destruct (Hl i ltac:(lia)) as (_ & _ & _ & T' & _). auto. }
  destruct l as [|s0 l0] eqn:El0; [simpl in Ll; lia|]. rewrite <- El0 in *.
  destruct (Hfa 0%nat) as (D0 & N0 & _); [rewrite El0; simpl; lia|].
  assert (Es : nth 0 l no_segment = s0) by now rewrite El0. rewrite Es in D0, N0.
  assert (Eset : traj_setSegments traj_new l =
     Ok (mkTraj (tr_D a + tr_D b) (Nat.max (tr_N a) (tr_N b)) l (tr_max_time a))).
  { rewrite El0 at 1. unfold traj_setSegments. rewrite <- El0. rewrite D0, N0.
    rewrite addSegments_ok.
    - cbn [tr_D tr_N tr_segments app tr_max_time]. do 2 f_equal. rewrite Etimes. destruct Ca as [_ Ca]. now rewrite Ca.
    - simpl. eapply List.Forall_impl; [|exact Hall]. simpl. tauto. }
  rewrite Eset. cbn [obind]. eexists. split; [reflexivity|].
  set (r := mkTraj _ _ l _).
  assert (Wr : traj_wf r).
  { split; [exact Hall|]. destruct Wa as [_ Wa], Wb as [_ Wb]. simpl. lia. }
  split.
  { split; simpl; [eapply List.Forall_impl; [|exact Hall]; simpl; tauto|].
    rewrite Etimes. apply Ca. }
  split; [exact Wr|]. split; [reflexivity|]. split; [reflexivity|]. split; [exact Etimes|]. split; [reflexivity|].
  intros t d. destruct (evaluate_shape a t) as [(j & x & Hj & H)|[H|(Hz & _)]].
  - rewrite (H a) by reflexivity. rewrite (H b) by auto. rewrite (H r) by exact Etimes.
    destruct (traj_wf_seg a j Wa Hj) as (_ & _ & W1 & N1).
    destruct (traj_wf_seg b j Wb) as (_ & _ & W2 & N2); [unfold tr_K in *; lia|].
    destruct (traj_wf_seg r j Wr) as (_ & _ & W3 & N3); [unfold tr_K in *; simpl; lia|].
    rewrite !seg_evaluate_value by auto. do 2 eexists. do 2 (split; [reflexivity|]). f_equal.
    destruct (Hl j Hj) as (_ & _ & _ & _ & V). apply V.
  - rewrite (H a) by reflexivity. rewrite (H b) by auto. rewrite (H r) by exact Etimes.
    do 2 eexists. do 2 (split; [reflexivity|]). f_equal. simpl. apply repeat_app.
  - unfold tr_K in Hz. lia.
Qed.

Lemma traj_append_abort {T} {ops : NumOps T} (a b : trajectory T) :
  tr_N a <> 0%nat -> tr_D a <> 0%nat -> tr_N b <> 0%nat -> tr_D b <> 0%nat ->
  tr_K a <> tr_K b -> traj_append a b = Abort.
Proof.
  intros H1 H2 H3 H4 H. unfold traj_append.
  destruct (Nat.eqb_spec (tr_N a) 0); [lia|]. destruct (Nat.eqb_spec (tr_D a) 0); [lia|].
  destruct (Nat.eqb_spec (tr_N b) 0); [lia|]. destruct (Nat.eqb_spec (tr_D b) 0); [lia|].
  destruct (Nat.eqb_spec (tr_K a) (tr_K b)); [lia|]. reflexivity.
Qed.

(** * Merging *)
Definition segments_of {T} (l : list (trajectory T)) : list (segment T) :=
  concat (map tr_segments l).

Lemma merge_other_ok {T} {ops : NumOps T} D N (trajs : list (trajectory T)) :
  forall n a m, (a + n)%nat = length trajs ->
  traj_consistent m -> tr_D m = D -> tr_N m = N ->
  (forall t, In t trajs -> traj_consistent t /\ tr_D t = D /\ tr_N t = N) ->
  exists r, merge_loop MergeOther D N trajs (seq a n) (true, m) = Ok (true, r) /\
    traj_consistent r /\ tr_D r = D /\ tr_N r = N /\
    tr_segments r = tr_segments m ++ segments_of (skipn a trajs).
Proof.
  induction n as [|n IH]; intros a m Ha Cm Dm Nm Ht.
  - exists m. split; [reflexivity|]. repeat (split; auto).
    rewrite skipn_all2 by lia. unfold segments_of. simpl. now rewrite app_nil_r.
  - unfold merge_loop. cbn [seq ofold fst snd].
    rewrite (oget_nth _ _ m) by lia. cbn [obind].
    destruct (Ht (nth a trajs m)) as (Ct & Dt & Nt); [apply nth_In; lia|].
    rewrite Dt, Nt, !Nat.eqb_refl. cbn [negb orb].
    destruct (traj_addSegments m (tr_segments (nth a trajs m))) as [m'| | |] eqn:Ea.
    2-4: rewrite addSegments_ok in Ea; [discriminate|];
         rewrite Dm, Nm; destruct Ct as [Ct _]; rewrite Dt, Nt in Ct; exact Ct.
    cbn [obind].
    destruct (addSegments_inv _ _ _ Cm Ea) as (Cm' & Dm' & Nm' & Sm' & _).
    destruct (IH (S a) m') as (r & Er & Cr & Dr & Nr & Sr); auto; try lia; try congruence.
    exists r. split; [exact Er|]. repeat (split; auto).
    rewrite Sr, Sm', <- app_assoc. f_equal. unfold segments_of.
    assert (Hsk : skipn a trajs = nth a trajs m :: skipn (S a) trajs).
    { clear - Ha. assert (H : (a < length trajs)%nat) by lia. clear Ha. revert a H.
      induction trajs as [|t l IHl]; intros a H; simpl in H; [lia|]. destruct a; [reflexivity|].
      simpl. apply IHl. lia. }
    rewrite Hsk. reflexivity.
Qed.

Lemma merge_loop_false {T} {ops : NumOps T} target D N (trajs : list (trajectory T)) idx m :
  merge_loop target D N trajs idx (false, m) = Ok (false, m).
Proof. unfold merge_loop. induction idx as [|i idx IH]; simpl; auto. Qed.

Lemma merge_other_mismatch {T} {ops : NumOps T} D N (trajs : list (trajectory T)) :
  forall n a m, (a + n)%nat = length trajs ->
  traj_consistent m -> tr_D m = D -> tr_N m = N ->
  (forall t, In t trajs -> traj_consistent t) ->
  (exists t, In t (skipn a trajs) /\ ~ (tr_D t = D /\ tr_N t = N)) ->
  exists r, merge_loop MergeOther D N trajs (seq a n) (true, m) = Ok (false, r).
Proof.
  induction n as [|n IH]; intros a m Ha Cm Dm Nm Ht (t & Hin & Hne).
  - rewrite skipn_all2 in Hin by lia. destruct Hin.
  - unfold merge_loop. cbn [seq ofold fst snd].
    rewrite (oget_nth _ _ m) by lia. cbn [obind].
    assert (Hsk : skipn a trajs = nth a trajs m :: skipn (S a) trajs).
    { clear - Ha. assert (H : (a < length trajs)%nat) by lia. clear Ha. revert a H.
      induction trajs as [|t l IHl]; intros a H; simpl in H; [lia|]. destruct a; [reflexivity|].
      simpl. apply IHl. lia. }
    pose proof (Ht (nth a trajs m)) as Ct. specialize (Ct ltac:(apply nth_In; lia)).
    destruct (Nat.eqb_spec (tr_D (nth a trajs m)) D) as [Dt|Dt].
    2:{ cbn [negb orb obind snd]. exists m. apply (merge_loop_false MergeOther D N trajs). }
    destruct (Nat.eqb_spec (tr_N (nth a trajs m)) N) as [Nt|Nt].
    2:{ cbn [negb orb obind snd]. exists m. apply (merge_loop_false MergeOther D N trajs). }
    cbn [negb orb].
    destruct (traj_addSegments m (tr_segments (nth a trajs m))) as [m'| | |] eqn:Ea.
    2-4: rewrite addSegments_ok in Ea; [discriminate|];
         rewrite Dm, Nm; destruct Ct as [Ct _]; rewrite Dt, Nt in Ct; exact Ct.
    cbn [obind].
    destruct (addSegments_inv _ _ _ Cm Ea) as (Cm' & Dm' & Nm' & Sm' & _).
    apply (IH (S a) m'); auto; try lia; try congruence.
    exists t. split; auto. rewrite Hsk in Hin. destruct Hin as [<-|Hin]; auto. exfalso. auto.
Qed.

(** Evaluation of a trajectory whose segments contain those of another. *)
Lemma evaluate_part (tr part : trajectory R) (a c : list (segment R)) t d :
  tr_segments tr = a ++ tr_segments part ++ c -> times_nonneg tr ->
  (0 <= t < duration part \/ (a = [] /\ (0 < tr_K part)%nat /\ t < duration part)) ->
  traj_evaluate tr (lsum (map seg_time a) + t) d = traj_evaluate part t d.
Proof.
  intros Es Hn Ht.
  assert (Hnp : times_nonneg part).
  { unfold times_nonneg in *. rewrite Es in Hn. apply List.Forall_app in Hn as [_ Hn].
    now apply List.Forall_app in Hn as [Hn _]. }
  assert (Hst : forall j, (j <= tr_K part)%nat ->
     start_time tr (length a + j) = lsum (map seg_time a) + start_time part j).
  { intros j Hj. unfold start_time. rewrite Es. fold (tsum (a ++ tr_segments part ++ c) (length a + j)).
    rewrite tsum_app_r, tsum_app_l by auto. reflexivity. }
  assert (Hseg : forall j, (j < tr_K part)%nat -> seg_at tr (length a + j) = seg_at part j).
  { intros j Hj. unfold seg_at. rewrite Es, app_nth2 by lia. rewrite app_nth1 by (unfold tr_K in Hj; lia).
    f_equal. lia. }
  assert (HK : (length a + tr_K part <= tr_K tr)%nat).
  { unfold tr_K. rewrite Es, !app_length. lia. }
  assert (exists j, (j < tr_K part)%nat /\ (j = 0%nat /\ a = [] \/ start_time part j <= t) /\ t < start_time part (S j)) as (j & Hj & Hlo & Hhi).
  { assert (Hp : 0 <= t < duration part -> exists j, (j < tr_K part)%nat /\ start_time part j <= t < start_time part (S j)).
    { intro H. apply find_index; auto. destruct (Nat.eq_dec (tr_K part) 0); [|lia].
      exfalso. unfold duration, tr_K in *. apply length_zero_iff_nil in e. rewrite e in H. simpl in H. lra. }
    destruct Ht as [Ht|(-> & H0 & Ht)].
    - destruct (Hp Ht) as (j & Hj & Hb). exists j. split; auto. lra.
    - destruct (Rle_lt_dec 0 t).
      + destruct (Hp ltac:(lra)) as (j & Hj & Hb). exists j. split; auto. lra.
      + exists 0%nat. split; auto. split; auto.
        pose proof (tsum_nonneg (tr_segments part) 1 Hnp). unfold tsum in H. unfold start_time. lra. }
  rewrite (evaluate_in part j t d); auto; [|tauto].
  rewrite (evaluate_in tr (length a + j)); auto; try lia.
  - rewrite Hseg by auto. f_equal. rewrite Hst by lia. ring.
  - destruct Hlo as [[-> ->]|Hlo]; [auto|]. right. rewrite Hst by lia. lra.
  - rewrite <- Nat.add_succ_r, Hst by lia. lra.
Qed.

Lemma evaluate_part_end (tr part : trajectory R) (a : list (segment R)) d :
  tr_segments tr = a ++ tr_segments part -> times_nonneg tr -> (0 < tr_K part)%nat ->
  traj_evaluate tr (lsum (map seg_time a) + duration part) d = traj_evaluate part (duration part) d.
Proof.
  intros Es Hn HK.
  assert (Hnp : times_nonneg part).
  { unfold times_nonneg in *. rewrite Es in Hn. now apply List.Forall_app in Hn as [_ Hn]. }
  assert (HK' : tr_K tr = (length a + tr_K part)%nat) by (unfold tr_K; rewrite Es, app_length; auto).
  rewrite (evaluate_end part) by auto.
  rewrite (evaluate_end tr); auto; [|lia|].
  - assert (E : seg_at tr (tr_K tr - 1) = seg_at part (tr_K part - 1)).
    { unfold seg_at. rewrite Es, app_nth2 by lia. f_equal. lia. }
    now rewrite E.
  - unfold duration. now rewrite Es, map_app, lsum_app.
Qed.

(** * Scaling *)
Lemma seg_stretch_value (s : segment R) c t d : c <> 0 ->
  seg_value (seg_stretch c (1 / c) s) (c * t) d = map (fun x => x / c ^ d) (seg_value s t d).
Proof.
  intro Hc. unfold seg_value, seg_stretch, seg_D. simpl. rewrite map_length, map_map.
  apply map_ext_in. intros k Hk. apply in_seq in Hk. unfold seg_fun. simpl.
  rewrite (nth_map_lt _ _ _ []) by lia. rewrite !dpoly_ext_derive_n, dpoly_scale_time.
  replace (1 / c * (c * t)) with t by (field; auto).
  replace ((1 / c) ^ d) with (/ c ^ d).
  - unfold Rdiv. ring.
  - rewrite <- pow_inv. f_equal. field. auto.
Qed.

Lemma seg_stretch_wf (s : segment R) c e : seg_wf s -> seg_wf (seg_stretch c e s).
Proof.
  intro H. unfold seg_wf, seg_stretch in *. simpl. apply Forall_map.
  eapply List.Forall_impl; [|exact H]. simpl. intros p Hp. now rewrite scale_time_length.
Qed.

Lemma stretch_wf tr c : traj_wf tr -> traj_wf (traj_stretch tr c).
Proof.
  intros [H HN]. split; auto. simpl. apply Forall_map. eapply List.Forall_impl; [|exact H].
  intros s (H1 & H2 & H3). split; [|split]; auto.
  - unfold seg_stretch, seg_D in *. simpl. now rewrite map_length.
  - now apply seg_stretch_wf.
Qed.

Lemma find_segment_scale c segs t : 0 < c -> forall i acc,
  find_segment (map (seg_stretch c (1 / c)) segs) (c * t) i (c * acc) =
  (fst (find_segment segs t i acc), c * snd (find_segment segs t i acc)).
Proof.
  intro Hc. induction segs as [|s segs IH]; intros i acc; cbn [map find_segment]; auto.
  assert (Es : seg_time (seg_stretch c (1 / c) s) = seg_time s * c) by reflexivity.
  rewrite Es. rnum.
  replace (c * acc + seg_time s * c) with (c * (acc + seg_time s)) by ring.
  destruct (Rltb_spec t (acc + seg_time s)); destruct (Rltb_spec (c * t) (c * (acc + seg_time s))).
  - reflexivity.
  - exfalso. apply Rmult_le_reg_l in H0; lra.
  - exfalso. apply Rmult_lt_reg_l in H0; lra.
  - apply IH.
Qed.

Lemma evaluate_stretch tr c t d v : 0 < c -> traj_wf tr ->
  traj_evaluate tr t (Z.of_nat d) = Ok v ->
  traj_evaluate (traj_stretch tr c) (c * t) (Z.of_nat d) = Ok (map (fun x => x / c ^ d) v).
Proof.
  intros Hc Hw. unfold traj_evaluate, traj_stretch, tr_K. cbn [tr_segments tr_D].
  rewrite map_length.
  pose proof (find_segment_scale c (tr_segments tr) t Hc 0 0) as Hf. rnum. rewrite Rmult_0_r in Hf.
  rewrite Hf. destruct (find_segment (tr_segments tr) t 0 0) as [i acc]. simpl fst. simpl snd.
  replace (Rltb (c * acc) (c * t)) with (Rltb acc t).
  2:{ destruct (Rltb_spec acc t); destruct (Rltb_spec (c * acc) (c * t)); auto; exfalso.
      - apply Rmult_le_reg_l in H0; lra.
      - apply Rmult_lt_reg_l in H0; lra. }
  destruct (Rltb acc t).
  - intro E. apply Ok_inj in E. subst v. f_equal. induction (tr_D tr) as [|n IHn]; cbn [repeat map]; auto. rewrite <- IHn. f_equal. unfold Rdiv. ring.
  - set (j := if Nat.leb (length (tr_segments tr)) i then (length (tr_segments tr) - 1)%nat else i).
    destruct (Nat.lt_ge_cases j (length (tr_segments tr))) as [Hj|Hj].
    2:{ rewrite oget_UB by auto. discriminate. }
    rewrite (oget_nth _ _ no_segment) by auto. cbn [obind].
    rewrite (oget_nth _ _ (seg_stretch c (1 / c) no_segment)) by (now rewrite map_length).
    cbn [obind]. rewrite map_nth.
    destruct (traj_wf_seg tr j Hw Hj) as (_ & _ & W & N'). unfold seg_at in *.
    rewrite !seg_evaluate_value; auto; [|now apply seg_stretch_wf].
    intro E. apply Ok_inj in E. subst v. f_equal.
    rewrite <- seg_stretch_value by lra. f_equal. unfold seg_stretch. cbn [seg_time]. rnum. ring.
Qed.

Lemma stretch_duration tr c : duration (traj_stretch tr c) = c * duration tr.
Proof.
  unfold duration, traj_stretch. simpl. rewrite map_map. simpl.
  rewrite <- (map_map seg_time (fun x => x * c)). rewrite lsum_map_scal. ring.
Qed.
Lemma stretch_times tr c : traj_getSegmentTimes (traj_stretch tr c) = map (fun x => x * c) (traj_getSegmentTimes tr).
Proof. unfold traj_getSegmentTimes, traj_stretch. simpl. now rewrite !map_map. Qed.

(** * Vertices *)
Lemma vertexAtTime_spec (tr : trajectory R) t (k : nat) (x : nat -> list R) :
  (forall i, (i <= k)%nat -> traj_evaluate tr t (Z.of_nat i) = Ok (x i) /\ length (x i) = tr_D tr) ->
  exists v, traj_vertexAtTime tr t (Z.of_nat k) = Ok v /\ vertex_wf v /\ v_D v = tr_D tr /\
    forall j, vertex_get v j = if (0 <=? j)%Z && (j <=? Z.of_nat k)%Z then Some (x (Z.to_nat j)) else None.
Proof.
  intro H. unfold traj_vertexAtTime. destruct (Z.ltb_spec (Z.of_nat k) 0); [lia|].
  rewrite Nat2Z.id.
  assert (G : forall n a v, (a + n <= S k)%nat -> vertex_wf v -> v_D v = tr_D tr ->
    (forall j, vertex_get v j = if (0 <=? j)%Z && (j <? Z.of_nat a)%Z then Some (x (Z.to_nat j)) else None) ->
    exists v', ofold (fun v i => y <-- traj_evaluate tr t (Z.of_nat i) ;; vertex_add v (Z.of_nat i) y) (seq a n) v = Ok v' /\
      vertex_wf v' /\ v_D v' = tr_D tr /\
      forall j, vertex_get v' j = if (0 <=? j)%Z && (j <? Z.of_nat (a + n))%Z then Some (x (Z.to_nat j)) else None).
  { induction n as [|n IH]; intros a v Ha Hv HD Hg.
    - exists v. rewrite Nat.add_0_r. auto.
    - cbn [seq ofold]. destruct (H a ltac:(lia)) as [E L]. rewrite E. cbn [obind].
      destruct (vertex_add_ok v (Z.of_nat a) (x a)) as [v1 E1]; [congruence|].
      rewrite E1. cbn [obind]. destruct (vertex_add_wf _ _ _ _ Hv E1) as (Hv1 & HD1 & _ & Hg1).
      destruct (IH (S a) v1) as (v' & E' & R); auto; try lia; try congruence.
      + intro j. rewrite Hg1, Hg.
        destruct (Z.eq_dec j (Z.of_nat a)).
        * subst j. destruct (Z.leb_spec 0 (Z.of_nat a)); [|lia].
          destruct (Z.ltb_spec (Z.of_nat a) (Z.of_nat (S a))); [|lia]. cbn [andb]. now rewrite Nat2Z.id.
        * destruct (Z.leb_spec 0 j); auto. cbn [andb].
          destruct (Z.ltb_spec j (Z.of_nat a)), (Z.ltb_spec j (Z.of_nat (S a))); auto; lia.
      + exists v'. split; auto. rewrite Nat.add_succ_r. exact R. }
  destruct (G (k + 1)%nat 0%nat (vertex_new (tr_D tr))) as (v & E & W & D' & Hg); auto; try lia.
  { apply vertex_new_wf. }
  { intro j. unfold vertex_get. simpl. destruct (Z.leb_spec 0 j); auto. cbn [andb].
    destruct (Z.ltb_spec j 0); auto; lia. }
  exists v. repeat (split; auto). intro j. rewrite Hg. destruct (Z.leb_spec 0 j); auto. cbn [andb].
  destruct (Z.ltb_spec j (Z.of_nat (0 + (k + 1)))), (Z.leb_spec j (Z.of_nat k)); auto; lia.
Qed.

Lemma boundary_times_spec segs : forall acc,
  boundary_times segs acc = map (fun i => acc + tsum segs (S i)) (seq 0 (length segs)).
Proof.
  induction segs as [|s segs IH]; intro acc; cbn [boundary_times length seq map]; auto.
  rnum. rewrite tsum_cons, tsum_0, Rplus_0_r. f_equal. rewrite IH, <- seq_shift, map_map.
  apply map_ext. intro i. rewrite (tsum_cons s segs (S i)). ring.
Qed.

Lemma all_boundaries (tr : trajectory R) :
  n0 :: boundary_times (tr_segments tr) n0 = map (start_time tr) (seq 0 (S (tr_K tr))).
Proof.
  rewrite boundary_times_spec. cbn [seq map]. rnum. f_equal. unfold tr_K.
  rewrite <- seq_shift, map_map. apply map_ext. intro i. unfold start_time, tsum. ring.
Qed.

(** The value the vertex reader assigns to derivative j at time t. *)
Definition vertex_matches (tr : trajectory R) (k : nat) (t : R) (v : vertex R) : Prop :=
  vertex_wf v /\ v_D v = tr_D tr /\
  (forall j, (j <= k)%nat -> exists x, traj_evaluate tr t (Z.of_nat j) = Ok x /\ vertex_get v (Z.of_nat j) = Some x) /\
  (forall j, (j < 0 \/ Z.of_nat k < j)%Z -> vertex_get v j = None).

Lemma vertexAtTime_ok tr t k : traj_wf tr -> (0 < tr_K tr)%nat ->
  exists v, traj_vertexAtTime tr t (Z.of_nat k) = Ok v /\ vertex_matches tr k t v.
Proof.
  intros Hw HK.
  assert (Hx : forall d, traj_evaluate tr t (Z.of_nat d) =
      Ok (match traj_evaluate tr t (Z.of_nat d) with Ok y => y | _ => [] end) /\
      length (match traj_evaluate tr t (Z.of_nat d) with Ok y => y | _ => [] end) = tr_D tr).
  { intro d. destruct (evaluate_total tr t d Hw) as (v & E & L); auto. rewrite E. auto. }
  destruct (vertexAtTime_spec tr t k _ (fun i _ => Hx i)) as (v & E & W & D' & G).
  exists v. split; auto. split; auto. split; auto. split.
  - intros j Hj. eexists. split; [apply Hx|]. rewrite G.
    destruct (Z.leb_spec 0 (Z.of_nat j)); [|lia]. destruct (Z.leb_spec (Z.of_nat j) (Z.of_nat k)); [|lia].
    cbn [andb]. now rewrite Nat2Z.id.
  - intros j Hj. rewrite G. destruct (Z.leb_spec 0 j); auto. destruct (Z.leb_spec j (Z.of_nat k)); auto. lia.
Qed.

Lemma omap_exists {A B} (f : A -> outcome B) (P : A -> B -> Prop) l :
  (forall x, In x l -> exists y, f x = Ok y /\ P x y) ->
  exists r, omap f l = Ok r /\ Forall2 P l r.
Proof.
  induction l as [|x l IH]; intro H; cbn [omap].
  - exists []. auto.
  - destruct (H x) as (y & E & Py); [now left|]. rewrite E. cbn [obind].
    destruct IH as (r & Er & Pr); [intros; apply H; now right|]. rewrite Er. cbn [obind].
    eexists. split; [reflexivity|]. constructor; auto.
Qed.

Lemma Forall2_nth_both {A B} (P : A -> B -> Prop) l r da db : Forall2 P l r ->
  length r = length l /\ forall i, (i < length l)%nat -> P (nth i l da) (nth i r db).
Proof.
  induction 1 as [|x y l r H H2 [IH1 IH2]]; simpl.
  - split; auto. lia.
  - split; [congruence|]. intros [|i] Hi; auto. apply IH2. lia.
Qed.

Definition no_vertex : vertex R := mkVertex 0 [].
Lemma getVertices_spec tr k : traj_wf tr -> (0 < tr_K tr)%nat ->
  exists vs, traj_getVertices tr (Z.of_nat k) = Ok vs /\ length vs = S (tr_K tr) /\
    forall i, (i <= tr_K tr)%nat -> vertex_matches tr k (start_time tr i) (nth i vs no_vertex).
Proof.
  intros Hw HK.
  assert (E : traj_getVertices tr (Z.of_nat k) =
    omap (fun t => traj_vertexAtTime tr t (Z.of_nat k)) (n0 :: boundary_times (tr_segments tr) n0)).
  { reflexivity. }
  rewrite E, all_boundaries.
  destruct (omap_exists (fun t => traj_vertexAtTime tr t (Z.of_nat k)) (vertex_matches tr k)
              (map (start_time tr) (seq 0 (S (tr_K tr))))) as (r & Er & Fr).
  { intros t _. now apply vertexAtTime_ok. }
  exists r. split; auto. destruct (Forall2_nth_both _ _ _ 0 no_vertex Fr) as [L H].
  rewrite map_length, seq_length in *. split; auto. intros i Hi.
  specialize (H i ltac:(lia)). rewrite nth_map_seq in H by lia. exact H.
Qed.

Lemma getVertices_pos_yaw_spec tr kp ky : traj_wf tr -> (0 < tr_K tr)%nat -> (4 <= tr_D tr)%nat ->
  exists ps ys, traj_getVertices_pos_yaw tr (Z.of_nat kp) (Z.of_nat ky) = Ok (Some (ps, ys)) /\
    length ps = S (tr_K tr) /\ length ys = S (tr_K tr) /\
    forall i, (i <= tr_K tr)%nat ->
      v_D (nth i ps no_vertex) = 3%nat /\ v_D (nth i ys no_vertex) = 1%nat /\
      (forall j, (j <= kp)%nat -> exists x, traj_evaluate tr (start_time tr i) (Z.of_nat j) = Ok x /\
         vertex_get (nth i ps no_vertex) (Z.of_nat j) = Some [nth 0 x 0; nth 1 x 0; nth 2 x 0]) /\
      (forall j, (j <= ky)%nat -> exists x, traj_evaluate tr (start_time tr i) (Z.of_nat j) = Ok x /\
         vertex_get (nth i ys no_vertex) (Z.of_nat j) = Some [nth 3 x 0]) /\
      (forall j, (j < 0 \/ Z.of_nat kp < j)%Z -> vertex_get (nth i ps no_vertex) j = None) /\
      (forall j, (j < 0 \/ Z.of_nat ky < j)%Z -> vertex_get (nth i ys no_vertex) j = None).
Proof.
  intros Hw HK HD. unfold traj_getVertices_pos_yaw. rewrite all_boundaries.
  set (P := fun t (p y : vertex R) => v_D p = 3%nat /\ v_D y = 1%nat /\
      (forall j, (j <= kp)%nat -> exists x, traj_evaluate tr t (Z.of_nat j) = Ok x /\
         vertex_get p (Z.of_nat j) = Some [nth 0 x 0; nth 1 x 0; nth 2 x 0]) /\
      (forall j, (j <= ky)%nat -> exists x, traj_evaluate tr t (Z.of_nat j) = Ok x /\
         vertex_get y (Z.of_nat j) = Some [nth 3 x 0]) /\
      (forall j, (j < 0 \/ Z.of_nat kp < j)%Z -> vertex_get p j = None) /\
      (forall j, (j < 0 \/ Z.of_nat ky < j)%Z -> vertex_get y j = None)).
  assert (G : forall l, exists ps ys, pos_yaw_loop tr (Z.of_nat kp) (Z.of_nat ky) l = Ok (Some (ps, ys)) /\
     length ps = length l /\ length ys = length l /\
     forall i, (i < length l)%nat -> P (nth i l 0) (nth i ps no_vertex) (nth i ys no_vertex)).
  { induction l as [|t l (ps & ys & E & Lp & Ly & H)].
    - exists [], []. split; auto. split; auto. split; auto. intros i Hi. simpl in Hi. lia.
    - cbn [pos_yaw_loop]. rewrite <- Nat2Z.inj_max.
      destruct (vertexAtTime_ok tr t (Nat.max kp ky) Hw HK) as (v & Ev & Wv & Dv & Gv & Gn).
      rewrite Ev. cbn [obind]. unfold pos_yaw_vertex.
      destruct (getSubdimension_spec v [0; 1; 2]%nat (Z.of_nat kp) Wv) as [Hp _].
      destruct Hp as (p & Ep & _ & Dp & Gp); [intros j Hj; simpl in Hj; lia|].
      destruct (getSubdimension_spec v [3]%nat (Z.of_nat ky) Wv) as [Hy _].
      destruct Hy as (y & Ey & _ & Dy & Gy); [intros j Hj; simpl in Hj; lia|].
      rewrite Ep. cbn [obind fst snd]. rewrite Ey. cbn [obind fst snd].
      rewrite E. cbn [obind option_map fst snd].
      do 2 eexists. split; [reflexivity|]. split; [simpl; lia|]. split; [simpl; lia|].
      intros [|i] Hi; [|apply H; simpl in Hi; lia]. cbn [nth].
      split; auto. split; auto. split; [|split; [|split]].
      + intros j Hj. destruct (Gv j ltac:(lia)) as (x & Ex & Gx). exists x. split; auto.
        rewrite Gp, Gx. destruct (Z.leb_spec (Z.of_nat j) (Z.of_nat kp)); [|lia]. reflexivity.
      + intros j Hj. destruct (Gv j ltac:(lia)) as (x & Ex & Gx). exists x. split; auto.
        rewrite Gy, Gx. destruct (Z.leb_spec (Z.of_nat j) (Z.of_nat ky)); [|lia]. reflexivity.
      + intros j Hj. rewrite Gp. destruct (Z.leb_spec j (Z.of_nat kp)); auto.
        rewrite Gn by lia. reflexivity.
      + intros j Hj. rewrite Gy. destruct (Z.leb_spec j (Z.of_nat ky)); auto.
        rewrite Gn by lia. reflexivity. }
  destruct (G (map (start_time tr) (seq 0 (S (tr_K tr))))) as (ps & ys & E & Lp & Ly & H).
  rewrite map_length, seq_length in *. exists ps, ys.
  split; [exact E|]. split; [lia|]. split; [lia|]. intros i Hi.
  specialize (H i ltac:(lia)). rewrite nth_map_seq in H by lia. exact H.
Qed.

Lemma getVertices_pos_yaw_false tr kp ky : traj_wf tr -> (0 < tr_K tr)%nat -> (tr_D tr < 4)%nat ->
  traj_getVertices_pos_yaw tr (Z.of_nat kp) (Z.of_nat ky) = Ok None.
Proof.
  intros Hw HK HD. unfold traj_getVertices_pos_yaw. cbn [pos_yaw_loop]. rewrite <- Nat2Z.inj_max.
  destruct (vertexAtTime_ok tr n0 (Nat.max kp ky) Hw HK) as (v & Ev & Wv & Dv & _).
  rewrite Ev. cbn [obind]. unfold pos_yaw_vertex.
  destruct (Nat.lt_ge_cases 2 (v_D v)) as [H|H].
  - destruct (getSubdimension_spec v [0; 1; 2]%nat (Z.of_nat kp) Wv) as [Hp _].
    destruct Hp as (p & Ep & _); [intros j Hj; simpl in Hj; lia|].
    destruct (getSubdimension_spec v [3]%nat (Z.of_nat ky) Wv) as [_ Hy].
    rewrite Ep. cbn [obind fst snd]. rewrite Hy by (exists 3%nat; simpl; lia). reflexivity.
  - destruct (getSubdimension_spec v [0; 1; 2]%nat (Z.of_nat kp) Wv) as [_ Hp].
    rewrite Hp by (exists 2%nat; simpl; lia). reflexivity.
Qed.
