(** Evaluation at accumulated times, bit-exactly. *)
From Coq Require Import ZArith Reals List Bool Lia Lra.
From Verif Require Import Num RSum ModelPolynomial ModelSegment ModelVertex
  ModelTrajectory SpecTrajectory ProofFloat ProofSegment ProofTrajectory.
Import ListNotations.

(** Sum of the first i segment times, accumulated from the left. *)
Definition partial_time {T} {ops : NumOps T} (tr : trajectory T) (i : nat) : T :=
  fold_left nadd (map seg_time (firstn i (tr_segments tr))) n0.

Section Generic.
  Context {T : Type} {ops : NumOps T}.
  Hypothesis irrefl : forall x : T, nltb x x = false.
  Hypothesis asym : forall x y : T, nltb x y = true -> nltb y x = false.

  Lemma evaluate_max_in_range (tr : trajectory T) d :
    traj_consistent tr -> (0 < tr_K tr)%nat ->
    exists i s x, nth_error (tr_segments tr) i = Some s /\
      traj_evaluate tr (tr_max_time tr) d = seg_evaluate s x d.
  Proof.
    intros [_ Hm] HK. unfold traj_evaluate.
    pose proof (find_segment_last (tr_segments tr) (tr_max_time tr) 0 n0) as H.
    destruct (find_segment (tr_segments tr) (tr_max_time tr) 0 n0) as [j a].
    assert (Ha : nltb a (tr_max_time tr) = false).
    { destruct H as [[H _]|[_ H]]; [now apply asym|]. rewrite H, <- Hm. apply irrefl. }
    rewrite Ha.
    set (i := if Nat.leb (tr_K tr) j then (tr_K tr - 1)%nat else j).
    assert (Hi : (i < length (tr_segments tr))%nat).
    { subst i. unfold tr_K in *. destruct (Nat.leb_spec (length (tr_segments tr)) j); lia. }
    destruct (nth_error (tr_segments tr) i) as [s|] eqn:Es.
    2:{ apply nth_error_None in Es. lia. }
    exists i, s. eexists. split; [exact Es|]. unfold oget. rewrite Es. cbn [obind]. reflexivity.
  Qed.
End Generic.

(** Doubles: with non-negative times the accumulated times never decrease. *)
Definition times_fnn (tr : trajectory b64) : Prop :=
  List.Forall (fun s => fnn (seg_time s)) (tr_segments tr).

Section Double.
  Local Existing Instance B64_ops.

  Lemma fold_fnn l : forall acc, fnn acc -> List.Forall fnn l ->
    fnn (fold_left nadd l acc) /\ (bval acc <= bval (fold_left nadd l acc))%R.
  Proof.
    induction l as [|x l IH]; intros acc Ha Hl; cbn [fold_left].
    - split; [auto|lra].
    - apply Forall_cons_iff in Hl as [Hx Hl]. destruct (fplus_spec acc x Ha Hx) as [H1 H2].
      destruct (IH (nadd acc x) H1 Hl) as [H3 H4]. split; auto. lra.
  Qed.
  Lemma fold_ge l acc : fnn acc -> List.Forall fnn l -> nltb (fold_left nadd l acc) acc = false.
  Proof.
    intros Ha Hl. destruct (fold_fnn l acc Ha Hl) as [H1 H2]. rewrite fltb_spec by auto.
    apply Rltb_false. auto.
  Qed.

  (** Stop exactly at segment i when asked for the start of segment i. *)
  Lemma find_segment_at (segs : list (segment b64)) : forall i k acc s, fnn acc ->
    List.Forall (fun s => fnn (seg_time s)) segs -> nth_error segs i = Some s ->
    let t := fold_left nadd (map seg_time (firstn i segs)) acc in
    nltb t (nadd t (seg_time s)) = true ->
    find_segment segs t k acc = ((k + i)%nat, nadd t (seg_time s)).
  Proof.
    induction segs as [|r segs IH]; intros i k acc s Ha Hf Es t Ht; [destruct i; discriminate|].
    apply Forall_cons_iff in Hf as [Hr Hf].
    destruct i as [|i].
    - injection Es as ->. subst t. cbn [firstn map fold_left] in *. cbn [find_segment].
      rewrite Ht, Nat.add_0_r. reflexivity.
    - cbn [firstn map fold_left] in t. cbn [find_segment].
      destruct (fplus_spec acc (seg_time r) Ha Hr) as [Hn _].
      assert (E : nltb t (nadd acc (seg_time r)) = false).
      { apply fold_ge; auto. apply Forall_map.
        apply List.Forall_forall. intros x Hx. rewrite List.Forall_forall in Hf. apply Hf.
        rewrite <- (firstn_skipn i segs). apply in_or_app. now left. }
      rewrite E. subst t. rewrite (IH i (S k) (nadd acc (seg_time r)) s); auto. f_equal. lia.
  Qed.

  Lemma find_segment_end (segs : list (segment b64)) : forall k acc, fnn acc ->
    List.Forall (fun s => fnn (seg_time s)) segs ->
    let t := fold_left nadd (map seg_time segs) acc in
    find_segment segs t k acc = ((k + length segs)%nat, t).
  Proof.
    induction segs as [|r segs IH]; intros k acc Ha Hf t.
    - simpl. now rewrite Nat.add_0_r.
    - apply Forall_cons_iff in Hf as [Hr Hf]. cbn [find_segment map fold_left] in *.
      destruct (fplus_spec acc (seg_time r) Ha Hr) as [Hn _].
      assert (E : nltb t (nadd acc (seg_time r)) = false).
      { apply fold_ge; auto. now apply Forall_map. }
      rewrite E. subst t. rewrite IH by auto. f_equal. simpl. lia.
  Qed.

  Lemma fnn_0 : fnn (@n0 b64 B64_ops).
  Proof. exact I. Qed.

  Lemma partial_S (tr : trajectory b64) i s : nth_error (tr_segments tr) i = Some s ->
    partial_time tr (S i) = nadd (partial_time tr i) (seg_time s).
  Proof.
    intro H. unfold partial_time.
    assert (E : firstn (S i) (tr_segments tr) = firstn i (tr_segments tr) ++ [s]).
    { revert i H. induction (tr_segments tr) as [|r l IH]; intros [|i] H; try discriminate.
      - injection H as ->. reflexivity.
      - change (r :: firstn (S i) l = r :: (firstn i l ++ [s])). f_equal. apply IH. exact H. }
    rewrite E, map_app, fold_left_app. reflexivity.
  Qed.

  Lemma evaluate_boundary (tr : trajectory b64) i s d :
    times_fnn tr -> nth_error (tr_segments tr) i = Some s ->
    nltb (partial_time tr i) (partial_time tr (S i)) = true ->
    traj_evaluate tr (partial_time tr i) d =
    seg_evaluate s (nsub (partial_time tr i) (nsub (partial_time tr (S i)) (seg_time s))) d.
  Proof.
    intros Hf Es Hlt. rewrite (partial_S tr i s Es) in *. unfold traj_evaluate.
    assert (Hi : (i < tr_K tr)%nat) by (apply nth_error_Some; congruence).
    pose proof (find_segment_at (tr_segments tr) i 0 n0 s fnn_0 Hf Es Hlt) as Hfs.
    fold (partial_time tr i) in Hfs. rewrite Hfs. cbn [Nat.add].
    rewrite (b64_ltb_asym _ _ Hlt).
    destruct (Nat.leb_spec (tr_K tr) i); [lia|]. unfold oget. rewrite Es. reflexivity.
  Qed.

  Lemma evaluate_at_max (tr : trajectory b64) s d :
    times_fnn tr -> traj_consistent tr -> nth_error (tr_segments tr) (tr_K tr - 1) = Some s ->
    traj_evaluate tr (tr_max_time tr) d =
    seg_evaluate s (nsub (tr_max_time tr) (nsub (tr_max_time tr) (seg_time s))) d.
  Proof.
    intros Hf [_ Hm] Es. unfold traj_evaluate.
    pose proof (find_segment_end (tr_segments tr) 0 n0 fnn_0 Hf) as Hfs. cbv zeta in Hfs.
    rewrite <- Hm in Hfs. rewrite Hfs. rewrite b64_ltb_irrefl. cbn [Nat.add].
    fold (tr_K tr). rewrite Nat.leb_refl. unfold oget. rewrite Es. reflexivity.
  Qed.
End Double.

Lemma firstn_In {A} (l : list A) i x : In x (firstn i l) -> In x l.
Proof. intro H. rewrite <- (firstn_skipn i l). apply in_or_app. now left. Qed.
Lemma skipn_In {A} (l : list A) i x : In x (skipn i l) -> In x l.
Proof. intro H. rewrite <- (firstn_skipn i l). apply in_or_app. now right. Qed.

(** The times getVertices evaluates at are the partial sums. *)
Lemma boundary_times_partial {T} {ops : NumOps T} (segs : list (segment T)) : forall acc,
  boundary_times segs acc =
  map (fun i => fold_left nadd (map seg_time (firstn (S i) segs)) acc) (seq 0 (length segs)).
Proof.
  induction segs as [|s segs IH]; intro acc; [reflexivity|].
  cbn [boundary_times length seq map]. f_equal. rewrite IH, <- seq_shift, map_map.
  apply map_ext. reflexivity.
Qed.

Lemma evaluate_partial_in_range (tr : trajectory b64) i d :
  times_fnn tr -> (0 < tr_K tr)%nat ->
  exists j s x, nth_error (tr_segments tr) j = Some s /\
    @traj_evaluate b64 B64_ops tr (@partial_time b64 B64_ops tr i) d = @seg_evaluate b64 B64_ops s x d.
Proof.
  intros Hf HK. unfold traj_evaluate. set (t := partial_time tr i).
  pose proof (@find_segment_last b64 B64_ops (tr_segments tr) t 0 (@n0 b64 B64_ops)) as H.
  destruct (find_segment (tr_segments tr) t 0 n0) as [j a].
  assert (Hp : forall l, (forall x, In x l -> In x (tr_segments tr)) -> List.Forall fnn (map seg_time l)).
  { intros l Hl. apply Forall_map, List.Forall_forall. intros x Hx.
    unfold times_fnn in Hf. rewrite List.Forall_forall in Hf. auto. }
  assert (Ha : @nltb b64 B64_ops a t = false).
  { destruct H as [[H _]|[_ H]]; [now apply b64_ltb_asym|].
    rewrite <- (firstn_skipn i (tr_segments tr)), map_app, fold_left_app in H. rewrite H.
    apply fold_ge.
    - apply fold_fnn; [exact fnn_0|]. apply Hp. apply firstn_In.
    - apply Hp. apply skipn_In. }
  rewrite Ha.
  set (i' := if Nat.leb (tr_K tr) j then (tr_K tr - 1)%nat else j).
  assert (Hi : (i' < length (tr_segments tr))%nat).
  { subst i'. unfold tr_K in *. destruct (Nat.leb_spec (length (tr_segments tr)) j); lia. }
  destruct (nth_error (tr_segments tr) i') as [s|] eqn:Es.
  2:{ apply nth_error_None in Es. lia. }
  exists i', s. eexists. split; [exact Es|]. unfold oget. rewrite Es. cbn [obind]. reflexivity.
Qed.
