(** C91: the candidates for the maximum of a magnitude found by sampling. *)
From Coq Require Import ZArith Reals List Bool Lia Lra Sorted.
From Verif Require Import Num RSum ModelPolynomial ModelSegment ModelVertex ModelTrajectory ModelLinear ModelExtra
  SpecPoly SpecSegment SpecTrajectory ProofPolynomial ProofSegment ProofTrajectory ProofLinear6.
Import ListNotations.
Open Scope R_scope.

(** The magnitude of the d-th derivative of a segment at t. *)
Definition magnitude (s : segment R) (d : nat) (t : R) : R := seg_norm s (map Z.of_nat (seq 0 (seg_D s))) d t.
(** Of three consecutive samples the middle one is an extremum (equal neighbours
    count as rising). *)
Definition turns (g : R -> R) (a b c : R) : Prop := (g b < g a /\ g b <= g c) \/ (g a <= g b /\ g c < g b).
(** c is a sample time t_start + k dt inside the interval at which the sampled
    magnitude turns and the next derivative is small.  The sample after the last
    one on the grid is t_stop. *)
Definition sampled_turn (s : segment R) (d : nat) (t_start t_stop dt c : R) : Prop :=
  exists k : nat, (1 <= k)%nat /\ c = t_start + INR k * dt /\ c < t_stop /\ t_start + 2 * dt <= t_stop /\
    turns (magnitude s d) (c - dt) c (Rmin (c + dt) t_stop) /\ magnitude s (S d) c < 1 / 100.

Section Loop.
  Variables (s : segment R) (d : nat) (a b dt : R).
  Hypothesis Hw : seg_wf s.
  Hypothesis HN : (seg_N s <= 22)%nat.
  Hypothesis Hdt : 0 < dt.
  Let x (k : nat) : R := a + INR k * dt.
  Let g := magnitude s d.
  Let dir (k : nat) : R := g (x k) - g (x (k - 1)).
  Let tb (k : nat) : bool :=
    xorb (Rltb (g (x k) - g (x (k - 1))) 0) (Rltb (g (Rmin (x (S k)) b) - g (x k)) 0)
    && Rltb (magnitude s (S d) (x k)) (1 / 100).

  Lemma sampling_step k t t_old v direction last cands : t <= b -> v = g t_old ->
    sampling_loop (S k) (Z.of_nat d) s b dt t t_old v direction last cands =
    let cands' := if xorb (Rltb direction 0) (Rltb (g t - g t_old) 0) && Rltb (magnitude s (S d) t_old) (1 / 100)
                  then cands ++ [t_old] else cands in
    let clip := Rltb b (t + dt) && negb last in
    sampling_loop k (Z.of_nat d) s b dt ((if clip then b - dt else t) + dt) t (g t) (g t - g t_old) (last || clip) cands'.
  Proof using Hw HN.
    intros Ht ->. cbn [sampling_loop].
    destruct (vec_norm_norm s t d Hw HN) as (u & E & N). destruct (vec_norm_norm s t_old (S d) Hw HN) as (u' & E' & N').
    change (nleb t b) with (Rleb t b). replace (Rleb t b) with true by (symmetry; now apply Rleb_true).
    rewrite E. cbn [obind]. rewrite N.
    replace (Z.of_nat d + 1)%Z with (Z.of_nat (S d)) by lia. rewrite E'. cbn [obind]. rewrite N'.
    replace (nlit 1 100 : R) with (1 / 100) by (unfold nlit; rnum; reflexivity).
    cbn zeta. change (seg_norm s (all_dims_of s) d t) with (g t). change (seg_norm s (all_dims_of s) (S d) t_old) with (magnitude s (S d) t_old).
    rnum. destruct (xorb _ _); cbn [andb obind]; [|reflexivity]. destruct (Rltb (magnitude s (S d) t_old) (1 / 100)); reflexivity.
  Qed.

  Lemma sampling_stop k t t_old v direction last cands : b < t ->
    sampling_loop (S k) (Z.of_nat d) s b dt t t_old v direction last cands = Ok (Some cands).
  Proof using.
    intros Ht. cbn [sampling_loop]. change (nleb t b) with (Rleb t b).
    replace (Rleb t b) with false by (symmetry; now apply Rleb_false). reflexivity.
  Qed.

  Lemma x_S k : x (S k) = x k + dt.
  Proof using. unfold x. rewrite S_INR. ring. Qed.
  Lemma x_le i j : (i <= j)%nat -> x i <= x j.
  Proof using Hdt. clear Hw HN. intros Hij. unfold x. apply le_INR in Hij. nra. Qed.
  Lemma x_lt i j : (i < j)%nat -> x i < x j.
  Proof using Hdt. clear Hw HN. intros Hij. unfold x. apply lt_INR in Hij. nra. Qed.

  Lemma sampling_loop_R m : forall k cands fuel, (1 <= k)%nat -> x (k + m + 1) <= b < x (k + m + 2) -> (m + 3 <= fuel)%nat ->
    sampling_loop fuel (Z.of_nat d) s b dt (x (S k)) (x k) (g (x k)) (dir k) false cands =
    Ok (Some (cands ++ map x (filter tb (seq k (m + 2))))).
  Proof using Hw HN Hdt.
    induction m as [|m IH]; intros k cands fuel Hk Hb Hf.
    - destruct fuel as [|[|[|fuel]]]; [lia|lia|lia|].
      replace (k + 0 + 1)%nat with (S k) in Hb by lia. replace (k + 0 + 2)%nat with (S (S k)) in Hb by lia.
      rewrite sampling_step by (auto; apply Hb). cbn zeta.
      replace (Rltb b (x (S k) + dt)) with true by (symmetry; apply Rltb_true; rewrite <- x_S; apply Hb).
      cbn [negb andb orb]. replace (b - dt + dt) with b by ring.
      rewrite sampling_step by (auto; lra). cbn zeta. cbn [negb orb]. rewrite andb_false_r.
      rewrite sampling_stop by lra. f_equal. f_equal.
      cbn [seq Nat.add filter].
      assert (E1 : tb k = xorb (Rltb (dir k) 0) (Rltb (g (x (S k)) - g (x k)) 0) && Rltb (magnitude s (S d) (x k)) (1 / 100)).
      { unfold tb. rewrite Rmin_left by apply Hb. reflexivity. }
      assert (E2 : tb (S k) = xorb (Rltb (g (x (S k)) - g (x k)) 0) (Rltb (g b - g (x (S k))) 0) && Rltb (magnitude s (S d) (x (S k))) (1 / 100)).
      { unfold tb. rewrite Rmin_right by lra. replace (S k - 1)%nat with k by lia. reflexivity. }
      rewrite <- E1, <- E2. destruct (tb k), (tb (S k)); cbn [map]; rewrite ?app_nil_r, <- ?app_assoc; reflexivity.
    - destruct fuel as [|fuel]; [lia|].
      assert (L : x (S (S k)) <= x (k + S m + 1)) by (apply x_le; lia).
      assert (L' : x (S k) <= x (S (S k))) by (apply x_le; lia).
      rewrite sampling_step by (auto; lra). cbn zeta.
      replace (Rltb b (x (S k) + dt)) with false by (symmetry; apply Rltb_false; rewrite <- x_S; lra).
      cbn [negb andb orb]. rewrite <- x_S.
      replace (g (x (S k)) - g (x k)) with (dir (S k)) by (unfold dir; replace (S k - 1)%nat with k by lia; reflexivity).
      rewrite IH; [|lia| |lia].
      2:{ replace (S k + m + 1)%nat with (k + S m + 1)%nat by lia. replace (S k + m + 2)%nat with (k + S m + 2)%nat by lia. exact Hb. }
      f_equal. f_equal. replace (S m + 2)%nat with (S (m + 2)) by lia. cbn [seq filter].
      assert (E1 : tb k = xorb (Rltb (dir k) 0) (Rltb (dir (S k)) 0) && Rltb (magnitude s (S d) (x k)) (1 / 100)).
      { unfold tb. rewrite Rmin_left by lra. unfold dir. replace (S k - 1)%nat with k by lia. reflexivity. }
      rewrite <- E1. destruct (tb k); cbn [map]; rewrite <- ?app_assoc; reflexivity.
  Qed.

  Lemma tb_turn k : (1 <= k)%nat ->
    (tb k = true <-> turns g (x k - dt) (x k) (Rmin (x k + dt) b) /\ magnitude s (S d) (x k) < 1 / 100).
  Proof using.
    clear Hw HN Hdt. intros Hk. unfold tb. rewrite andb_true_iff, Rltb_true.
    replace (x (k - 1)) with (x k - dt) by (unfold x; rewrite minus_INR by lia; cbn [INR]; ring).
    rewrite x_S. unfold turns.
    destruct (Rltb_spec (g (x k) - g (x k - dt)) 0), (Rltb_spec (g (Rmin (x k + dt) b) - g (x k)) 0); cbn [xorb];
      intuition (try discriminate; lra).
  Qed.

  Lemma sorted_grid l : StronglySorted lt l -> StronglySorted Rlt (map x l).
  Proof using Hdt.
    clear Hw HN. induction 1 as [|k l Hs IH Hf]; cbn [map]; constructor; [exact IH|].
    rewrite Forall_forall in *. intros y Hy. apply in_map_iff in Hy as (j & <- & Hj). apply x_lt, Hf, Hj.
  Qed.
End Loop.

Lemma sorted_seq n : forall k, StronglySorted lt (seq k n).
Proof.
  induction n as [|n IH]; intros k; cbn [seq]; constructor; [apply IH|]. rewrite Forall_forall. intros j Hj. apply in_seq in Hj. lia.
Qed.
Lemma sorted_filter {A} (R : A -> A -> Prop) (f : A -> bool) l : StronglySorted R l -> StronglySorted R (filter f l).
Proof.
  induction 1 as [|k l Hs IH Hf]; cbn [filter]; [constructor|]. destruct (f k); [|exact IH]. constructor; [exact IH|].
  rewrite Forall_forall in *. intros y Hy. apply filter_In in Hy as (Hy & _). auto.
Qed.
Lemma sorted_snoc l b : StronglySorted Rlt l -> (forall c, In c l -> c < b) -> StronglySorted Rlt (l ++ [b]).
Proof.
  induction 1 as [|k l Hs IH Hf]; intros Hb; cbn [app]; constructor.
  - constructor.
  - constructor.
  - apply IH. intros c Hc. apply Hb. now right.
  - rewrite Forall_forall in *. intros y Hy. apply in_app_iff in Hy as [Hy|[<-|[]]]; [auto|]. apply Hb. now left.
Qed.
Lemma sorted_last l : StronglySorted Rlt l -> forall c, In c l -> c <= last l 0.
Proof.
  induction 1 as [|k l Hs IH Hf]; [intros c []|]. intros c Hc. destruct l as [|k' l].
  - destruct Hc as [<-|[]]. cbn. lra.
  - change (last (k :: k' :: l) 0) with (last (k' :: l) 0). destruct Hc as [<-|Hc]; [|now apply IH].
    assert (L := IH k' (or_introl eq_refl)). rewrite Forall_forall in Hf. specialize (Hf k' (or_introl eq_refl)). lra.
Qed.

(** C91.  For a positive sampling interval the loop ends.  The candidates start
    with t_start, end with t_stop, increase, and the ones between are exactly the
    sample times at which the sampled magnitude turns and the next derivative is
    below 0.01; the content of the caller's vector is kept in front. *)
Theorem C91_candidates (s : segment R) (d : nat) (t_start t_stop dt : R) (old : list R) :
  seg_wf s -> (seg_N s <= 22)%nat -> 0 < dt -> t_start <= t_stop ->
  exists (n : nat) (cs : list R),
    (forall fuel, (n <= fuel)%nat -> opt_candidatesBySampling fuel (Z.of_nat d) s t_start t_stop dt old = Ok (Some (old ++ cs))) /\
    hd 0 cs = t_start /\ last cs 0 = t_stop /\ StronglySorted Rlt cs /\
    forall c, In c cs <-> c = t_start \/ c = t_stop \/ sampled_turn s d t_start t_stop dt c.
Proof.
  intros Hw HN Hdt Hab.
  set (x := fun k : nat => t_start + INR k * dt). set (g := magnitude s d).
  set (tb := fun k => xorb (Rltb (g (x k) - g (x (k - 1)%nat)) 0) (Rltb (g (Rmin (x (S k)) t_stop) - g (x k)) 0)
                      && Rltb (magnitude s (S d) (x k)) (1 / 100)).
  (* the loop *)
  assert (L : exists n M, (forall fuel, (n <= fuel)%nat ->
              sampling_loop fuel (Z.of_nat d) s t_stop dt (t_start + dt + dt) (t_start + dt) (g (t_start + dt))
                (g (t_start + dt) - g t_start) false (old ++ [t_start]) =
              Ok (Some (old ++ t_start :: map x (filter tb (seq 1 M))))) /\
            (forall k, (1 <= k <= M)%nat -> x k <= t_stop) /\
            (forall k, (1 <= k)%nat -> x k < t_stop -> t_start + 2 * dt <= t_stop -> (k <= M)%nat) /\
            (t_stop < t_start + 2 * dt -> M = 0%nat)).
  { destruct (Rle_lt_dec (t_start + 2 * dt) t_stop) as [H2|H2].
    - assert (Hm : exists m, x (1 + m + 1)%nat <= t_stop < x (1 + m + 2)%nat).
      { assert (Hq : 0 <= (t_stop - t_start - 2 * dt) / dt) by (apply Rmult_le_pos; [lra|left; now apply Rinv_0_lt_compat]).
        destruct (archimed ((t_stop - t_start - 2 * dt) / dt)) as [A1 A2].
        set (z := up ((t_stop - t_start - 2 * dt) / dt)) in *.
        assert (Hz : (1 <= z)%Z) by (assert (IZR 0 < IZR z) by lra; apply lt_IZR in H; lia).
        exists (Z.to_nat (z - 1)).
        assert (E : INR (Z.to_nat (z - 1)) = IZR z - 1) by (rewrite INR_IZR_INZ, Z2Nat.id by lia; rewrite minus_IZR; reflexivity).
        unfold x. rewrite !plus_INR, E. cbn [INR].
        assert (Eq : (t_stop - t_start - 2 * dt) / dt * dt = t_stop - t_start - 2 * dt) by (field; lra).
        split; nra. }
      destruct Hm as (m & Hm). exists (m + 3)%nat, (m + 2)%nat. split; [|split; [|split]].
      + intros fuel Hf. assert (E := sampling_loop_R s d t_start t_stop dt Hw HN Hdt m 1 (old ++ [t_start]) fuel (le_n 1) Hm Hf).
        cbn zeta in E. rewrite <- app_assoc in E. cbn [app] in E.
        replace (t_start + dt) with (t_start + INR 1 * dt) by (cbn [INR]; ring).
        replace (t_start + INR 1 * dt + dt) with (t_start + INR 2 * dt) by (cbn [INR]; ring).
        replace (g t_start) with (g (t_start + INR (1 - 1) * dt)) by (f_equal; cbn [Nat.sub INR]; ring).
        exact E.
      + intros k Hk. apply Rle_trans with (x (1 + m + 1)%nat); [|apply Hm]. apply (x_le t_start dt Hdt). lia.
      + intros k Hk Hx _. apply Nat.nlt_ge. intros C. assert (Q := x_le t_start dt Hdt (1 + m + 2) k ltac:(lia)). unfold x in *. lra.
      + lra.
    - exists 1%nat, 0%nat. split; [|split; [|split]].
      + intros fuel Hf. destruct fuel as [|fuel]; [lia|]. rewrite sampling_stop by lra. reflexivity.
      + intros k Hk. lia.
      + intros k _ _ C. lra.
      + reflexivity. }
  destruct L as (n & M & L & HM1 & HM2 & HM3).
  set (l := t_start :: map x (filter tb (seq 1 M))) in *.
  assert (Sl : StronglySorted Rlt l).
  { unfold l. replace t_start with (x 0%nat) at 1 by (unfold x; cbn [INR]; ring).
    change (StronglySorted Rlt (map x (0%nat :: filter tb (seq 1 M)))). apply (sorted_grid t_start dt Hdt).
    constructor; [apply sorted_filter, sorted_seq|]. rewrite Forall_forall. intros j Hj. apply filter_In in Hj as (Hj & _).
    apply in_seq in Hj. lia. }
  assert (Il : forall c, In c l <-> c = t_start \/ exists k, (1 <= k <= M)%nat /\ c = x k /\ tb k = true).
  { intros c. unfold l. cbn [In]. rewrite in_map_iff. split.
    - intros [<-|(k & <- & Hk)]; [now left|]. apply filter_In in Hk as (Hk & Ht). apply in_seq in Hk. right. exists k.
      split; [lia|auto].
    - intros [->|(k & Hk & -> & Ht)]; [now left|]. right. exists k. split; [reflexivity|]. apply filter_In.
      split; [apply in_seq; lia|exact Ht]. }
  assert (Bl : forall c, In c l -> c <= t_stop).
  { intros c Hc. apply Il in Hc as [->|(k & Hk & -> & _)]; [exact Hab|now apply HM1]. }
  exists n, (if Reqb (last l 0) t_stop then l else l ++ [t_stop]).
  assert (Hl : last (old ++ l) 0 = last l 0).
  { unfold l. clear. induction old as [|o old IH]; [reflexivity|]. cbn [app]. rewrite <- IH.
    destruct (old ++ t_start :: map x (filter tb (seq 1 M))) eqn:E; [destruct old; discriminate|reflexivity]. }
  split; [|split; [|split; [|split]]].
  - intros fuel Hf. unfold opt_candidatesBySampling.
    destruct (vec_norm_norm s (t_start + dt) d Hw HN) as (u & E & N). destruct (vec_norm_norm s t_start d Hw HN) as (u' & E' & N').
    rnum. rewrite E. cbn [obind]. rewrite E'. cbn [obind]. cbn zeta. rewrite N, N'.
    fold (magnitude s d (t_start + dt)). fold (magnitude s d t_start). fold g. rewrite L by exact Hf. cbn [obind].
    change (n0 : R) with 0. rewrite Hl. destruct (Reqb (last l 0) t_stop); [reflexivity|]. now rewrite <- app_assoc.
  - destruct (Reqb (last l 0) t_stop); reflexivity.
  - destruct (Reqb_spec (last l 0) t_stop) as [E|E]; [exact E|apply last_last].
  - destruct (Reqb_spec (last l 0) t_stop) as [E|E]; [exact Sl|]. apply sorted_snoc; [exact Sl|]. intros c Hc.
    assert (Q := sorted_last l Sl c Hc). assert (B : last l 0 <= t_stop).
    { apply Bl. unfold l. destruct (exists_last (l := l) ltac:(discriminate)) as (l' & z & El). fold l. rewrite El, last_last. apply in_app_iff. right. now left. }
    lra.
  - intros c.
    assert (Ic : In c (if Reqb (last l 0) t_stop then l else l ++ [t_stop]) <-> In c l \/ c = t_stop).
    { destruct (Reqb_spec (last l 0) t_stop) as [E|E].
      - split; [auto|]. intros [Hc| ->]; [exact Hc|]. rewrite <- E.
        destruct (exists_last (l := l) ltac:(discriminate)) as (l' & z & El). rewrite El, last_last. apply in_app_iff. right. now left.
      - rewrite in_app_iff. cbn [In]. intuition. }
    rewrite Ic, Il. split.
    + intros [[->|(k & Hk & -> & Ht)]| ->]; [now left| |right; now left].
      destruct (Rle_lt_or_eq_dec _ _ (HM1 k Hk)) as [Hx|Hx]; [|right; left; exact Hx].
      right. right. exists k. split; [lia|]. split; [reflexivity|]. split; [exact Hx|].
      assert (H2 : t_start + 2 * dt <= t_stop) by (apply Rnot_lt_le; intros C; specialize (HM3 C); lia).
      split; [exact H2|]. apply (tb_turn s d t_start t_stop dt k ltac:(lia)). exact Ht.
    + intros [->|[->|(k & Hk & -> & Hx & H2 & Ht)]]; [left; now left|now right|].
      left. right. exists k. split; [split; [exact Hk|apply HM2; auto]|]. split; [reflexivity|].
      apply (tb_turn s d t_start t_stop dt k Hk). exact Ht.
Qed.
Print Assumptions C91_candidates.

(** The bound on the iterations is only a device: a larger one gives the same result. *)
Lemma sampling_loop_more {T} `{NumOps T} d (s : segment T) b dt m : forall fuel t t_old v dir last cands r,
  sampling_loop fuel d s b dt t t_old v dir last cands = Ok (Some r) ->
  sampling_loop (fuel + m) d s b dt t t_old v dir last cands = Ok (Some r).
Proof.
  induction fuel as [|fuel IH]; intros t t_old v dir last cands r E; [discriminate|].
  cbn [sampling_loop Nat.add] in *. destruct (nleb t b); [|exact E].
  destruct (seg_evaluate s t d) as [u| | |]; cbn [obind] in *; try discriminate.
  match type of E with obind ?X _ = _ => destruct X as [u'| | |]; cbn [obind] in *; try discriminate end.
  apply IH. exact E.
Qed.
Lemma candidates_more {T} `{NumOps T} d (s : segment T) a b dt old fuel m r :
  opt_candidatesBySampling fuel d s a b dt old = Ok (Some r) ->
  opt_candidatesBySampling (fuel + m) d s a b dt old = Ok (Some r).
Proof.
  unfold opt_candidatesBySampling. intros E.
  destruct (seg_evaluate s _ d) as [u| | |]; cbn [obind] in *; try discriminate.
  destruct (seg_evaluate s a d) as [u'| | |]; cbn [obind] in *; try discriminate.
  match type of E with obind ?X _ = _ => destruct X as [[l|]| | |] eqn:El; cbn [obind] in *; try discriminate end.
  rewrite (sampling_loop_more _ _ _ _ m _ _ _ _ _ _ _ _ El). cbn [obind]. exact E.
Qed.

(** A segment with the position p(t) of one coordinate. *)
Lemma magnitude_1 p T d t : magnitude (mkSegment (length p) [p] T) d t = Rabs (dpoly p d t).
Proof.
  unfold magnitude, seg_norm. cbn [seg_D seg_polys length seq map lsum]. rewrite seg_fun_dpoly. cbn [Z.of_nat Z.to_nat nth seg_polys].
  rewrite <- sqrt_Rsqr_abs. f_equal. unfold Rsqr. ring.
Qed.
Lemma parabola_value c K d t : dpoly [0; K * c; - K] d t =
  match d with 0%nat => K * t * (c - t) | 1%nat => K * (c - 2 * t) | _ => dpoly [0; K * c; - K] d t end.
Proof. destruct d as [|[|d]]; [| |reflexivity]; unfold dpoly; cbn; unfold bc; cbn; ring. Qed.

(** Position 2 t - t^2 on [0, 2] sampled every 0.5 s: the maximum at 1 s is a
    sample, so it is found. *)
Definition hill : segment R := mkSegment 3 [[0; 1 * 2; - 1]] 2.
Lemma hill_magnitude t : magnitude hill 0 t = Rabs (t * (2 - t)).
Proof. unfold hill. change 3%nat with (length [0; 1 * 2; - 1]). rewrite magnitude_1, parabola_value. f_equal. ring. Qed.
Example C91_candidates_example :
  seg_wf hill /\ (seg_N hill <= 22)%nat /\ 0 < 1 / 2 /\ 0 <= 2 /\ sampled_turn hill 0 0 2 (1 / 2) 1 /\ ~ sampled_turn hill 0 0 2 (1 / 2) (3 / 2).
Proof.
  split; [repeat constructor|]. split; [cbn; lia|]. split; [lra|]. split; [lra|].
  assert (V : forall t, 0 <= t <= 2 -> magnitude hill 0 t = t * (2 - t)).
  { intros t Ht. rewrite hill_magnitude. apply Rabs_pos_eq. apply Rmult_le_pos; lra. }
  split.
  - exists 2%nat. split; [lia|]. split; [cbn [INR]; lra|]. split; [lra|]. split; [lra|]. split.
    + right. rewrite Rmin_left by lra. rewrite !V by lra. lra.
    + unfold hill. change 3%nat with (length [0; 1 * 2; - 1]). rewrite magnitude_1, parabola_value.
      replace (1 * (2 - 2 * 1)) with 0 by ring. rewrite Rabs_R0. lra.
  - intros (k & _ & _ & _ & _ & T & _). rewrite Rmin_left in T by lra. destruct T as [(T1 & T2)|(T1 & T2)];
      rewrite !V in * by lra; lra.
Qed.

(** The sampled candidates need not contain the maximum: however small the
    sampling interval and however large M, there is a motion whose magnitude
    exceeds M while it is zero at every candidate. *)
Theorem C91_maximum_missed (dt M : R) : 0 < dt -> 0 < M ->
  exists s : segment R, seg_wf s /\ (seg_N s <= 22)%nat /\ seg_time s = 5 * dt /\
    (exists t, 0 <= t <= seg_time s /\ M < magnitude s 0 t) /\
    forall fuel cs, opt_candidatesBySampling fuel 0 s 0 (seg_time s) dt [] = Ok (Some cs) ->
      cs = [0; seg_time s] /\ forall c, In c cs -> magnitude s 0 c = 0.
Proof.
  intros Hdt HM. set (K := M / (dt * dt) + 1 / dt).
  assert (HK : K * dt * dt = M + dt) by (unfold K; field; lra).
  assert (HK0 : 0 < K). { unfold K. apply Rplus_lt_0_compat; apply Rdiv_lt_0_compat; nra. }
  assert (HK1 : 1 <= K * dt). { unfold K. replace ((M / (dt * dt) + 1 / dt) * dt) with (M / dt + 1) by (field; lra). assert (0 < M / dt) by now apply Rdiv_lt_0_compat. lra. }
  exists (mkSegment 3 [[0; K * (5 * dt); - K]] (5 * dt)). set (s := mkSegment 3 _ _).
  assert (W : seg_wf s) by repeat constructor. assert (HN : (seg_N s <= 22)%nat) by (cbn; lia).
  assert (V0 : forall t, magnitude s 0 t = Rabs (K * t * (5 * dt - t))).
  { intros t. unfold s. change 3%nat with (length [0; K * (5 * dt); - K]). now rewrite magnitude_1, parabola_value. }
  assert (V1 : forall t, magnitude s 1 t = Rabs (K * (5 * dt - 2 * t))).
  { intros t. unfold s. change 3%nat with (length [0; K * (5 * dt); - K]). now rewrite magnitude_1, parabola_value. }
  split; [exact W|]. split; [exact HN|]. split; [reflexivity|]. cbn [seg_time s]. split.
  - exists (5 / 2 * dt). split; [lra|]. rewrite V0. rewrite Rabs_pos_eq; nra.
  - destruct (C91_candidates s 0 0 (5 * dt) dt [] W HN Hdt ltac:(lra)) as (n & cs & E & H1 & H2 & H3 & H4).
    assert (No : forall c, ~ sampled_turn s 0 0 (5 * dt) dt c).
    { intros c (k & _ & Ec & _ & _ & _ & Sm). rewrite V1 in Sm. rewrite Ec, Rplus_0_l in Sm.
      replace (K * (5 * dt - 2 * (INR k * dt))) with (K * dt * (5 - 2 * INR k)) in Sm by ring.
      rewrite Rabs_mult, (Rabs_pos_eq (K * dt)) in Sm by lra.
      assert (1 <= Rabs (5 - 2 * INR k)).
      { rewrite INR_IZR_INZ, <- mult_IZR, <- minus_IZR, <- abs_IZR. apply IZR_le. lia. }
      nra. }
    assert (Ecs : cs = [0; 5 * dt]).
    { assert (I : forall c, In c cs <-> c = 0 \/ c = 5 * dt) by (intros c; rewrite H4; specialize (No c); tauto).
      destruct cs as [|c0 [|c1 [|c2 cs]]]; cbn [hd] in H1.
      - destruct (proj2 (I 0)); auto.
      - cbn [last] in H2. lra.
      - cbn [last] in H2. now rewrite H1, H2.
      - exfalso. inversion H3 as [|? ? S1 F1]; subst. inversion S1 as [|? ? S2 F2]; subst.
        apply Forall_inv in F1 as L1. apply Forall_inv in F2 as L2.
        destruct (proj1 (I c1)) as [->| ->]; [cbn; auto| |]; [lra|].
        destruct (proj1 (I c2)) as [->| ->]; [cbn; auto| |]; lra. }
    intros fuel cs' E'.
    assert (Em : forall f r, opt_candidatesBySampling f 0 s 0 (5 * dt) dt [] = Ok (Some r) -> r = cs).
    { intros f r Er. apply (candidates_more _ _ _ _ _ _ _ n) in Er. assert (Q := E (f + n)%nat ltac:(lia)). cbn [Z.of_nat] in Q. rewrite Q in Er.
      apply Ok_inj in Er. apply Some_inj in Er. symmetry. exact Er. }
    rewrite (Em fuel cs' E'), Ecs. split; [reflexivity|]. intros c [<-|[<-|[]]]; rewrite V0; [replace (K * 0 * (5 * dt - 0)) with 0 by ring|replace (K * (5 * dt) * (5 * dt - 5 * dt)) with 0 by ring]; apply Rabs_R0.
Qed.
Print Assumptions C91_maximum_missed.

(** So the claim that one of the candidates attains the maximum is false. *)
Theorem C91_maximum_refuted :
  exists (s : segment R) (dt : R) (cs : list R), seg_wf s /\ (seg_N s <= 22)%nat /\ 0 < dt /\
    (exists fuel, opt_candidatesBySampling fuel 0 s 0 (seg_time s) dt [] = Ok (Some cs)) /\
    exists t, 0 <= t <= seg_time s /\ forall c, In c cs -> magnitude s 0 c < magnitude s 0 t.
Proof.
  destruct (C91_maximum_missed (1 / 100) 1000 ltac:(lra) ltac:(lra)) as (s & W & HN & Et & (t & Ht & Hm) & H).
  destruct (C91_candidates s 0 0 (seg_time s) (1 / 100) [] W HN ltac:(lra) ltac:(lra)) as (n & cs & E & _).
  exists s, (1 / 100), cs. split; [exact W|]. split; [exact HN|]. split; [lra|]. split; [exists n; apply E; lia|].
  exists t. split; [exact Ht|]. intros c Hc. destruct (H n cs (E n (le_n n))) as (_ & Hz). rewrite (Hz c Hc). lra.
Qed.
Print Assumptions C91_maximum_refuted.

(** A sampling interval that is not positive: no number of iterations is enough. *)
Theorem C91_positive_interval_needed (s : segment R) (d : nat) (t_start t_stop dt : R) (old : list R) (fuel : nat) :
  seg_wf s -> (seg_N s <= 22)%nat -> dt <= 0 -> t_start + 2 * dt <= t_stop ->
  opt_candidatesBySampling fuel (Z.of_nat d) s t_start t_stop dt old = Ok None.
Proof.
  intros Hw HN Hdt Hab.
  assert (L : forall fuel t t_old v dir last cands, t <= t_stop -> v = magnitude s d t_old ->
            sampling_loop fuel (Z.of_nat d) s t_stop dt t t_old v dir last cands = Ok None).
  { clear fuel. induction fuel as [|fuel IH]; intros t t_old v dir last cands Ht Hv; [reflexivity|].
    rewrite (sampling_step s d t_stop dt Hw HN) by assumption. cbn zeta.
    replace (Rltb t_stop (t + dt)) with false by (symmetry; apply Rltb_false; lra). cbn [andb].
    apply IH; [lra|reflexivity]. }
  unfold opt_candidatesBySampling.
  destruct (vec_norm_norm s (t_start + dt) d Hw HN) as (u & E & N). destruct (vec_norm_norm s t_start d Hw HN) as (u' & E' & N').
  rnum. rewrite E. cbn [obind]. rewrite E'. cbn [obind]. cbn zeta. rewrite L; [reflexivity|lra|exact N].
Qed.
Print Assumptions C91_positive_interval_needed.
Example C91_positive_interval_needed_example : seg_wf hill /\ (seg_N hill <= 22)%nat /\ 0 <= 0 /\ 0 + 2 * 0 <= 2.
Proof. split; [repeat constructor|]. split; [cbn; lia|]. lra. Qed.
