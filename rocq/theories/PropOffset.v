(** C101: offsetTrajectory moves the whole path; C30: the random vertices are the
    result of rejection sampling. *)
From Coq Require Import ZArith Reals List Bool Lia Lra.
From Coquelicot Require Import Coquelicot.
From Verif Require Import Num RSum ModelPolynomial ModelSegment ModelVertex ModelTrajectory SpecPoly SpecSegment SpecVertex SpecTrajectory
  ProofPolynomial ProofSegment ProofSegment2 ProofVertex ProofVertex2 ProofVertex3 ProofTrajectory ProofTrajectory3 PropTrajectory PropVertex.
Import ListNotations.
Open Scope R_scope.

(** What dimension k is moved by. *)
Definition shift (o : list R) (k : nat) : R := if Nat.ltb k 3 then nth k o 0 else 0.

Lemma offset_segments (o : list R) (D N : nat) : (1 <= N)%nat -> (Nat.min D 3 <= length o)%nat ->
  forall segs, List.Forall (fun s => seg_D s = D /\ seg_N s = N /\ seg_wf s) segs ->
  exists segs', offset_loop segs o = (true, segs') /\
    List.Forall2 (fun s r => seg_D r = D /\ seg_N r = N /\ seg_wf r /\ seg_time r = seg_time s /\
      (forall k t, (k < D)%nat -> seg_fun r k 0 t = seg_fun s k 0 t + shift o k) /\
      (forall k d t, (k < D)%nat -> seg_fun r k (S d) t = seg_fun s k (S d) t)) segs segs'.
Proof.
  intros HN Ho segs H. induction H as [|s segs (HD & Hn & Hw) _ (segs' & E & F)]; [exists []; split; [reflexivity|constructor]|].
  destruct (seg_offset_spec s o Hw ltac:(lia)) as (_ & Hs). destruct (Hs ltac:(rewrite HD; exact Ho)) as (r & Er & R1 & R2 & R3 & R4 & R5 & R6).
  exists (r :: segs'). cbn [offset_loop]. rewrite Er, E. split; [reflexivity|]. constructor; [|exact F].
  rewrite HD in *. split; [congruence|]. split; [congruence|]. split; [exact R4|]. split; [exact R3|]. split; [exact R5|exact R6].
Qed.

(** offsetTrajectory succeeds exactly if the vector has an entry for each of the
    first three dimensions of the trajectory (else nothing changes); then every
    segment keeps its time, the positions of the first three dimensions move by
    the vector, further dimensions and all derivatives stay. *)
Theorem C101_offset (tr : trajectory R) (o : list R) : traj_wf tr -> (1 <= tr_N tr)%nat ->
  ((length o < Nat.min (tr_D tr) 3)%nat -> traj_offset tr o = (false, tr)) /\
  ((Nat.min (tr_D tr) 3 <= length o)%nat -> exists tr', traj_offset tr o = (true, tr') /\ traj_wf tr' /\
     tr_D tr' = tr_D tr /\ tr_N tr' = tr_N tr /\ tr_K tr' = tr_K tr /\ tr_max_time tr' = tr_max_time tr /\
     traj_getSegmentTimes tr' = traj_getSegmentTimes tr /\
     forall i s r, nth_error (tr_segments tr) i = Some s -> nth_error (tr_segments tr') i = Some r ->
       forall k d t, (k < tr_D tr)%nat -> seg_fun r k d t = seg_fun s k d t + (if Nat.eqb d 0 then shift o k else 0)).
Proof.
  intros (Hw & HN) H1. unfold traj_offset. split; intros Ho.
  - destruct (Nat.ltb_spec (length o) (Nat.min (tr_D tr) 3)); [reflexivity|lia].
  - destruct (Nat.ltb_spec (length o) (Nat.min (tr_D tr) 3)); [lia|].
    destruct (offset_segments o (tr_D tr) (tr_N tr) H1 Ho _ Hw) as (segs' & E & F). rewrite E.
    eexists. split; [reflexivity|]. unfold traj_wf, tr_K, traj_getSegmentTimes. cbn [tr_D tr_N tr_segments tr_max_time].
    split; [split; [|exact HN]|]. { clear - F. induction F; constructor; [tauto|assumption]. }
    split; [reflexivity|]. split; [reflexivity|]. split; [clear - F; induction F as [|? ? ? ? _ _ IH]; [reflexivity|cbn [length]; now rewrite IH]|]. split; [reflexivity|].
    split. { clear - F. induction F as [|s r ss rs Hsr _ IH]; [reflexivity|]. cbn [map]. rewrite IH. f_equal. tauto. }
    intros i s r Es Er k d t Hk.
    assert (P : seg_fun r k 0 t = seg_fun s k 0 t + shift o k /\ forall d, seg_fun r k (S d) t = seg_fun s k (S d) t).
    { clear - F Es Er Hk. revert i Es Er. induction F as [|s0 r0 ss rs Hsr _ IH]; intros [|i] Es Er; try discriminate; cbn [nth_error] in *; [|now apply (IH i)].
      injection Es as ->. injection Er as ->. split; [now apply Hsr|]. intros d. now apply Hsr. }
    destruct d as [|d]; cbn [Nat.eqb]; [apply P|]. rewrite (proj2 P). ring.
Qed.
Print Assumptions C101_offset.
(** For any trajectory object and any numbers: success exactly when the offset
    is long enough for the trajectory and each of its segments. *)
Theorem C101_success {T} (ops : NumOps T) (tr : trajectory T) (o : list T) :
  fst (traj_offset tr o) = true <->
  (Nat.min (tr_D tr) 3 <= length o)%nat /\ List.Forall (fun s => (Nat.min (seg_D s) 3 <= length o)%nat) (tr_segments tr).
Proof.
  unfold traj_offset. destruct (Nat.ltb_spec (length o) (Nat.min (tr_D tr) 3)) as [L|L]; [split; [discriminate|lia]|].
  assert (H : fst (offset_loop (tr_segments tr) o) = true <-> List.Forall (fun s => (Nat.min (seg_D s) 3 <= length o)%nat) (tr_segments tr)).
  { induction (tr_segments tr) as [|s l IH]; cbn [offset_loop]; [split; [constructor|reflexivity]|]. unfold seg_offset at 1.
    destruct (Nat.ltb_spec (length o) (Nat.min (seg_D s) 3)) as [M|M]; [split; [discriminate|intros F; inversion F; subst; lia]|].
    destruct (offset_loop l o) as (ok, r) eqn:E. cbn [fst] in *. rewrite IH. split; [now constructor|intros F; now inversion F]. }
  destruct (offset_loop (tr_segments tr) o) as (ok, segs). cbn [fst] in *. rewrite H. tauto.
Qed.
Print Assumptions C101_success.
Example C101_success_example : fst (traj_offset (mkTraj 1 1 [mkSegment 1 [[0]] 1; mkSegment 1 [[0]; [0]] 1] 2) [1]) = false /\
  fst (traj_offset (mkTraj 1 1 [mkSegment 1 [[0]] 1; mkSegment 1 [[0]; [0]] 1] 2) [1; 2]) = true.
Proof. split; reflexivity. Qed.

Lemma find_segment_past (segs : list (segment R)) t : forall i acc, snd (find_segment segs t i acc) < t ->
  snd (find_segment segs t i acc) = fold_left nadd (map seg_time segs) acc.
Proof.
  induction segs as [|s segs IH]; intros i acc H; [reflexivity|]. cbn [find_segment map fold_left] in *.
  destruct (nltb t (nadd acc (seg_time s))) eqn:C; [apply Rltb_true in C; cbn [snd] in H; lra|]. now apply IH.
Qed.

(** Seen through Trajectory::evaluate, at every time up to the end. *)
Theorem C101_evaluate (tr tr' : trajectory R) (o : list R) (t : R) (d : nat) (v : list R) :
  traj_wf tr -> traj_consistent tr -> (1 <= tr_N tr)%nat -> t <= tr_max_time tr ->
  traj_offset tr o = (true, tr') -> traj_evaluate tr t (Z.of_nat d) = Ok v ->
  exists v', traj_evaluate tr' t (Z.of_nat d) = Ok v' /\ length v' = length v /\
    forall k, (k < tr_D tr)%nat -> nth k v' 0 = nth k v 0 + (if Nat.eqb d 0 then shift o k else 0).
Proof.
  intros Hw Hc H1 Ht E Ev. destruct (C101_offset tr o Hw H1) as (HA & HB).
  destruct (Nat.lt_ge_cases (length o) (Nat.min (tr_D tr) 3)) as [Hl|Hl]; [rewrite (HA Hl) in E; discriminate|].
  destruct (HB Hl) as (tr0 & E0 & Hw' & ED & EN & EK & EM & ET & HF). rewrite E0 in E. injection E as ->.
  unfold traj_evaluate in *. rewrite (find_segment_times (tr_segments tr') (tr_segments tr)) by exact ET.
  destruct (find_segment (tr_segments tr) t 0 n0) as [i acc] eqn:Ef. rewrite EK. rewrite ED.
  destruct (nltb acc t) eqn:Ca.
  { exfalso. apply Rltb_true in Ca. assert (Q := find_segment_past (tr_segments tr) t 0 n0). rewrite Ef in Q. cbn [snd] in Q. rewrite (proj2 Hc), <- Q in Ht by exact Ca. lra. }
  set (i' := if Nat.leb (tr_K tr) i then (tr_K tr - 1)%nat else i) in *. unfold oget in *.
  destruct (nth_error (tr_segments tr) i') as [s|] eqn:Es; [|discriminate]. cbn [obind] in Ev.
  destruct (nth_error (tr_segments tr') i') as [r|] eqn:Er.
  2:{ exfalso. apply nth_error_None in Er. assert (i' < length (tr_segments tr))%nat by (apply nth_error_Some; congruence). unfold tr_K in EK. lia. }
  cbn [obind].
  assert (Tr : seg_time r = seg_time s).
  { unfold traj_getSegmentTimes in ET. assert (Q : nth_error (map seg_time (tr_segments tr')) i' = nth_error (map seg_time (tr_segments tr)) i') by now rewrite ET.
    rewrite !nth_error_map, Es, Er in Q. cbn [option_map] in Q. now injection Q. }
  assert (Ws : seg_D s = tr_D tr /\ seg_N s = tr_N tr /\ seg_wf s) by (apply (proj1 (List.Forall_forall _ _) (proj1 Hw)); eapply nth_error_In; exact Es).
  assert (Wr : seg_D r = tr_D tr' /\ seg_N r = tr_N tr' /\ seg_wf r) by (apply (proj1 (List.Forall_forall _ _) (proj1 Hw')); eapply nth_error_In; exact Er).
  assert (N1 := proj2 Hw). assert (N2 := proj2 Hw').
  rewrite seg_evaluate_value in Ev by (try tauto; lia). injection Ev as <-. rewrite Tr, seg_evaluate_value by (try tauto; lia).
  eexists. split; [reflexivity|]. unfold seg_value. rewrite !map_length, !seq_length. split; [destruct Ws, Wr; congruence|].
  intros k Hk. rewrite !nth_map_seq by (destruct Ws, Wr; lia). now apply (HF i').
Qed.
Print Assumptions C101_evaluate.

Example C101_example : exists tr' v, traj_wf ex_tr /\ traj_consistent ex_tr /\ (1 <= tr_N ex_tr)%nat /\ (Nat.min (tr_D ex_tr) 3 <= length [7; 8])%nat /\
  (length [7] < Nat.min (tr_D ex_tr) 3)%nat /\ 3 / 2 <= tr_max_time ex_tr /\ traj_offset ex_tr [7; 8] = (true, tr') /\ traj_evaluate ex_tr (3 / 2) (Z.of_nat 0) = Ok v.
Proof.
  destruct (C101_offset ex_tr [7; 8] ex_wf ltac:(cbv; lia)) as (_ & H). destruct (H ltac:(cbv; lia)) as (tr' & E & _).
  destruct (evaluate_shape ex_tr (3 / 2)) as [(j & x & Hj & Q)|[Q|(Q & _)]]; [|specialize (Q ex_tr eq_refl (Z.of_nat 0)); exists tr', (repeat 0 (tr_D ex_tr))|cbv in Q; lia].
  - specialize (Q ex_tr eq_refl (Z.of_nat 0)). assert (W : seg_wf (seg_at ex_tr j) /\ (seg_N (seg_at ex_tr j) <= 22)%nat).
    { destruct j as [|[|j]]; [split; [repeat constructor|cbv; lia]..|cbv in Hj; lia]. }
    rewrite seg_evaluate_value in Q by apply W. exists tr', (seg_value (seg_at ex_tr j) x 0).
    split; [exact ex_wf|]. split; [exact ex_consistent|]. split; [cbv; lia|]. split; [cbv; lia|]. split; [cbv; lia|]. split; [cbn; lra|]. split; [exact E|exact Q].
  - split; [exact ex_wf|]. split; [exact ex_consistent|]. split; [cbv; lia|]. split; [cbv; lia|]. split; [cbv; lia|]. split; [cbn; lra|]. split; [exact E|exact Q].
Qed.

(** ** C30: rejection sampling *)
(** The q-th candidate position: the numbers q D, ..., q D + D - 1 of the random source. *)
Definition candidate (draw : nat -> R -> R -> R) (lo hi : list R) (q : nat) : list R :=
  map (fun j => draw (q * length lo + j)%nat (nth j lo 0) (nth j hi 0)) (seq 0 (length lo)).
(** [accepted draw lo hi c p ps]: starting with candidate c, each position of ps is
    the first candidate after the previous position that is more than 0.2 away from it. *)
Inductive accepted (draw : nat -> R -> R -> R) (lo hi : list R) : nat -> list R -> list (list R) -> Prop :=
| accepted_nil c p : accepted draw lo hi c p []
| accepted_cons c p m ps : (c <= m)%nat ->
    (forall q, (c <= q < m)%nat -> SpecVertex.dist p (candidate draw lo hi q) <= 1/5) ->
    1/5 < SpecVertex.dist p (candidate draw lo hi m) ->
    accepted draw lo hi (S m) (candidate draw lo hi m) ps ->
    accepted draw lo hi c p (candidate draw lo hi m :: ps).

Lemma draw_far_first draw lo hi last fuel : forall c n' pos,
  draw_far draw fuel (c * length lo) lo hi last = Some (n', pos) ->
  exists m, (c <= m)%nat /\ n' = (S m * length lo)%nat /\ pos = candidate draw lo hi m /\
    (forall q, (c <= q < m)%nat -> SpecVertex.dist last (candidate draw lo hi q) <= 1/5) /\ 1/5 < SpecVertex.dist last pos.
Proof.
  induction fuel as [|fuel IH]; intros c n' pos E; [discriminate|]. cbn [draw_far] in E. rewrite vec_norm_dist in E.
  change (draw_vector draw (c * length lo) lo hi) with (candidate draw lo hi c) in E.
  destruct (nltb _ _) eqn:El; unfold nlit in El; rnum.
  - injection E as <- <-. apply Rltb_true in El. exists c. split; [lia|]. split; [lia|]. split; [reflexivity|]. split; [intros q Hq; lia|]. rewrite dist_sym. lra.
  - apply Rltb_false in El. replace (c * length lo + length lo)%nat with (S c * length lo)%nat in E by lia.
    destruct (IH _ _ _ E) as (m & H1 & H2 & H3 & H4 & H5). exists m. split; [lia|]. split; [exact H2|]. split; [exact H3|]. split; [|exact H5].
    intros q Hq. destruct (Nat.eq_dec q c) as [->|]; [rewrite dist_sym; lra|apply H4; lia].
Qed.
Lemma random_loop_accepted draw fuel lo hi k : forall c last vs last',
  random_loop draw fuel (c * length lo) k lo hi last = Ok (Some (vs, last')) ->
  length vs = k /\ accepted draw lo hi c last (map pos_of vs) /\ last' = List.last (map pos_of vs) last /\
  List.Forall (fun v => vertex_wf v /\ v_D v = length lo /\ length (pos_of v) = length lo) vs.
Proof.
  induction k as [|k IH]; intros c last vs last' E; cbn [random_loop] in E; [injection E as <- <-; repeat split; constructor|].
  destruct (draw_far draw fuel (c * length lo) lo hi last) as [[n' pos]|] eqn:Ef; [|discriminate].
  destruct (draw_far_first _ _ _ _ _ _ _ _ Ef) as (m & M1 & -> & -> & M4 & M5).
  assert (Lp : length (candidate draw lo hi m) = length lo) by (unfold candidate; now rewrite map_length, seq_length).
  destruct (vertex_add_ok (vertex_new (length lo)) kPosition (candidate draw lo hi m) Lp) as [v Ev]. rewrite Ev in E. cbn [obind] in E.
  destruct (random_loop draw fuel (S m * length lo) k lo hi (candidate draw lo hi m)) as [[[vs1 l1]|]| | |] eqn:Er; try discriminate.
  cbn [obind] in E. injection E as <- <-. destruct (IH _ _ _ _ Er) as (I1 & I2 & I3 & I4).
  destruct (vertex_add_wf _ _ _ _ (vertex_new_wf (length lo)) Ev) as (W & DD & _ & G).
  assert (Pv : pos_of v = candidate draw lo hi m) by (unfold pos_of; rewrite G; reflexivity).
  split; [cbn [length]; now rewrite I1|]. cbn [map]. rewrite Pv. split; [constructor; assumption|]. split.
  - rewrite I3. destruct (map pos_of vs1) as [|x xs]; [reflexivity|]. change (List.last (x :: xs) (candidate draw lo hi m) = List.last (x :: xs) last). apply last_indep. discriminate.
  - constructor; [|exact I4]. split; [exact W|]. split; [exact DD|]. now rewrite Pv.
Qed.
(** The positions of createRandomVertices: the first candidate, and then by rejection. *)
Theorem C30_random_rejection (draw : nat -> R -> R -> R) (fuel : nat) (k : Z) (n : nat) (lo hi : list R) (l : list (vertex R)) :
  createRandomVertices draw fuel k n lo hi = Ok (Some l) ->
  exists ps, map pos_of l = candidate draw lo hi 0 :: ps /\ length ps = n /\ accepted draw lo hi 1 (candidate draw lo hi 0) ps.
Proof.
  intros E. unfold createRandomVertices in E.
  destruct (Nat.ltb_spec n 1) as [|Hn]; [discriminate|]. destruct (negb (Nat.eqb _ _)); [discriminate|].
  destruct (negb (nleb _ _)); [discriminate|]. destruct (k <=? 0)%Z; [discriminate|]. destruct (existsb _ _); [discriminate|].
  change (draw_vector draw 0 lo hi) with (candidate draw lo hi 0) in E.
  assert (L0 : length (candidate draw lo hi 0) = length lo) by (unfold candidate; now rewrite map_length, seq_length).
  assert (Hend : forall v p, vertex_wf v -> v_D v = length lo -> length p = length lo -> exists w, vertex_makeStartOrEnd v p k = Ok w /\ pos_of w = p).
  { intros v p Wv Dv Lp. destruct (vertex_makeStartOrEnd_spec v p k Wv) as [H1 _]. destruct H1 as (w & Ew & _ & _ & Gw); [congruence|]. exists w. split; [exact Ew|]. unfold pos_of. rewrite Gw. reflexivity. }
  destruct (Hend (vertex_new (length lo)) (candidate draw lo hi 0) (vertex_new_wf _) eq_refl L0) as (first & Ef & Pf). rewrite Ef in E. cbn [obind] in E.
  replace (length lo) with (1 * length lo)%nat in E at 1 by lia.
  destruct (random_loop draw fuel (1 * length lo) n lo hi (candidate draw lo hi 0)) as [[[vs lastp]|]| | |] eqn:Er; try discriminate. cbn [obind] in E.
  destruct (random_loop_accepted _ _ _ _ _ _ _ _ _ Er) as (I1 & I2 & I3 & I4).
  assert (Hne : vs <> []) by (destruct vs; [simpl in I1; lia|discriminate]). destruct (exists_last Hne) as (fr & v & ->).
  change (first :: fr ++ [v]) with ((first :: fr) ++ [v]) in E. rewrite update_last_app in E.
  apply List.Forall_app in I4 as (_ & I4). apply List.Forall_inv in I4 as (Wv & Dv & Lv). rewrite map_app in I3. cbn [map] in I3. rewrite last_last in I3. subst lastp.
  destruct (Hend v (pos_of v) Wv Dv Lv) as (w & Ew & Pw). rewrite Ew in E. cbn [obind] in E. injection E as <-.
  exists (map pos_of (fr ++ [v])). rewrite map_length. split; [|split; [exact I1|exact I2]]. cbn [app map]. rewrite Pf, !map_app. cbn [map]. now rewrite Pw.
Qed.
Print Assumptions C30_random_rejection.
Example C30_rejection_example : exists l, createRandomVertices alternating 1 2 1 [0] [1] = Ok (Some l).
Proof. exact C30_random_example. Qed.
