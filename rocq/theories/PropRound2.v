(** C95: Trajectory::evaluate in doubles: the segment and the local time. *)
From Coq Require Import ZArith Reals List Bool Lia Lra.
From Coquelicot Require Import Coquelicot.
From Flocq Require Import IEEE754.BinarySingleNaN Core Relative Plus_error.
From Verif Require Import Num RSum ModelPolynomial ModelSegment ModelTrajectory SpecPoly SpecSegment SpecTrajectory ProofPolynomial ProofRound PropRound.
Import ListNotations.
Open Scope R_scope.
Local Arguments bpow : simpl never.

Lemma cmp_lt (x y : b64) : is_finite x = true -> is_finite y = true -> @nltb b64 B64_ops x y = true <-> B2R x < B2R y.
Proof.
  intros Fx Fy. cbn [nltb B64_ops]. unfold b64_cmp. rewrite Bcompare_correct by assumption.
  generalize (B2R x), (B2R y). intros a b. destruct (Rcompare_spec a b); split; intros; try discriminate; try reflexivity; lra.
Qed.
Lemma sub_ok (x y : b64) : is_finite x = true -> is_finite y = true -> 0 <= B2R x -> 0 <= B2R y ->
  is_finite (@nsub b64 B64_ops x y) = true /\
  Rabs (B2R (@nsub b64 B64_ops x y) - (B2R x - B2R y)) <= u64 * Rabs (B2R x - B2R y) /\
  (B2R y <= B2R x -> 0 <= B2R (@nsub b64 B64_ops x y)).
Proof.
  intros Fx Fy Px Py. assert (C := Bminus_correct 53 1024 b64_prec_gt_0 b64_prec_lt_emax mode_NE x y Fx Fy).
  assert (Gx := generic_format_B2R 53 1024 x). assert (Gy := generic_format_B2R 53 1024 y).
  assert (Ax := abs_B2R_lt_emax 53 1024 x). assert (Ay := abs_B2R_lt_emax 53 1024 y).
  rewrite Rlt_bool_true in C.
  - destruct C as (E & F & _). cbn [nsub B64_ops]. split; [exact F|]. rewrite E. cbn [round_mode].
    change (SpecFloat.fexp 53 1024) with (FLT_exp (3 - 1024 - 53) 53) in *.
    assert (P : Prec_gt_0 53) by reflexivity. split.
    + destruct (FLT_plus_error_N_ex radix2 (3 - 1024 - 53) 53 (fun z => negb (Z.even z)) (B2R x) (- B2R y)) as (e & He & Ee);
        [exact Gx|now apply generic_format_opp|].
      change (B2R x - B2R y) with (B2R x + - B2R y). rewrite Ee.
      assert (U : u_ro radix2 53 = u64) by (unfold u_ro; apply u64_bpow). rewrite U in He. assert (U0 := u64_pos).
      assert (He' : Rabs e <= u64).
      { eapply Rle_trans; [exact He|]. apply Rmult_le_reg_r with (1 + u64); [lra|]. unfold Rdiv. rewrite Rmult_assoc, Rinv_l by lra. nra. }
      set (z := B2R x + - B2R y). replace (z * (1 + e) - z) with (z * e) by ring. rewrite Rabs_mult. assert (Q := Rabs_pos z). nra.
    + intros Hxy. rewrite <- (round_0 radix2 (FLT_exp (3 - 1024 - 53) 53) ZnearestE).
      apply round_le; [apply FLT_exp_valid; exact P|apply valid_rnd_N|lra].
  - cbn [round_mode]. change (SpecFloat.fexp 53 1024) with (FLT_exp (3 - 1024 - 53) 53) in *.
    assert (P : Prec_gt_0 53) by reflexivity. rewrite Rabs_pos_eq in Ax, Ay by assumption.
    destruct (Rle_lt_dec (B2R y) (B2R x)).
    + eapply Rle_lt_trans; [|exact Ax]. apply abs_round_le_generic; [apply FLT_exp_valid; exact P|apply valid_rnd_N|exact Gx|]. rewrite Rabs_pos_eq; lra.
    + eapply Rle_lt_trans; [|exact Ay]. apply abs_round_le_generic; [apply FLT_exp_valid; exact P|apply valid_rnd_N|exact Gy|]. rewrite Rabs_left1; lra.
Qed.
Lemma add_mono (x y : b64) : 0 <= B2R x -> 0 <= B2R y -> is_finite (@nadd b64 B64_ops x y) = true ->
  B2R x <= B2R (@nadd b64 B64_ops x y) /\ B2R y <= B2R (@nadd b64 B64_ops x y).
Proof.
  intros Px Py F. destruct (add_finite x y F) as (Fx & Fy & ->). assert (P : Prec_gt_0 53) by reflexivity.
  assert (Gx := generic_format_B2R 53 1024 x). assert (Gy := generic_format_B2R 53 1024 y).
  change (SpecFloat.fexp 53 1024) with (FLT_exp (3 - 1024 - 53) 53) in *.
  split; apply round_ge_generic; try assumption; try lra; [apply FLT_exp_valid; exact P|apply valid_rnd_N|apply FLT_exp_valid; exact P|apply valid_rnd_N].
Qed.

(** The exact start time of segment i, for segment times that are doubles. *)
Definition exact_start (tr : trajectory b64) (i : nat) : R := rsum i (fun j => nth j (map (fun s => B2R (seg_time s)) (tr_segments tr)) 0).
(** The double computed by adding the first i segment times in order. *)
Definition sum_times (segs : list (segment b64)) (i : nat) : b64 := fold_left (@nadd b64 B64_ops) (firstn i (map seg_time segs)) (@n0 b64 B64_ops).

Section Sums.
  Context (segs : list (segment b64)).
  Let ts := map (fun s => B2R (seg_time s)) segs.
  Hypothesis Pos : forall s, In s segs -> 0 <= B2R (seg_time s).
  Lemma sum_times_S i s : nth_error segs i = Some s -> sum_times segs (S i) = @nadd b64 B64_ops (sum_times segs i) (seg_time s).
  Proof.
    intros H. unfold sum_times. assert (E : firstn (S i) (map seg_time segs) = firstn i (map seg_time segs) ++ [seg_time s]).
    { clear Pos. subst ts. revert segs H. induction i as [|i IH]; intros [|x l] H; try discriminate; cbn in H |- *; [injection H as ->; reflexivity|]. f_equal. now apply IH. }
    rewrite E, fold_left_app. reflexivity.
  Qed.
  Lemma sum_times_finite i : (i <= length segs)%nat -> is_finite (sum_times segs (length segs)) = true -> is_finite (sum_times segs i) = true.
  Proof.
    intros Hi F. remember (length segs - i)%nat as k eqn:Ek. revert i Hi Ek. induction k as [|k IH]; intros i Hi Ek.
    - replace i with (length segs) by lia. exact F.
    - specialize (IH (S i) ltac:(lia) ltac:(lia)). destruct (nth_error segs i) as [s|] eqn:E; [|apply nth_error_None in E; lia].
      rewrite (sum_times_S _ _ E) in IH. now apply add_finite in IH.
  Qed.
  Lemma sum_error i : (i <= length segs)%nat -> is_finite (sum_times segs i) = true ->
    0 <= rsum i (fun j => nth j ts 0) /\ 0 <= B2R (sum_times segs i) /\
    Rabs (B2R (sum_times segs i) - rsum i (fun j => nth j ts 0)) <= ((1 + u64) ^ i - 1) * rsum i (fun j => nth j ts 0).
  Proof.
    induction i as [|i IH]; intros Hi F.
    - cbn [rsum pow]. unfold sum_times. cbn [firstn fold_left]. replace (B2R n0) with 0 by (vm_compute; reflexivity).
      rewrite Rminus_0_r, Rabs_R0. lra.
    - destruct (nth_error segs i) as [s|] eqn:E; [|apply nth_error_None in E; lia]. rewrite (sum_times_S _ _ E) in *.
      destruct (add_err _ _ F) as (F1 & F2 & Ea). destruct (IH ltac:(lia) F1) as (I1 & I2 & I3).
      assert (Hs : 0 <= B2R (seg_time s)) by (apply Pos; eapply nth_error_In; exact E).
      assert (En : nth i ts 0 = B2R (seg_time s)).
      { unfold ts. apply nth_error_nth. rewrite nth_error_map, E. reflexivity. }
      destruct (add_mono _ _ I2 Hs F) as (M1 & _). cbn [rsum]. rewrite En. split; [lra|]. split; [lra|].
      assert (U := u64_pos). assert (Q := pow_u_ge i). rewrite <- tech_pow_Rmult.
      set (a := B2R (sum_times segs i)) in *. set (b := B2R (seg_time s)) in *. set (S := rsum i _) in *. set (q := (1 + u64) ^ i) in *.
      set (r := B2R (nadd _ _)) in *. rewrite (Rabs_pos_eq (a + b)) in Ea by lra.
      assert (Ha : a <= q * S) by (apply Rabs_le_between in I3; lra).
      replace (r - (S + b)) with ((r - (a + b)) + (a - S)) by ring. eapply Rle_trans; [apply Rabs_triang|].
      assert (T1 : u64 * (a + b) <= u64 * (q * S + b)) by (apply Rmult_le_compat_l; lra).
      assert (T2 : 0 <= (1 + u64) * (q - 1) * b) by (apply Rmult_le_pos; [apply Rmult_le_pos|]; lra).
      apply Rle_trans with (u64 * (q * S + b) + (q - 1) * S); [lra|].
      replace (((1 + u64) * q - 1) * (S + b)) with (u64 * (q * S + b) + (q - 1) * S + (1 + u64) * (q - 1) * b) by ring. lra.
  Qed.
End Sums.

Lemma find_segment_double (segs : list (segment b64)) (t : b64) : is_finite t = true ->
  is_finite (sum_times segs (length segs)) = true ->
  forall l i, skipn i segs = l -> (i <= length segs)%nat ->
  exists j, (i <= j <= length segs)%nat /\
    ((j < length segs)%nat /\ @find_segment b64 B64_ops l t i (sum_times segs i) = (j, sum_times segs (S j)) /\ B2R t < B2R (sum_times segs (S j)) \/
     j = length segs /\ @find_segment b64 B64_ops l t i (sum_times segs i) = (j, sum_times segs j)) /\
    forall m, (i < m <= j)%nat -> B2R (sum_times segs m) <= B2R t.
Proof.
  intros Ft Fs. induction l as [|s l IH]; intros i El Hi.
  - assert (i = length segs).
    { assert (L : length (skipn i segs) = 0%nat) by (rewrite El; reflexivity). rewrite skipn_length in L. lia. }
    exists i. split; [lia|]. split; [right; split; [assumption|reflexivity]|]. intros m Hm. lia.
  - assert (Hl : (i < length segs)%nat).
    { assert (L : length (skipn i segs) = S (length l)) by (rewrite El; reflexivity). rewrite skipn_length in L. lia. }
    assert (En : nth_error segs i = Some s).
    { clear - El. revert segs El. induction i as [|i IH]; intros [|x segs] El; cbn in *; try discriminate; [now injection El as -> _|now apply IH]. }
    cbn [find_segment]. rewrite <- (sum_times_S _ _ _ En).
    assert (F1 := sum_times_finite segs (S i) ltac:(lia) Fs).
    destruct (@nltb b64 B64_ops t (sum_times segs (S i))) eqn:C.
    + exists i. split; [lia|]. split; [left; split; [exact Hl|split; [reflexivity|]]|intros m Hm; lia]. now apply (cmp_lt _ _ Ft F1).
    + destruct (IH (S i)) as (j & Hj & HH & Hm).
      { clear - El. revert segs El. induction i as [|i IH]; intros [|x segs] El; cbn in *; try discriminate; [now injection El as _ ->|now apply IH]. }
      { lia. }
      exists j. split; [lia|]. split; [exact HH|]. intros m Hmj. destruct (Nat.eq_dec m (S i)) as [->|Hne]; [|apply Hm; lia].
      apply Rnot_lt_le. intros Hlt. apply (cmp_lt _ _ Ft F1) in Hlt. congruence.
Qed.

(** For t in [0, max time]: a segment i is chosen whose exact range contains t up
    to rounding, and it is evaluated at a local time within
    ((1 + 2^-53)^(i+4) - 1) times its exact end time of the exact local time. *)
Theorem C95_local_time (tr : trajectory b64) (t : b64) (d : nat) :
  (forall s, In s (tr_segments tr) -> 0 <= B2R (seg_time s)) -> @traj_consistent b64 B64_ops tr -> (0 < tr_K tr)%nat ->
  is_finite (tr_max_time tr) = true -> is_finite t = true -> 0 <= B2R t <= B2R (tr_max_time tr) ->
  exists (i : nat) (s : segment b64) (tau : b64), nth_error (tr_segments tr) i = Some s /\ is_finite tau = true /\
    @traj_evaluate b64 B64_ops tr t (Z.of_nat d) = @seg_evaluate b64 B64_ops s tau (Z.of_nat d) /\
    Rabs (B2R tau - (B2R t - exact_start tr i)) <= ((1 + / 2 ^ 53) ^ (i + 4) - 1) * exact_start tr (S i) /\
    (2 - (1 + / 2 ^ 53) ^ i) * exact_start tr i <= B2R t <= (1 + / 2 ^ 53) ^ S i * exact_start tr (S i).
Proof.
  intros Pos Hc HK Fm Ft Ht. set (segs := tr_segments tr) in *. unfold tr_K in *. fold segs in HK.
  assert (Em : tr_max_time tr = sum_times segs (length segs)).
  { rewrite (proj2 Hc). unfold sum_times. rewrite firstn_all2 by (rewrite map_length; lia). reflexivity. }
  rewrite Em in Fm, Ht.
  destruct (find_segment_double segs t Ft Fm segs 0 eq_refl ltac:(lia)) as (j & Hj & HH & Hm).
  set (i := if Nat.leb (length segs) j then (length segs - 1)%nat else j).
  assert (Hi : (i < length segs)%nat) by (unfold i; destruct (Nat.leb_spec (length segs) j); lia).
  assert (Hf : @find_segment b64 B64_ops segs t 0 (@n0 b64 B64_ops) = (j, sum_times segs (S i)) /\ B2R t <= B2R (sum_times segs (S i)) /\ ((0 < i)%nat -> B2R (sum_times segs i) <= B2R t)).
  { change (@n0 b64 B64_ops) with (sum_times segs 0). destruct HH as [(H1 & -> & H3)|(H1 & ->)].
    - replace i with j by (unfold i; destruct (Nat.leb_spec (length segs) j); [lia|reflexivity]). split; [reflexivity|]. split; [lra|]. intros. apply Hm. lia.
    - replace (S i) with j by (unfold i; destruct (Nat.leb_spec (length segs) j); lia). split; [reflexivity|]. subst j. split; [lra|]. intros. apply Hm.
      unfold i. destruct (Nat.leb_spec (length segs) (length segs)); lia. }
  destruct Hf as (Ef & Hti & Hli).
  destruct (nth_error segs i) as [s|] eqn:En; [|apply nth_error_None in En; lia].
  assert (F1 := sum_times_finite segs (S i) ltac:(lia) Fm). assert (F0 := sum_times_finite segs i ltac:(lia) Fm).
  destruct (sum_error segs Pos (S i) ltac:(lia) F1) as (E1 & E2 & E3). destruct (sum_error segs Pos i ltac:(lia) F0) as (D1 & D2 & D3).
  assert (Fs : is_finite (seg_time s) = true).
  { rewrite (sum_times_S _ _ _ En) in F1. now apply add_finite in F1. }
  assert (Ps : 0 <= B2R (seg_time s)) by (apply Pos; eapply nth_error_In; exact En).
  assert (Hge : B2R (seg_time s) <= B2R (sum_times segs (S i))).
  { rewrite (sum_times_S _ _ _ En) in F1 |- *. now apply add_mono. }
  destruct (sub_ok _ _ F1 Fs E2 Ps) as (Fq & Eq & Pq). specialize (Pq Hge).
  destruct (sub_ok _ _ Ft Fq (proj1 Ht) Pq) as (Fr & Er & _).
  exists i, s, (@nsub b64 B64_ops t (@nsub b64 B64_ops (sum_times segs (S i)) (seg_time s))).
  split; [exact En|]. split; [exact Fr|]. split.
  { unfold traj_evaluate. fold segs. rewrite Ef. unfold tr_K. fold segs.
    replace (@nltb b64 B64_ops (sum_times segs (S i)) t) with false.
    2:{ symmetry. destruct (@nltb b64 B64_ops (sum_times segs (S i)) t) eqn:C; [|reflexivity]. apply (cmp_lt _ _ F1 Ft) in C. lra. }
    fold i. unfold oget. rewrite En. reflexivity. }
  set (S1 := rsum (S i) _) in *. set (S0 := rsum i _) in *.
  assert (ES : exact_start tr (S i) = S1 /\ exact_start tr i = S0) by (split; reflexivity). destruct ES as (-> & ->). fold u64.
  assert (ES1 : S1 = S0 + B2R (seg_time s)).
  { unfold S1, S0. cbn [rsum]. f_equal. apply nth_error_nth. rewrite nth_error_map, En. reflexivity. }
  set (a := B2R (sum_times segs (S i))) in *. set (b := B2R (seg_time s)) in *. set (x := B2R t) in *.
  set (q := B2R (nsub (sum_times segs (S i)) (seg_time s))) in *. set (r := B2R (nsub t _)) in *.
  assert (U := u64_pos). assert (Q0 := pow_u_ge i). assert (Q1 := pow_u_ge (S i)).
  set (w := (1 + u64) ^ S i) in *.
  assert (Ha : a <= w * S1) by (apply Rabs_le_between in E3; lra).
  split.
  - rewrite (Rabs_pos_eq (a - b)) in Eq by lra.
    assert (T1 : Rabs (q - S0) <= ((1 + u64) * w - 1) * S1).
    { replace (q - S0) with ((q - (a - b)) + (a - S1)) by (rewrite ES1; ring). eapply Rle_trans; [apply Rabs_triang|].
      assert (u64 * (a - b) <= u64 * (w * S1)) by (apply Rmult_le_compat_l; lra). lra. }
    assert (T2 : Rabs (x - S0) <= w * S1). { apply Rabs_le. split; [nra|lra]. }
    assert (T3 : Rabs (x - q) <= Rabs (q - S0) + Rabs (x - S0)).
    { replace (x - q) with (- (q - S0) + (x - S0)) by ring. eapply Rle_trans; [apply Rabs_triang|]. rewrite Rabs_Ropp. lra. }
    replace (r - (x - S0)) with ((r - (x - q)) + (S0 - q)) by ring. eapply Rle_trans; [apply Rabs_triang|].
    rewrite (Rabs_minus_sym S0 q). replace (i + 4)%nat with (3 + S i)%nat by lia. rewrite pow_add. fold w.
    assert (T4 : u64 * Rabs (x - q) <= u64 * (((1 + u64) * w - 1) * S1 + w * S1)) by (apply Rmult_le_compat_l; lra).
    assert (T5 : u64 * (((1 + u64) * w - 1) * S1 + w * S1) + ((1 + u64) * w - 1) * S1 <= ((1 + u64) ^ 3 * w - 1) * S1); [|lra].
    replace (u64 * (((1 + u64) * w - 1) * S1 + w * S1) + ((1 + u64) * w - 1) * S1) with ((u64 * ((1 + u64) * w - 1 + w) + ((1 + u64) * w - 1)) * S1) by ring.
    apply Rmult_le_compat_r; [exact E1|].
    assert (T6 : 0 <= (2 * (u64 * u64) + u64 * u64 * u64) * w) by (apply Rmult_le_pos; [|lra]; assert (0 < u64 * u64) by nra; nra).
    replace ((1 + u64) ^ 3 * w - 1) with (u64 * ((1 + u64) * w - 1 + w) + ((1 + u64) * w - 1) + ((2 * (u64 * u64) + u64 * u64 * u64) * w + u64)) by ring. lra.
  - split; [|lra]. destruct (Nat.eq_dec i 0) as [Ei|Ei].
    + unfold S0. rewrite Ei. cbn [rsum]. lra.
    + specialize (Hli ltac:(lia)). apply Rabs_le_between in D3. lra.
Qed.
Print Assumptions C95_local_time.

(** Every finite component of the result is the derivative of the chosen segment
    at that local time, up to the rounding bound of C94. *)
Theorem C95_evaluate_error (tr : trajectory b64) (t : b64) (d : nat) (vs : list b64) :
  (forall s, In s (tr_segments tr) -> 0 <= B2R (seg_time s)) -> @traj_consistent b64 B64_ops tr -> (0 < tr_K tr)%nat ->
  is_finite (tr_max_time tr) = true -> is_finite t = true -> 0 <= B2R t <= B2R (tr_max_time tr) ->
  @traj_evaluate b64 B64_ops tr t (Z.of_nat d) = Ok vs ->
  exists (i : nat) (s : segment b64) (tau : b64), nth_error (tr_segments tr) i = Some s /\
    Rabs (B2R tau - (B2R t - exact_start tr i)) <= ((1 + / 2 ^ 53) ^ (i + 4) - 1) * exact_start tr (S i) /\
    length vs = seg_D s /\
    forall k p v, nth_error (seg_polys s) k = Some p -> nth_error vs k = Some v -> (d < length p)%nat -> is_finite v = true ->
      Rabs (B2R v - Derive_n (poly_fun (map B2R p)) d (B2R tau)) <= rounding_bound p tau d.
Proof.
  intros H1 H2 H3 H4 H5 H6 E. destruct (C95_local_time tr t d H1 H2 H3 H4 H5 H6) as (i & s & tau & En & _ & Ee & Hb & _).
  rewrite Ee in E. destruct (C94_segment_error s tau d vs E) as (L & HH). exists i, s, tau. auto.
Qed.
Print Assumptions C95_evaluate_error.

(** Two segments of 0.1 s and 0.2 s.  At t = 0.1 the second one is evaluated at a
    negative local time: (0.1 + 0.2) - 0.2 is above 0.1 in doubles. *)
Definition tenth (z : Z) : b64 := @ndiv b64 B64_ops (@nofZ b64 B64_ops z) (@nofZ b64 B64_ops 10).
Definition two_seg_tr : trajectory b64 :=
  let s1 := mkSegment 2 [map (@nofZ b64 B64_ops) [0; 1]%Z] (tenth 1) in
  let s2 := mkSegment 2 [map (@nofZ b64 B64_ops) [0; 1]%Z] (tenth 2) in
  mkTraj 1 2 [s1; s2] (@nadd b64 B64_ops (@nadd b64 B64_ops (@n0 b64 B64_ops) (tenth 1)) (tenth 2)).
Lemma sign_pos (x : b64) : Bsign x = false -> 0 <= B2R x.
Proof. destruct x as [s|s| |s m e H]; cbn; intros E; try lra. subst s. apply F2R_ge_0. cbn. lia. Qed.
Lemma leb_R (x y : b64) : is_finite x = true -> is_finite y = true -> @nltb b64 B64_ops y x = false -> B2R x <= B2R y.
Proof. intros Fx Fy H. apply Rnot_lt_le. intros L. apply (cmp_lt _ _ Fy Fx) in L. congruence. Qed.
Example C95_example : (forall s, In s (tr_segments two_seg_tr) -> 0 <= B2R (seg_time s)) /\ @traj_consistent b64 B64_ops two_seg_tr /\ (0 < tr_K two_seg_tr)%nat /\
  is_finite (tr_max_time two_seg_tr) = true /\ is_finite (tenth 1) = true /\ 0 <= B2R (tenth 1) <= B2R (tr_max_time two_seg_tr) /\
  exists vs, @traj_evaluate b64 B64_ops two_seg_tr (tenth 1) (Z.of_nat 0) = Ok vs.
Proof.
  split; [intros s [<-|[<-|[]]]; apply sign_pos; vm_compute; reflexivity|]. split; [split; [repeat constructor|reflexivity]|].
  split; [cbn; lia|]. split; [vm_compute; reflexivity|]. split; [vm_compute; reflexivity|]. split.
  - split; [apply sign_pos; vm_compute; reflexivity|apply leb_R; vm_compute; reflexivity].
  - assert (H : match @traj_evaluate b64 B64_ops two_seg_tr (tenth 1) (Z.of_nat 0) with Ok _ => true | _ => false end = true) by (vm_compute; reflexivity).
    destruct (traj_evaluate two_seg_tr (tenth 1) (Z.of_nat 0)); try discriminate. eauto.
Qed.
Lemma ok1_inv (o : outcome (list b64)) (f : b64 -> bool) : match o with Ok [v] => f v | _ => false end = true -> exists v, o = Ok [v] /\ f v = true.
Proof. destruct o as [[|v [|]]| | |]; intros H; try discriminate H. eauto. Qed.
Definition negative_local_time : bool :=
  match @traj_evaluate b64 B64_ops two_seg_tr (tenth 1) 0 with
  | Ok [v] => is_finite v && @nltb b64 B64_ops v (@n0 b64 B64_ops)
  | _ => false
  end.
(** Both segments run from 0 with speed 1; at the time of the boundary the value
    should be 0, the start of the second segment, or 0.1, the end of the first. *)
Theorem C95_before_segment_start_finding : exists (tr : trajectory b64) (t v : b64),
  (forall s, In s (tr_segments tr) -> 0 <= B2R (seg_time s) /\ map (map B2R) (seg_polys s) = [[0; 1]]) /\
  @traj_consistent b64 B64_ops tr /\ 0 <= B2R t <= B2R (tr_max_time tr) /\
  @traj_evaluate b64 B64_ops tr t 0 = Ok [v] /\ is_finite v = true /\ B2R v < 0.
Proof.
  destruct C95_example as (A & B & _ & _ & _ & C & _).
  assert (H : negative_local_time = true) by (vm_compute; reflexivity).
  apply (ok1_inv _ (fun v => is_finite v && @nltb b64 B64_ops v (@n0 b64 B64_ops))) in H as (v & E & H). apply andb_true_iff in H as (F & H).
  exists two_seg_tr, (tenth 1), v. split.
  - intros s Hs. split; [now apply A|]. assert (Q : forall z, is_Z (b64_of_Z z) z = true -> B2R (b64_of_Z z) = IZR z) by (intros z Hz; now apply is_Z_spec).
    destruct Hs as [<-|[<-|[]]]; cbn [seg_polys map nofZ B64_ops]; rewrite !Q by (vm_compute; reflexivity); reflexivity.
  - split; [exact B|]. split; [exact C|]. split; [exact E|]. split; [exact F|].
    apply (cmp_lt v (@n0 b64 B64_ops) F) in H; [|reflexivity]. replace (B2R (@n0 b64 B64_ops)) with 0 in H by (vm_compute; reflexivity). exact H.
Qed.
Print Assumptions C95_before_segment_start_finding.

(** The total time is the exact sum of the segment times up to one rounding per
    segment. *)
Theorem C95_max_time (tr : trajectory b64) :
  (forall s, In s (tr_segments tr) -> 0 <= B2R (seg_time s)) -> @traj_consistent b64 B64_ops tr ->
  is_finite (tr_max_time tr) = true ->
  Rabs (B2R (tr_max_time tr) - exact_start tr (tr_K tr)) <= ((1 + / 2 ^ 53) ^ tr_K tr - 1) * exact_start tr (tr_K tr).
Proof.
  intros Pos Hc F. unfold tr_K. set (segs := tr_segments tr) in *.
  assert (Em : tr_max_time tr = sum_times segs (length segs)).
  { rewrite (proj2 Hc). unfold sum_times. rewrite firstn_all2 by (rewrite map_length; lia). reflexivity. }
  rewrite Em in F |- *. exact (proj2 (proj2 (sum_error segs Pos (length segs) (le_n _) F))).
Qed.
Print Assumptions C95_max_time.
