(** C100: Trajectory::evaluateRange in doubles: sample times, labels, termination. *)
From Coq Require Import ZArith Reals List Bool Lia Lra.
From Coquelicot Require Import Coquelicot.
From Flocq Require Import IEEE754.BinarySingleNaN Core Relative Plus_error.
From Verif Require Import Num RSum ModelPolynomial ModelSegment ModelTrajectory SpecPoly SpecSegment SpecTrajectory ProofPolynomial ProofNsec ProofRound PropRound PropRound2.
Import ListNotations.
Open Scope R_scope.
Local Arguments bpow : simpl never.

Local Notation rnd := (round radix2 (FLT_exp (3 - 1024 - 53) 53) ZnearestE).
Lemma rnd_abs_le (z : R) (x : b64) : Rabs z <= Rabs (B2R x) -> Rabs (rnd z) <= Rabs (B2R x).
Proof.
  intros H. apply abs_round_le_generic; [apply FLT_exp_valid; reflexivity|apply valid_rnd_N| |exact H].
  apply generic_format_abs. apply (generic_format_B2R 53 1024).
Qed.
Lemma sub_round (x y : b64) : is_finite x = true -> is_finite y = true -> 0 <= B2R x -> 0 <= B2R y ->
  B2R (@nsub b64 B64_ops x y) = rnd (B2R x - B2R y).
Proof.
  intros Fx Fy Px Py. assert (C := Bminus_correct 53 1024 b64_prec_gt_0 b64_prec_lt_emax mode_NE x y Fx Fy).
  destruct (sub_ok x y Fx Fy Px Py) as (F & _). cbn [nsub B64_ops] in *. destruct (Rlt_bool _ _); [apply C|].
  destruct C as (C & _). apply finite_overflow in C. congruence.
Qed.
Lemma sub_le (x y : b64) : is_finite x = true -> is_finite y = true -> 0 <= B2R y <= B2R x ->
  0 <= B2R (@nsub b64 B64_ops x y) <= B2R x.
Proof.
  intros Fx Fy H. destruct (sub_ok x y Fx Fy ltac:(lra) ltac:(lra)) as (_ & _ & P). split; [apply P; lra|].
  rewrite sub_round by (assumption || lra). apply Rle_trans with (Rabs (rnd (B2R x - B2R y))); [apply Rle_abs|].
  rewrite <- (Rabs_pos_eq (B2R x)) at 2 by lra. apply rnd_abs_le. rewrite !Rabs_pos_eq; lra.
Qed.
(** |x - y| is at most the larger of two nonnegative doubles. *)
Lemma sub_abs (x y : b64) M : is_finite x = true -> is_finite y = true -> 0 <= B2R x <= M -> 0 <= B2R y <= M ->
  Rabs (B2R (@nsub b64 B64_ops x y)) <= M.
Proof.
  intros Fx Fy Hx Hy. rewrite sub_round by (assumption || lra). destruct (Rle_lt_dec (B2R y) (B2R x)).
  - apply Rle_trans with (Rabs (B2R x)); [apply rnd_abs_le; rewrite !Rabs_pos_eq; lra|rewrite Rabs_pos_eq; lra].
  - apply Rle_trans with (Rabs (B2R y)); [apply rnd_abs_le; rewrite (Rabs_left1 (_ - _)), Rabs_pos_eq; lra|rewrite Rabs_pos_eq; lra].
Qed.

(** The exact sum of the first i segment times. *)
Local Notation exact segs i := (rsum i (fun j => nth j (map (fun s : segment b64 => B2R (seg_time s)) segs) 0)).

Section Loop.
  Context (segs : list (segment b64)) (t_end dt : b64) (d : Z) (B : R).
  Hypothesis Fe : is_finite t_end = true.
  Hypothesis Fd : is_finite dt = true.
  Hypothesis Pd : 0 < B2R dt.
  Hypothesis Le : B2R t_end <= big.
  Hypothesis Ld : B2R dt <= B.
  Hypothesis LB : B <= 2 * big.
  Hypothesis Segs : forall s, In s segs -> is_finite (seg_time s) = true /\ 0 <= B2R (seg_time s) /\ B2R (seg_time s) + B2R dt <= B.

  (** One step of both clocks. *)
  Lemma step_acc (acc : b64) : is_finite acc = true -> 0 <= B2R acc -> @nltb b64 B64_ops acc t_end = true ->
    is_finite (@nadd b64 B64_ops acc dt) = true /\ 0 <= B2R (@nadd b64 B64_ops acc dt) /\
    Rabs (B2R (@nadd b64 B64_ops acc dt) - (B2R acc + B2R dt)) <= u64 * (B2R t_end + B2R dt).
  Proof.
    intros Fa Pa H. apply (cmp_lt _ _ Fa Fe) in H. assert (Q := proj1 (proj2 big_bpow)). assert (U := u64_pos).
    assert (F : is_finite (@nadd b64 B64_ops acc dt) = true) by (apply add_fin; [assumption..|rewrite Rabs_pos_eq; lra]).
    split; [exact F|]. split; [apply Rle_trans with (B2R acc); [exact Pa|apply add_mono; [lra|lra|exact F]]|].
    destruct (add_err _ _ F) as (_ & _ & E). eapply Rle_trans; [exact E|]. apply Rmult_le_compat_l; [lra|]. rewrite Rabs_pos_eq; lra.
  Qed.
  Lemma step_tis (s : segment b64) (tis : b64) : In s segs -> is_finite tis = true -> Rabs (B2R tis) <= 2 * B -> @nltb b64 B64_ops (seg_time s) tis = false ->
    is_finite (@nadd b64 B64_ops tis dt) = true /\ Rabs (B2R (@nadd b64 B64_ops tis dt)) <= 2 * B /\
    Rabs (B2R (@nadd b64 B64_ops tis dt) - (B2R tis + B2R dt)) <= 2 * u64 * B.
  Proof.
    intros Hs Ft Ht H. destruct (Segs s Hs) as (Fs & Ps & Ls). apply (leb_R _ _ Ft Fs) in H. assert (U := u64_pos). assert (U1 := u64_small). assert (Q := proj1 (proj2 big_bpow)).
    assert (Hz : Rabs (B2R tis + B2R dt) <= 2 * B) by (apply Rabs_le_between in Ht; apply Rabs_le; lra).
    assert (F : is_finite (@nadd b64 B64_ops tis dt) = true) by (apply add_fin; [assumption..|lra]).
    destruct (add_err _ _ F) as (_ & _ & E). split; [exact F|]. split.
    - destruct (Rle_lt_dec (B2R tis + B2R dt) 0) as [Hn|Hp].
      + apply Rle_trans with (Rabs (B2R tis)); [|exact Ht]. rewrite (proj2 (proj2 (add_finite _ _ F))). apply rnd_abs_le. rewrite !Rabs_left1 by lra. lra.
      + rewrite (Rabs_pos_eq (_ + _)) in E by lra. apply Rabs_le_between in E. apply Rabs_le.
        assert (u64 * (B2R tis + B2R dt) <= 1 * (B2R tis + B2R dt)) by (apply Rmult_le_compat_r; lra). lra.
    - eapply Rle_trans; [exact E|]. replace (2 * u64 * B) with (u64 * (2 * B)) by ring. apply Rmult_le_compat_l; lra.
  Qed.
  Lemma step_seg (s : segment b64) (tis : b64) : In s segs -> is_finite tis = true -> Rabs (B2R tis) <= 2 * B -> @nltb b64 B64_ops (seg_time s) tis = true ->
    is_finite (@nsub b64 B64_ops tis (seg_time s)) = true /\ Rabs (B2R (@nsub b64 B64_ops tis (seg_time s))) <= 2 * B /\
    Rabs (B2R (@nsub b64 B64_ops tis (seg_time s)) - (B2R tis - B2R (seg_time s))) <= 2 * u64 * B.
  Proof.
    intros Hs Ft Ht H. destruct (Segs s Hs) as (Fs & Ps & Ls). apply (cmp_lt _ _ Fs Ft) in H. assert (U := u64_pos).
    rewrite Rabs_pos_eq in Ht by lra. destruct (sub_ok _ _ Ft Fs ltac:(lra) Ps) as (F & E & _). destruct (sub_le _ _ Ft Fs ltac:(lra)) as (L1 & L2).
    split; [exact F|]. split; [rewrite Rabs_pos_eq; lra|]. eapply Rle_trans; [exact E|]. replace (2 * u64 * B) with (u64 * (2 * B)) by ring.
    apply Rmult_le_compat_l; [lra|]. rewrite Rabs_pos_eq; lra.
  Qed.

  Lemma range_loop_double : forall fuel i acc tis vs ts,
    is_finite acc = true -> 0 <= B2R acc -> is_finite tis = true -> Rabs (B2R tis) <= 2 * B ->
    @range_loop b64 B64_ops fuel segs t_end dt d i acc tis = Ok (Some (vs, ts)) ->
    length vs = length ts /\ forall k v x, nth_error vs k = Some v -> nth_error ts k = Some x ->
      is_finite x = true /\ B2R x < B2R t_end /\ Rabs (B2R x - (B2R acc + INR k * B2R dt)) <= INR k * (u64 * (B2R t_end + B2R dt)) /\
      exists j s tau, (i <= j)%nat /\ nth_error segs j = Some s /\ @seg_evaluate b64 B64_ops s tau d = Ok v /\ is_finite tau = true /\ B2R tau <= B2R (seg_time s) /\
        Rabs (B2R tau + (exact segs j - exact segs i) - (B2R tis + INR k * B2R dt)) <= INR (k + (j - i)) * (2 * u64 * B).
  Proof.
    induction fuel as [|fuel IH]; intros i acc tis vs ts Fa Pa Ft Ht E; [discriminate|]. cbn [range_loop] in E.
    destruct (@nltb b64 B64_ops acc t_end) eqn:Ca; [|injection E as <- <-; split; [reflexivity|intros [|k] v x H; discriminate]].
    unfold oget in E. destruct (nth_error segs i) as [s|] eqn:En; [|discriminate]. cbn [obind] in E. assert (Hs := nth_error_In _ _ En).
    destruct (@nltb b64 B64_ops (seg_time s) tis) eqn:Ct.
    - destruct (Nat.leb_spec (length segs) (S i)); [injection E as <- <-; split; [reflexivity|intros [|k] v x H'; discriminate]|].
      destruct (step_seg s tis Hs Ft Ht Ct) as (F1 & L1 & E1). destruct (IH _ _ _ _ _ Fa Pa F1 L1 E) as (Hl & HH). split; [exact Hl|].
      intros k v x Hv Hx. destruct (HH k v x Hv Hx) as (X1 & X2 & X3 & j & s' & tau & J1 & J2 & J3 & J4 & J5 & J6).
      split; [exact X1|]. split; [exact X2|]. split; [exact X3|]. exists j, s', tau. split; [lia|]. do 4 (split; [assumption|]).
      assert (ES : exact segs (S i) = exact segs i + B2R (seg_time s)).
      { cbn [rsum]. f_equal. apply nth_error_nth. rewrite nth_error_map, En. reflexivity. }
      rewrite ES in J6. replace (k + (j - i))%nat with (S (k + (j - S i))) by lia. rewrite S_INR.
      match goal with |- Rabs ?a <= _ => replace a with ((B2R tau + (exact segs j - (exact segs i + B2R (seg_time s))) - (B2R (@nsub b64 B64_ops tis (seg_time s)) + INR k * B2R dt)) +
        (B2R (@nsub b64 B64_ops tis (seg_time s)) - (B2R tis - B2R (seg_time s)))) by ring end.
      eapply Rle_trans; [apply Rabs_triang|]. lra.
    - destruct (@seg_evaluate b64 B64_ops s tis d) as [v0| | |] eqn:Ev; try discriminate. cbn [obind] in E.
      destruct (@range_loop b64 B64_ops fuel segs t_end dt d i (@nadd b64 B64_ops acc dt) (@nadd b64 B64_ops tis dt)) as [[[vs' ts']|]| | |] eqn:Er; try discriminate.
      cbn [obind] in E. injection E as <- <-. destruct (step_acc acc Fa Pa Ca) as (F1 & P1 & E1). destruct (step_tis s tis Hs Ft Ht Ct) as (F2 & L2 & E2).
      destruct (IH _ _ _ _ _ F1 P1 F2 L2 Er) as (Hl & HH). split; [cbn; now rewrite Hl|].
      intros [|k] v x Hv Hx; cbn [nth_error] in Hv, Hx.
      + injection Hv as <-. injection Hx as <-. split; [exact Fa|]. split; [now apply (cmp_lt _ _ Fa Fe)|]. cbn [INR]. split; [replace (_ - _) with 0 by ring; rewrite Rabs_R0; lra|].
        exists i, s, tis. split; [lia|]. split; [exact En|]. split; [exact Ev|]. split; [exact Ft|]. split; [apply (leb_R _ _ Ft (proj1 (Segs s Hs)) Ct)|].
        rewrite Nat.sub_diag. cbn [Nat.add INR]. match goal with |- Rabs ?a <= _ => replace a with 0 by ring end. rewrite Rabs_R0. lra.
      + destruct (HH k v x Hv Hx) as (X1 & X2 & X3 & j & s' & tau & J1 & J2 & J3 & J4 & J5 & J6).
        split; [exact X1|]. split; [exact X2|]. rewrite S_INR. split.
        * match goal with |- Rabs ?a <= _ => replace a with ((B2R x - (B2R (@nadd b64 B64_ops acc dt) + INR k * B2R dt)) + (B2R (@nadd b64 B64_ops acc dt) - (B2R acc + B2R dt))) by ring end.
          eapply Rle_trans; [apply Rabs_triang|]. lra.
        * exists j, s', tau. split; [exact J1|]. do 4 (split; [assumption|]). replace (S k + (j - i))%nat with (S (k + (j - i))) by lia. rewrite S_INR.
          match goal with |- Rabs ?a <= _ => replace a with ((B2R tau + (exact segs j - exact segs i) - (B2R (@nadd b64 B64_ops tis dt) + INR k * B2R dt)) + (B2R (@nadd b64 B64_ops tis dt) - (B2R tis + B2R dt))) by ring end.
          eapply Rle_trans; [apply Rabs_triang|]. lra.
  Qed.

  Lemma range_loop_ends : u64 * (B2R t_end + B2R dt) <= B2R dt / 2 ->
    (forall s tau, In s segs -> exists v, @seg_evaluate b64 B64_ops s tau d = Ok v) ->
    forall fuel n i acc tis, is_finite acc = true -> 0 <= B2R acc -> is_finite tis = true -> Rabs (B2R tis) <= 2 * B -> (i < length segs)%nat ->
    B2R t_end <= B2R acc + INR n * (B2R dt / 2) -> (n + (length segs - i) < fuel)%nat ->
    exists r, @range_loop b64 B64_ops fuel segs t_end dt d i acc tis = Ok (Some r).
  Proof.
    intros Hd Hev. induction fuel as [|fuel IH]; intros n i acc tis Fa Pa Ft Ht Hi Hn Hf; [lia|]. cbn [range_loop].
    destruct (@nltb b64 B64_ops acc t_end) eqn:Ca; [|eauto]. assert (Hlt := proj1 (cmp_lt _ _ Fa Fe) Ca).
    unfold oget. destruct (nth_error segs i) as [s|] eqn:En; [|apply nth_error_None in En; lia]. cbn [obind]. assert (Hs := nth_error_In _ _ En).
    destruct (@nltb b64 B64_ops (seg_time s) tis) eqn:Ct.
    - destruct (Nat.leb_spec (length segs) (S i)); [eauto|]. destruct (step_seg s tis Hs Ft Ht Ct) as (F1 & L1 & _). apply (IH n); try assumption; lia.
    - destruct (Hev s tis Hs) as (v & ->). cbn [obind]. destruct n as [|n]; [cbn [INR] in Hn; lra|]. rewrite S_INR in Hn.
      destruct (step_acc acc Fa Pa Ca) as (F1 & P1 & E1). destruct (step_tis s tis Hs Ft Ht Ct) as (F2 & L2 & _).
      destruct (IH n i (@nadd b64 B64_ops acc dt) (@nadd b64 B64_ops tis dt)) as ((vs & ts) & ->); try assumption; [|lia|cbn [obind]; eauto].
      apply Rabs_le_between in E1. lra.
  Qed.
End Loop.

(** The state in which the sampling loop starts (trajectory.cpp:95-118). *)
Lemma range_start (tr : trajectory b64) (t_start : b64) :
  (forall s, In s (tr_segments tr) -> 0 <= B2R (seg_time s)) -> @traj_consistent b64 B64_ops tr ->
  is_finite (tr_max_time tr) = true -> is_finite t_start = true -> 0 <= B2R t_start < B2R (tr_max_time tr) ->
  exists i s acc acc0 tis, nth_error (tr_segments tr) i = Some s /\
    @find_segment b64 B64_ops (tr_segments tr) t_start 0 (@n0 b64 B64_ops) = (i, acc) /\ @nltb b64 B64_ops acc t_start = false /\
    @nsub b64 B64_ops acc (seg_time s) = acc0 /\ @nsub b64 B64_ops t_start acc0 = tis /\
    is_finite acc0 = true /\ 0 <= B2R acc0 /\ is_finite tis = true /\ Rabs (B2R tis) <= B2R (tr_max_time tr) /\
    Rabs (B2R acc0 - exact_start tr i) <= ((1 + u64) ^ (i + 2) - 1) * exact_start tr (S i) /\
    Rabs (B2R tis - (B2R t_start - exact_start tr i)) <= ((1 + u64) ^ (i + 4) - 1) * exact_start tr (S i) /\
    (2 - (1 + u64) ^ i) * exact_start tr i <= B2R t_start <= (1 + u64) ^ S i * exact_start tr (S i) /\
    (forall r, In r (tr_segments tr) -> is_finite (seg_time r) = true /\ B2R (seg_time r) <= B2R (tr_max_time tr)).
Proof.
  intros Pos Hc Fm Ft Ht. set (segs := tr_segments tr) in *.
  assert (Em : tr_max_time tr = sum_times segs (length segs)).
  { rewrite (proj2 Hc). unfold sum_times. rewrite firstn_all2 by (rewrite map_length; lia). reflexivity. }
  rewrite Em in Fm, Ht |- *.
  assert (Mono : forall i, (i <= length segs)%nat -> B2R (sum_times segs i) <= B2R (sum_times segs (length segs))).
  { intros i Hi. remember (length segs - i)%nat as k eqn:Ek. revert i Hi Ek. induction k as [|k IH]; intros i Hi Ek; [replace i with (length segs) by lia; lra|].
    destruct (nth_error segs i) as [s|] eqn:En; [|apply nth_error_None in En; lia]. eapply Rle_trans; [|apply (IH (S i)); lia].
    assert (F1 := sum_times_finite segs (S i) ltac:(lia) Fm). rewrite (sum_times_S _ _ _ En) in F1 |- *. apply add_mono; [|apply Pos; eapply nth_error_In; exact En|exact F1].
    apply (sum_error segs Pos i ltac:(lia)). now apply add_finite in F1. }
  assert (SegLe : forall i s, nth_error segs i = Some s -> is_finite (seg_time s) = true /\ B2R (seg_time s) <= B2R (sum_times segs (S i))).
  { intros i s En. assert (Hi : (i < length segs)%nat) by (apply nth_error_Some; congruence).
    assert (F1 := sum_times_finite segs (S i) ltac:(lia) Fm). rewrite (sum_times_S _ _ _ En) in F1 |- *. destruct (add_finite _ _ F1) as (F0 & Fs & _).
    split; [exact Fs|]. apply add_mono; [|apply Pos; eapply nth_error_In; exact En|exact F1]. apply (sum_error segs Pos i ltac:(lia) F0). }
  destruct (find_segment_double segs t_start Ft Fm segs 0 eq_refl ltac:(lia)) as (i & Hj & HH & Hm).
  destruct HH as [(Hi & Ef & Hti)|(Hi & Ef)].
  2:{ exfalso. destruct (Nat.eq_dec i 0) as [->|]; [rewrite <- Hi in Ht; unfold sum_times in Ht; cbn [firstn fold_left] in Ht; replace (B2R (@n0 b64 B64_ops)) with 0 in Ht by (vm_compute; reflexivity); lra|].
      specialize (Hm i ltac:(lia)). rewrite Hi in Hm. lra. }
  destruct (nth_error segs i) as [s|] eqn:En; [|apply nth_error_None in En; lia].
  assert (F1 := sum_times_finite segs (S i) ltac:(lia) Fm).
  destruct (sum_error segs Pos (S i) ltac:(lia) F1) as (E1 & E2 & E3). destruct (SegLe _ _ En) as (Fs & Hge).
  assert (Ps : 0 <= B2R (seg_time s)) by (apply Pos; eapply nth_error_In; exact En).
  destruct (sub_ok _ _ F1 Fs E2 Ps) as (Fq & Eq & Pq). specialize (Pq Hge). destruct (sub_le _ _ F1 Fs ltac:(lra)) as (_ & Lq).
  destruct (sub_ok _ _ Ft Fq (proj1 Ht) Pq) as (Fr & Er & _).
  exists i, s, (sum_times segs (S i)), (@nsub b64 B64_ops (sum_times segs (S i)) (seg_time s)), (@nsub b64 B64_ops t_start (@nsub b64 B64_ops (sum_times segs (S i)) (seg_time s))).
  split; [exact En|]. split; [exact Ef|]. split.
  { destruct (@nltb b64 B64_ops (sum_times segs (S i)) t_start) eqn:C; [|reflexivity]. apply (cmp_lt _ _ F1 Ft) in C. lra. }
  split; [reflexivity|]. split; [reflexivity|]. split; [exact Fq|]. split; [exact Pq|]. split; [exact Fr|].
  split; [apply sub_abs; [exact Ft|exact Fq|lra|split; [exact Pq|]; eapply Rle_trans; [exact Lq|apply Mono; lia]]|].
  assert (ES1 : exact_start tr (S i) = exact_start tr i + B2R (seg_time s)).
  { unfold exact_start. fold segs. cbn [rsum]. f_equal. apply nth_error_nth. rewrite nth_error_map, En. reflexivity. }
  change (rsum (S i) _) with (exact_start tr (S i)) in E1, E3. set (S1 := exact_start tr (S i)) in *. set (S0 := exact_start tr i) in *.
  assert (F0 := sum_times_finite segs i ltac:(lia) Fm). destruct (sum_error segs Pos i ltac:(lia) F0) as (D1 & _ & D3).
  change (rsum i _) with S0 in D1, D3.
  set (a := B2R (sum_times segs (S i))) in *. set (b := B2R (seg_time s)) in *. set (x := B2R t_start) in *.
  set (q := B2R (nsub (sum_times segs (S i)) (seg_time s))) in *. set (r := B2R (nsub t_start _)) in *.
  assert (U := u64_pos). assert (Q1 := pow_u_ge (S i)). set (w := (1 + u64) ^ S i) in *.
  assert (Ha : a <= w * S1) by (apply Rabs_le_between in E3; lra).
  rewrite (Rabs_pos_eq (a - b)) in Eq by lra.
  assert (T1 : Rabs (q - S0) <= ((1 + u64) * w - 1) * S1).
  { replace (q - S0) with ((q - (a - b)) + (a - S1)) by (rewrite ES1; ring). eapply Rle_trans; [apply Rabs_triang|].
    assert (u64 * (a - b) <= u64 * (w * S1)) by (apply Rmult_le_compat_l; lra). lra. }
  split; [replace (i + 2)%nat with (S (S i)) by lia; rewrite <- tech_pow_Rmult; exact T1|]. split.
  - assert (T2 : Rabs (x - S0) <= w * S1). { apply Rabs_le. split; [nra|lra]. }
    assert (T3 : Rabs (x - q) <= Rabs (q - S0) + Rabs (x - S0)).
    { replace (x - q) with (- (q - S0) + (x - S0)) by ring. eapply Rle_trans; [apply Rabs_triang|]. rewrite Rabs_Ropp. lra. }
    replace (r - (x - S0)) with ((r - (x - q)) + (S0 - q)) by ring. eapply Rle_trans; [apply Rabs_triang|].
    rewrite (Rabs_minus_sym S0 q). replace (i + 4)%nat with (3 + S i)%nat by lia. rewrite pow_add. fold w.
    assert (T4 : u64 * Rabs (x - q) <= u64 * (((1 + u64) * w - 1) * S1 + w * S1)) by (apply Rmult_le_compat_l; lra).
    assert (T5 : u64 * (((1 + u64) * w - 1) * S1 + w * S1) + ((1 + u64) * w - 1) * S1 <= ((1 + u64) ^ 3 * w - 1) * S1); [|lra].
    replace (u64 * (((1 + u64) * w - 1) * S1 + w * S1) + ((1 + u64) * w - 1) * S1) with ((u64 * ((1 + u64) * w - 1 + w) + ((1 + u64) * w - 1)) * S1) by ring.
    apply Rmult_le_compat_r; [exact E1|].
    assert (T6 : 0 <= (2 * (u64 * u64) + u64 * u64 * u64) * w) by (apply Rmult_le_pos; [|lra]; assert (0 < u64 * u64) by nra; nra).
    replace ((1 + u64) ^ 3 * w - 1) with (u64 * ((1 + u64) * w - 1 + w) + ((1 + u64) * w - 1) + ((2 * (u64 * u64) + u64 * u64 * u64) * w + u64)) by ring. lra.
  - split; [split; [|fold w; lra]; destruct (Nat.eq_dec i 0) as [Ei|Ei]; [unfold S0, exact_start; rewrite Ei; cbn [rsum]; lra|]; specialize (Hm i ltac:(lia)); apply Rabs_le_between in D3; lra|].
    intros p Hp. apply In_nth_error in Hp as (k & Hk). destruct (SegLe _ _ Hk) as (P1 & P2). split; [exact P1|]. eapply Rle_trans; [exact P2|]. apply Mono.
    assert ((k < length segs)%nat) by (apply nth_error_Some; congruence). lia.
Qed.

(** The samples of evaluateRange in doubles, for a window that starts before the
    end of the trajectory.  Sample k is a value of some segment j, not past its
    end, at a local time that agrees with the requested time t_start + k dt up to
    rounding; the label of sample k is the start of the first segment plus k dt up
    to rounding (the labels of the code start at the segment, see C16). *)
Theorem C100_samples (tr : trajectory b64) (t_start t_end dt : b64) (d : Z) (fuel : nat) (vs : list (list b64)) (ts : list b64) :
  (forall s, In s (tr_segments tr) -> 0 <= B2R (seg_time s)) -> @traj_consistent b64 B64_ops tr ->
  is_finite (tr_max_time tr) = true -> is_finite t_start = true -> is_finite t_end = true -> is_finite dt = true ->
  0 <= B2R t_start < B2R (tr_max_time tr) -> B2R (tr_max_time tr) <= 2 ^ 1000 -> B2R t_end <= 2 ^ 1000 -> 0 < B2R dt <= 2 ^ 1000 ->
  @traj_evaluateRange b64 B64_ops fuel tr t_start t_end dt d = Ok (Some (vs, ts)) ->
  exists i, (2 - (1 + / 2 ^ 53) ^ i) * exact_start tr i <= B2R t_start <= (1 + / 2 ^ 53) ^ S i * exact_start tr (S i) /\ (i < tr_K tr)%nat /\ length vs = length ts /\
  forall k v x, nth_error vs k = Some v -> nth_error ts k = Some x ->
    is_finite x = true /\ B2R x < B2R t_end /\
    Rabs (B2R x - (exact_start tr i + INR k * B2R dt)) <= ((1 + / 2 ^ 53) ^ (i + 2) - 1) * exact_start tr (S i) + INR k * / 2 ^ 53 * (B2R t_end + B2R dt) /\
    exists j s tau, (i <= j)%nat /\ nth_error (tr_segments tr) j = Some s /\ @seg_evaluate b64 B64_ops s tau d = Ok v /\
      is_finite tau = true /\ B2R tau <= B2R (seg_time s) /\
      Rabs (exact_start tr j + B2R tau - (B2R t_start + INR k * B2R dt)) <=
        ((1 + / 2 ^ 53) ^ (i + 4) - 1) * exact_start tr (S i) + INR (k + (j - i)) * / 2 ^ 52 * (B2R (tr_max_time tr) + B2R dt).
Proof.
  intros Pos Hc Fm Fs Fe Fd Hs Lm Le Ld E. fold u64.
  destruct (range_start tr t_start Pos Hc Fm Fs Hs) as (i & s & acc & acc0 & tis & En & Ef & Ca & Ea & Et & Fa & Pa & Ft & Lt & Ra & Rt & Ri & Sg).
  unfold traj_evaluateRange in E. destruct (reserve_samples _) as [[]| | |]; try discriminate. cbn [obind] in E.
  rewrite Ef, Ca in E. unfold oget in E. rewrite En in E. cbn [obind] in E. rewrite Ea, Et in E. fold big in Lm, Le, Ld.
  assert (HB : B2R (tr_max_time tr) + B2R dt <= 2 * big) by lra.
  destruct (range_loop_double (tr_segments tr) t_end dt d (B2R (tr_max_time tr) + B2R dt) Fe Fd ltac:(lra) Le ltac:(lra) HB) with (6 := E) as (Hl & HH); try assumption.
  { intros r Hr. destruct (Sg r Hr) as (S1 & S2). split; [exact S1|]. split; [now apply Pos|lra]. }
  { lra. }
  assert (Hi : (i < length (tr_segments tr))%nat) by (apply nth_error_Some; congruence).
  exists i. split; [exact Ri|].
  split; [exact Hi|]. split; [exact Hl|]. intros k v x Hv Hx. destruct (HH k v x Hv Hx) as (X1 & X2 & X3 & j & r & tau & J1 & J2 & J3 & J4 & J5 & J6).
  split; [exact X1|]. split; [exact X2|]. split.
  - replace (B2R x - (exact_start tr i + INR k * B2R dt)) with ((B2R x - (B2R acc0 + INR k * B2R dt)) + (B2R acc0 - exact_start tr i)) by ring.
    eapply Rle_trans; [apply Rabs_triang|]. lra.
  - exists j, r, tau. split; [exact J1|]. do 4 (split; [assumption|]).
    change (rsum j _) with (exact_start tr j) in J6. change (rsum i _) with (exact_start tr i) in J6.
    replace (exact_start tr j + B2R tau - (B2R t_start + INR k * B2R dt)) with ((B2R tau + (exact_start tr j - exact_start tr i) - (B2R tis + INR k * B2R dt)) + (B2R tis - (B2R t_start - exact_start tr i))) by ring.
    eapply Rle_trans; [apply Rabs_triang|]. assert (EU : / 2 ^ 52 = 2 * u64).
    { unfold u64. change (2 ^ 53) with (2 * 2 ^ 52). field. }
    rewrite EU. lra.
Qed.
Print Assumptions C100_samples.

(** The number of samples that is reserved (trajectory.cpp:85-93) is a sensible
    size when dt is not negligible against the end of the window. *)
Lemma reserve_ok (t_start t_end dt : b64) : is_finite t_start = true -> is_finite t_end = true -> is_finite dt = true ->
  0 <= B2R t_start <= B2R t_end -> 0 < B2R dt -> u64 * B2R t_end <= B2R dt ->
  @reserve_samples b64 B64_ops (@nadd b64 B64_ops (@ndiv b64 B64_ops (@nsub b64 B64_ops t_end t_start) dt) (@n1 b64 B64_ops)) = Ok tt.
Proof.
  intros Fs Fe Fd Hs Pd Hd. destruct (sub_ok _ _ Fe Fs ltac:(lra) ltac:(lra)) as (F & _ & _). destruct (sub_le _ _ Fe Fs ltac:(lra)) as (L1 & L2).
  set (w := @nsub b64 B64_ops t_end t_start) in *. assert (P53 : bpow radix2 53 = 2 ^ 53) by (change 53%Z with (Z.of_nat 53); rewrite bpow_powerRZ, <- pow_powerRZ; reflexivity).
  assert (P54 : bpow radix2 54 = 2 * 2 ^ 53) by (change 54%Z with (53 + 1)%Z; rewrite bpow_plus, P53; change (bpow radix2 1) with 2; ring).
  assert (Hq : 0 <= B2R w / B2R dt <= 2 ^ 53).
  { split; [apply Rmult_le_pos; [exact L1|apply Rlt_le, Rinv_0_lt_compat, Pd]|]. apply Rmult_le_reg_r with (B2R dt); [exact Pd|]. unfold Rdiv. rewrite Rmult_assoc, Rinv_l, Rmult_1_r by lra.
    eapply Rle_trans; [exact L2|]. apply Rmult_le_reg_l with u64; [apply u64_pos|]. rewrite <- Rmult_assoc. replace (u64 * 2 ^ 53) with 1 by (unfold u64; rewrite Rinv_l; [reflexivity|apply pow_nonzero; lra]). lra. }
  assert (C := Bdiv_correct 53 1024 b64_prec_gt_0 b64_prec_lt_emax mode_NE w dt ltac:(lra)).
  assert (R1 : 0 <= rnd (B2R w / B2R dt) <= 2 ^ 53).
  { split; [apply round_ge_generic; [apply FLT_exp_valid; reflexivity|apply valid_rnd_N|apply generic_format_0|apply Hq]|].
    rewrite <- P53. apply round_le_generic; [apply FLT_exp_valid; reflexivity|apply valid_rnd_N|apply generic_format_bpow; unfold FLT_exp; lia|rewrite P53; apply Hq]. }
  cbn [round_mode] in C. change (SpecFloat.fexp 53 1024) with (FLT_exp (3 - 1024 - 53) 53) in C. rewrite Rlt_bool_true in C.
  2:{ rewrite Rabs_pos_eq by apply R1. apply Rle_lt_trans with (bpow radix2 53); [rewrite P53; apply R1|apply bpow_lt; lia]. }
  destruct C as (C1 & C2 & _). rewrite F in C2. change (Bdiv mode_NE w dt) with (@ndiv b64 B64_ops w dt) in C1, C2. set (q := @ndiv b64 B64_ops w dt) in *.
  assert (N1 : B2R (@n1 b64 B64_ops) = 1) by (assert (H : is_Z (@n1 b64 B64_ops) 1 = true) by (vm_compute; reflexivity); now apply is_Z_spec in H).
  assert (B53 : 1 <= 2 ^ 53) by (apply pow_R1_Rle; lra). assert (Bb : 2 ^ 53 + 1 <= 16 * big) by (unfold big; apply Rle_trans with (2 * 2 ^ 53); [lra|]; assert (2 ^ 53 <= 2 ^ 1000) by (apply Rle_pow; [lra|lia]); lra).
  assert (Fa : is_finite (@nadd b64 B64_ops q (@n1 b64 B64_ops)) = true) by (apply add_fin; [exact C2|reflexivity|rewrite N1, C1, Rabs_pos_eq; lra]).
  assert (Ra := proj2 (proj2 (add_finite _ _ Fa))). rewrite N1, C1 in Ra.
  assert (R2 : 0 <= B2R (@nadd b64 B64_ops q (@n1 b64 B64_ops)) <= 2 * 2 ^ 53).
  { rewrite Ra. split; [apply round_ge_generic; [apply FLT_exp_valid; reflexivity|apply valid_rnd_N|apply generic_format_0|lra]|].
    rewrite <- P54. apply round_le_generic; [apply FLT_exp_valid; reflexivity|apply valid_rnd_N|apply generic_format_bpow; unfold FLT_exp; lia|rewrite P54; lra]. }
  unfold reserve_samples. rewrite (toZ_trunc _ Fa). set (z := B2R (@nadd b64 B64_ops q (@n1 b64 B64_ops))) in *. rewrite Ztrunc_floor by lra.
  assert (Z1 : (0 <= Zfloor z)%Z) by (apply Zfloor_lub; exact (proj1 R2)).
  assert (Z2 : (Zfloor z <= 2 ^ 54)%Z).
  { apply le_IZR. eapply Rle_trans; [apply Zfloor_lb|]. eapply Rle_trans; [apply R2|]. rewrite <- P54. change (2 ^ 54)%Z with (Zpower radix2 54). rewrite IZR_Zpower by lia. lra. }
  destruct (Z.ltb_spec (Zfloor z) 0); [lia|]. destruct (Z.leb_spec (2 ^ 64) (Zfloor z)); [lia|]. destruct (Z.leb_spec (2 ^ 59) (Zfloor z)); [lia|]. reflexivity.
Qed.

(** evaluateRange ends with a result for every window [t_start, t_end] that starts
    before the end of the trajectory, if dt is at least 2^-52 (t_end + dt); it needs
    at most 2 t_end / dt samples and one step per segment. *)
Theorem C100_terminates (tr : trajectory b64) (t_start t_end dt : b64) (d : Z) (n fuel : nat) :
  (forall s, In s (tr_segments tr) -> 0 <= B2R (seg_time s)) -> @traj_consistent b64 B64_ops tr ->
  is_finite (tr_max_time tr) = true -> is_finite t_start = true -> is_finite t_end = true -> is_finite dt = true ->
  0 <= B2R t_start < B2R (tr_max_time tr) -> B2R t_start <= B2R t_end -> B2R (tr_max_time tr) <= 2 ^ 1000 -> B2R t_end <= 2 ^ 1000 -> 0 < B2R dt <= 2 ^ 1000 ->
  / 2 ^ 52 * (B2R t_end + B2R dt) <= B2R dt ->
  (forall s tau, In s (tr_segments tr) -> exists v, @seg_evaluate b64 B64_ops s tau d = Ok v) ->
  2 * B2R t_end / B2R dt <= INR n -> (n + tr_K tr < fuel)%nat ->
  exists vs ts, @traj_evaluateRange b64 B64_ops fuel tr t_start t_end dt d = Ok (Some (vs, ts)).
Proof.
  intros Pos Hc Fm Fs Fe Fd Hs Hse Lm Le Ld Hd Hev Hn Hf. assert (U := u64_pos).
  assert (EU : / 2 ^ 52 = 2 * u64). { unfold u64. change (2 ^ 53) with (2 * 2 ^ 52). field. }
  rewrite EU in Hd.
  destruct (range_start tr t_start Pos Hc Fm Fs Hs) as (i & s & acc & acc0 & tis & En & Ef & Ca & Ea & Et & Fa & Pa & Ft & Lt & _ & _ & _ & Sg).
  unfold traj_evaluateRange. rewrite reserve_ok; try assumption; try lra; [|assert (0 <= u64 * B2R t_end) by (apply Rmult_le_pos; lra); assert (0 <= u64 * B2R dt) by (apply Rmult_le_pos; lra); lra].
  cbn [obind]. rewrite Ef, Ca. unfold oget. rewrite En. cbn [obind]. rewrite Ea, Et. fold big in Lm, Le, Ld.
  assert (HB : B2R (tr_max_time tr) + B2R dt <= 2 * big) by lra.
  assert (Hi : (i < length (tr_segments tr))%nat) by (apply nth_error_Some; congruence). unfold tr_K in Hf.
  destruct (range_loop_ends (tr_segments tr) t_end dt d (B2R (tr_max_time tr) + B2R dt) Fe Fd ltac:(lra) Le ltac:(lra) HB) with (fuel := fuel) (n := n) (i := i) (acc := acc0) (tis := tis) as ((vs & ts) & ->); try assumption; try lra; try lia.
  - intros r Hr. destruct (Sg r Hr) as (S1 & S2). split; [exact S1|]. split; [now apply Pos|lra].
  - apply Rmult_le_compat_r with (r := B2R dt / 2) in Hn; [|lra]. replace (2 * B2R t_end / B2R dt * (B2R dt / 2)) with (B2R t_end) in Hn by (field; lra). lra.
  - eauto.
Qed.
Print Assumptions C100_terminates.

(** Two segments of 2^53 s: from t_start = 2^53 with dt = 1 the clock of the loop
    does not advance any more (2^53 + 1 rounds to 2^53), nor does the local time get
    past the end of the segment: the loop samples for ever. *)
Definition long_time : b64 := @nofZ b64 B64_ops (2 ^ 53).
Definition long_tr : trajectory b64 :=
  let s := mkSegment 2 [map (@nofZ b64 B64_ops) [0; 1]%Z] long_time in
  mkTraj 1 2 [s; s] (@nadd b64 B64_ops (@nadd b64 B64_ops (@n0 b64 B64_ops) long_time) long_time).
Lemma poly_eval_ok (p : list b64) t d : (0 <= d < Z.of_nat (length p))%Z -> (length p <= 22)%nat -> exists v, @poly_evaluate b64 B64_ops p t d = Ok v.
Proof.
  intros Hd Hp. unfold poly_evaluate. destruct (Z.leb_spec (Z.of_nat (length p)) d); [lia|].
  destruct (Z.ltb_spec d 0); [lia|]. change kMaxConvolutionSize with 22%nat. destruct (Nat.ltb_spec 22 (length p)); [lia|]. cbn [orb]. eauto.
Qed.
Lemma B2R_long : B2R long_time = 2 ^ 53 /\ B2R (@nofZ b64 B64_ops (2 ^ 54)) = 2 * 2 ^ 53.
Proof.
  split.
  - assert (H : is_Z long_time (2 ^ 53) = true) by (vm_compute; reflexivity). apply is_Z_spec in H as (_ & ->). rewrite (pow_IZR 2 53). reflexivity.
  - assert (H : is_Z (@nofZ b64 B64_ops (2 ^ 54)) (2 ^ 54) = true) by (vm_compute; reflexivity). apply is_Z_spec in H as (_ & ->). change (2 ^ 54)%Z with (2 * 2 ^ 53)%Z. rewrite mult_IZR, (pow_IZR 2 53). reflexivity.
Qed.
Lemma long_add : @nadd b64 B64_ops long_time (@n1 b64 B64_ops) = long_time.
Proof. apply B2SF_inj. vm_compute. reflexivity. Qed.
Lemma long_sub : @nsub b64 B64_ops (@nofZ b64 B64_ops (2 ^ 54)) long_time = long_time /\ @nsub b64 B64_ops long_time long_time = @n0 b64 B64_ops.
Proof. split; apply B2SF_inj; vm_compute; reflexivity. Qed.
Lemma long_max : tr_max_time long_tr = @nofZ b64 B64_ops (2 ^ 54).
Proof. apply B2SF_inj. vm_compute. reflexivity. Qed.
Lemma long_find : @find_segment b64 B64_ops (tr_segments long_tr) long_time 0 (@n0 b64 B64_ops) = (1%nat, @nofZ b64 B64_ops (2 ^ 54)).
Proof.
  assert (H : fst (@find_segment b64 B64_ops (tr_segments long_tr) long_time 0 (@n0 b64 B64_ops)) = 1%nat) by (vm_compute; reflexivity).
  assert (G : snd (@find_segment b64 B64_ops (tr_segments long_tr) long_time 0 (@n0 b64 B64_ops)) = @nofZ b64 B64_ops (2 ^ 54)) by (apply B2SF_inj; vm_compute; reflexivity).
  destruct (@find_segment b64 B64_ops (tr_segments long_tr) long_time 0 (@n0 b64 B64_ops)) as (i, a). cbn [fst snd] in H, G. now subst.
Qed.
Lemma stall_loop : forall fuel tis, is_finite tis = true -> 0 <= B2R tis <= 2 ^ 53 ->
  @range_loop b64 B64_ops fuel (tr_segments long_tr) (@nofZ b64 B64_ops (2 ^ 54)) (@n1 b64 B64_ops) 0 1 long_time tis = Ok None.
Proof.
  assert (N1 : B2R (@n1 b64 B64_ops) = 1) by (assert (H : is_Z (@n1 b64 B64_ops) 1 = true) by (vm_compute; reflexivity); now apply is_Z_spec in H).
  destruct B2R_long as (RL & _).
  induction fuel as [|fuel IH]; intros tis Ft Ht; [reflexivity|]. cbn [range_loop].
  replace (@nltb b64 B64_ops long_time (@nofZ b64 B64_ops (2 ^ 54))) with true by (vm_compute; reflexivity).
  cbn [oget tr_segments long_tr nth_error obind seg_time].
  assert (C : @nltb b64 B64_ops long_time tis = false).
  { destruct (@nltb b64 B64_ops long_time tis) eqn:C; [|reflexivity]. apply (cmp_lt long_time tis eq_refl Ft) in C. lra. }
  rewrite C. unfold seg_evaluate. cbn [seg_polys omap]. destruct (poly_eval_ok (map (@nofZ b64 B64_ops) [0; 1]%Z) tis 0) as (v & ->); [cbn; lia|cbn; lia|]. cbn [obind].
  rewrite long_add.
  change (tr_segments long_tr) with [mkSegment 2 [map (@nofZ b64 B64_ops) [0; 1]%Z] long_time; mkSegment 2 [map (@nofZ b64 B64_ops) [0; 1]%Z] long_time] in IH.
  assert (Fa : is_finite (@nadd b64 B64_ops tis (@n1 b64 B64_ops)) = true).
  { apply add_fin; [exact Ft|reflexivity|]. rewrite N1, Rabs_pos_eq by lra. assert (2 ^ 53 <= big) by (apply Rle_pow; [lra|lia]). assert (1 <= big) by apply big_bpow. lra. }
  rewrite IH; [reflexivity|exact Fa|]. split; [apply Rle_trans with (B2R tis); [lra|apply add_mono; [lra|lra|exact Fa]]|].
  rewrite (proj2 (proj2 (add_finite _ _ Fa))).
  assert (E : rnd (B2R long_time + B2R (@n1 b64 B64_ops)) = 2 ^ 53).
  { assert (Fl : is_finite (@nadd b64 B64_ops long_time (@n1 b64 B64_ops)) = true) by (vm_compute; reflexivity).
    rewrite <- (proj2 (proj2 (add_finite _ _ Fl))). rewrite long_add. exact RL. }
  rewrite <- E. apply round_le; [apply FLT_exp_valid; reflexivity|apply valid_rnd_N|lra].
Qed.
Theorem C100_stalls_finding : exists (tr : trajectory b64) (t_start t_end dt : b64),
  (forall s, In s (tr_segments tr) -> 0 <= B2R (seg_time s)) /\ @traj_consistent b64 B64_ops tr /\
  0 <= B2R t_start < B2R t_end /\ B2R t_end <= B2R (tr_max_time tr) /\ B2R dt = 1 /\
  forall fuel, @traj_evaluateRange b64 B64_ops fuel tr t_start t_end dt 0 = Ok None.
Proof.
  destruct B2R_long as (RL & RT). assert (P : 1 <= 2 ^ 53) by (apply pow_R1_Rle; lra).
  exists long_tr, long_time, (@nofZ b64 B64_ops (2 ^ 54)), (@n1 b64 B64_ops). rewrite RL, RT.
  split; [intros s [<-|[<-|[]]]; cbn [seg_time]; rewrite RL; lra|]. split; [split; [repeat constructor|reflexivity]|]. split; [lra|].
  rewrite long_max, RT. split; [lra|]. split; [assert (H : is_Z (@n1 b64 B64_ops) 1 = true) by (vm_compute; reflexivity); now apply is_Z_spec in H|].
  intros fuel. unfold traj_evaluateRange.
  assert (E1 : @reserve_samples b64 B64_ops (@nadd b64 B64_ops (@ndiv b64 B64_ops (@nsub b64 B64_ops (@nofZ b64 B64_ops (2 ^ 54)) long_time) (@n1 b64 B64_ops)) (@n1 b64 B64_ops)) = Ok tt) by (vm_compute; reflexivity).
  rewrite E1, long_find. cbn [obind]. replace (@nltb b64 B64_ops (@nofZ b64 B64_ops (2 ^ 54)) long_time) with false by (vm_compute; reflexivity).
  cbn [oget tr_segments long_tr nth_error obind seg_time].
  destruct long_sub as (S1 & S2). rewrite S1.
  apply (stall_loop fuel (@nsub b64 B64_ops long_time long_time)); [vm_compute; reflexivity|].
  rewrite S2.
  replace (B2R (@n0 b64 B64_ops)) with 0 by (vm_compute; reflexivity). lra.
Qed.
Print Assumptions C100_stalls_finding.

(** The trajectory of C95 (0.1 s and 0.2 s) sampled from 0.1 to 0.3 with dt = 0.1. *)
Definition range_example : outcome (option (list (list b64) * list b64)) := @traj_evaluateRange b64 B64_ops 20 two_seg_tr (tenth 1) (tenth 3) (tenth 1) 0.
Example C100_example : (forall s, In s (tr_segments two_seg_tr) -> 0 <= B2R (seg_time s)) /\ @traj_consistent b64 B64_ops two_seg_tr /\
  is_finite (tr_max_time two_seg_tr) = true /\ 0 <= B2R (tenth 1) < B2R (tr_max_time two_seg_tr) /\ B2R (tenth 1) <= B2R (tenth 3) /\
  B2R (tr_max_time two_seg_tr) <= 2 ^ 1000 /\ B2R (tenth 3) <= 2 ^ 1000 /\ 0 < B2R (tenth 1) <= 2 ^ 1000 /\ / 2 ^ 52 * (B2R (tenth 3) + B2R (tenth 1)) <= B2R (tenth 1) /\
  (forall s tau, In s (tr_segments two_seg_tr) -> exists v, @seg_evaluate b64 B64_ops s tau 0 = Ok v) /\
  exists vs ts, range_example = Ok (Some (vs, ts)) /\ length vs = 2%nat.
Proof.
  assert (One : forall x : b64, is_finite x = true -> @nltb b64 B64_ops (@n1 b64 B64_ops) x = false -> B2R x <= 1).
  { intros x F H. apply (leb_R x (@n1 b64 B64_ops) F eq_refl) in H. assert (Q : is_Z (@n1 b64 B64_ops) 1 = true) by (vm_compute; reflexivity). apply is_Z_spec in Q as (_ & Q). lra. }
  assert (B : 1 <= 2 ^ 1000) by (apply pow_R1_Rle; lra).
  destruct C95_example as (A1 & A2 & _ & A4 & A5 & A6 & _).
  assert (T3 : B2R (tenth 3) <= 1) by (apply One; vm_compute; reflexivity).
  assert (M1 : B2R (tr_max_time two_seg_tr) <= 1) by (apply One; vm_compute; reflexivity).
  assert (L13 : B2R (tenth 1) < B2R (tenth 3)) by (apply cmp_lt; vm_compute; reflexivity).
  assert (P1 : / 16 <= B2R (tenth 1)).
  { assert (H : B2R (@nlit b64 B64_ops 1 16) <= B2R (tenth 1)) by (apply leb_R; vm_compute; reflexivity).
    replace (B2R (@nlit b64 B64_ops 1 16)) with (/ 16) in H; [exact H|]. rewrite <- SF2R_B2SF. replace (B2SF (@nlit b64 B64_ops 1 16)) with (SpecFloat.S754_finite false 4503599627370496 (-56)) by (vm_compute; reflexivity).
    cbn [SF2R]. unfold F2R. cbn [Fnum Fexp cond_Zopp]. change (-56)%Z with (Z.opp (Z.of_nat 56)). rewrite bpow_inv_pow. change (Z.pos 4503599627370496) with (2 ^ Z.of_nat 52)%Z. change 56%nat with (52 + 4)%nat.
    rewrite pow_add, <- (pow_IZR 2 52). field. }
  split; [exact A1|]. split; [exact A2|]. split; [exact A4|]. split; [split; [lra|apply cmp_lt; vm_compute; reflexivity]|]. split; [lra|]. split; [lra|]. split; [lra|]. split; [lra|].
  split.
  { assert (H : / 2 ^ 52 <= / 64) by (apply Rinv_le_contravar; [lra|]; apply Rle_trans with (2 ^ 6); [lra|apply Rle_pow; [lra|lia]]).
    apply Rle_trans with (/ 64 * 2); [|lra]. apply Rmult_le_compat; [apply Rlt_le, Rinv_0_lt_compat, pow_lt; lra|lra|exact H|lra]. }
  split.
  { intros s tau [<-|[<-|[]]]; unfold seg_evaluate; cbn [seg_polys omap]; destruct (poly_eval_ok (map (@nofZ b64 B64_ops) [0; 1]%Z) tau 0) as (v & ->); try (cbn; lia); cbn [obind]; eauto. }
  assert (H : match range_example with Ok (Some (vs, _)) => Nat.eqb (length vs) 2 | _ => false end = true) by (vm_compute; reflexivity).
  destruct range_example as [[(vs, ts)|]| | |]; try discriminate. exists vs, ts. split; [reflexivity|]. now apply Nat.eqb_eq.
Qed.
