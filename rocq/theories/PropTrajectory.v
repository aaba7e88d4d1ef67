(** Properties C14-C18: trajectory evaluation and bookkeeping. *)
From Coq Require Import ZArith Reals List Bool Lia Lra.
From Coquelicot Require Import Coquelicot.
From Verif Require Import Num RSum SpecPoly ModelPolynomial ModelSegment SpecSegment ModelVertex
  ModelTrajectory SpecTrajectory ProofSegment ProofTrajectory ProofTrajectory2 ProofTrajectory3
  ProofFloat ProofTrajectory5.
Import ListNotations.
Open Scope R_scope.

(** A two-segment, two-dimensional trajectory used in the examples:
    x(t) = t, y(t) = t^2 for t in [0, 3], split at t = 1. *)
Definition ex_s0 : segment R := mkSegment 3 [[0; 1; 0]; [0; 0; 1]] 1.
Definition ex_s1 : segment R := mkSegment 3 [[1; 1; 0]; [1; 2; 1]] 2.
Definition ex_tr : trajectory R := mkTraj 2 3 [ex_s0; ex_s1] (0 + 1 + 2).
Lemma ex_wf : traj_wf ex_tr.
Proof. split; [repeat constructor|simpl; lia]. Qed.
Lemma ex_nonneg : times_nonneg ex_tr.
Proof. repeat constructor; simpl; lra. Qed.
Lemma ex_consistent : traj_consistent ex_tr.
Proof. split; [repeat constructor|]. reflexivity. Qed.
Lemma ex_start1 : start_time ex_tr 1 = 1.
Proof. unfold start_time. simpl. lra. Qed.
Lemma ex_start2 : start_time ex_tr 2 = 3.
Proof. unfold start_time. simpl. lra. Qed.
Lemma ex_duration : duration ex_tr = 3.
Proof. unfold duration. simpl. lra. Qed.

(** ** C14: evaluate selects the right segment *)
Theorem C14_evaluate_inside (tr : trajectory R) (t : R) (d : nat) :
  traj_wf tr -> times_nonneg tr -> (0 < tr_K tr)%nat -> 0 <= t < duration tr ->
  exists i, (i < tr_K tr)%nat /\ start_time tr i <= t < start_time tr (S i) /\
    (forall j, (j < tr_K tr)%nat -> start_time tr j <= t < start_time tr (S j) -> j = i) /\
    traj_evaluate tr t (Z.of_nat d) = Ok (seg_value (seg_at tr i) (t - start_time tr i) d).
Proof.
  intros Hw Hn HK Ht. destruct (find_index tr t HK Ht) as (i & Hi & Hb).
  exists i. split; [exact Hi|]. split; [exact Hb|]. split.
  - intros j _ Hj. exact (index_unique tr t j i Hn Hj Hb).
  - rewrite (evaluate_in tr i t _ Hn Hi); [|right|]; try apply Hb.
    destruct (traj_wf_seg tr i Hw Hi) as (_ & _ & W & L). now apply seg_evaluate_value.
Qed.
Print Assumptions C14_evaluate_inside.

Theorem C14_evaluate_elsewhere (tr : trajectory R) (t : R) (d : nat) :
  traj_wf tr -> times_nonneg tr ->
  (t = duration tr -> (0 < tr_K tr)%nat ->
   traj_evaluate tr t (Z.of_nat d) =
   Ok (seg_value (seg_at tr (tr_K tr - 1)) (seg_time (seg_at tr (tr_K tr - 1))) d)) /\
  (duration tr < t -> traj_evaluate tr t (Z.of_nat d) = Ok (repeat 0 (tr_D tr))) /\
  (t < 0 -> (0 < tr_K tr)%nat ->
   traj_evaluate tr t (Z.of_nat d) = Ok (seg_value (seg_at tr 0) t d)) /\
  (tr_K tr = 0%nat -> t <= 0 -> traj_evaluate tr t (Z.of_nat d) = UB).
Proof.
  intros Hw Hn. repeat split; intros.
  - rewrite (evaluate_end tr t _ Hn); auto.
    destruct (traj_wf_seg tr (tr_K tr - 1) Hw) as (_ & _ & W & L); [lia|]. now apply seg_evaluate_value.
  - now apply evaluate_out.
  - rewrite (evaluate_in tr 0 t _ Hn); auto.
    + rewrite start_time_0, Rminus_0_r.
      destruct (traj_wf_seg tr 0 Hw) as (_ & _ & W & L); [lia|]. now apply seg_evaluate_value.
    + rewrite start_time_S, start_time_0 by auto.
      pose proof (nonneg_nth (tr_segments tr) 0 no_segment Hn H0). unfold seg_at. lra.
  - unfold tr_K in H. apply length_zero_iff_nil in H. rewrite evaluate_empty by auto.
    destruct (Rlt_dec 0 t); [lra|reflexivity].
Qed.
Print Assumptions C14_evaluate_elsewhere.

(** At t = 2 the second segment is used, at local time 1: (1 + 1, 1 + 2 + 1). *)
Example C14_example :
  traj_wf ex_tr /\ times_nonneg ex_tr /\ (0 < tr_K ex_tr)%nat /\ 0 <= 2 < duration ex_tr /\
  traj_evaluate ex_tr 2 0 = Ok [2; 4].
Proof.
  split; [exact ex_wf|]. split; [exact ex_nonneg|]. split; [cbv; lia|].
  split; [rewrite ex_duration; lra|].
  rewrite (evaluate_in ex_tr 1 2 0 ex_nonneg); [|cbv; lia|right; rewrite ex_start1; lra|rewrite ex_start2; lra].
  rewrite ex_start1. rcompute. repeat f_equal; lra.
Qed.

(** ** C15: evaluation at the total time, bit-exactly *)
(** For every arithmetic with an irreflexive and asymmetric comparison and every
    history of operations: the value at getMaxTime() is the value of some
    segment, not the zero vector of the out-of-range branch. *)
Theorem C15_max_time_in_range {T} {ops : NumOps T}
  (irrefl : forall x : T, nltb x x = false)
  (asym : forall x y : T, nltb x y = true -> nltb y x = false)
  (rf : root_oracle) (history : list (top T)) (tr : trajectory T) (d : Z) :
  ofold (run_top rf) history traj_new = Ok tr -> (0 < tr_K tr)%nat ->
  exists i s x, nth_error (tr_segments tr) i = Some s /\
    traj_evaluate tr (tr_max_time tr) d = seg_evaluate s x d.
Proof.
  intros H HK. apply evaluate_max_in_range; auto.
  eapply run_tops_inv; [|exact H]. apply consistent_empty.
Qed.
Print Assumptions C15_max_time_in_range.

(** Doubles satisfy the hypotheses; NaN segment times are included. *)
Theorem C15_max_time_in_range_double (rf : root_oracle) (history : list (top b64))
  (tr : trajectory b64) (d : Z) :
  ofold (@run_top b64 B64_ops rf) history (@traj_new b64 B64_ops) = Ok tr -> (0 < tr_K tr)%nat ->
  exists i s x, nth_error (tr_segments tr) i = Some s /\
    @traj_evaluate b64 B64_ops tr (tr_max_time tr) d = @seg_evaluate b64 B64_ops s x d.
Proof. exact (C15_max_time_in_range b64_ltb_irrefl b64_ltb_asym rf history tr d). Qed.
Print Assumptions C15_max_time_in_range_double.

(** With non-negative (possibly infinite) double segment times it is the last
    segment. *)
Theorem C15_max_time_last_segment (rf : root_oracle) (history : list (top b64))
  (tr : trajectory b64) (s : segment b64) (d : Z) :
  ofold (@run_top b64 B64_ops rf) history (@traj_new b64 B64_ops) = Ok tr ->
  times_fnn tr -> nth_error (tr_segments tr) (tr_K tr - 1) = Some s ->
  @traj_evaluate b64 B64_ops tr (tr_max_time tr) d =
  @seg_evaluate b64 B64_ops s
    (@nsub b64 B64_ops (tr_max_time tr) (@nsub b64 B64_ops (tr_max_time tr) (seg_time s))) d.
Proof.
  intros H Hf Hs. apply evaluate_at_max; auto.
  eapply run_tops_inv; [|exact H]. apply consistent_empty.
Qed.
Print Assumptions C15_max_time_last_segment.

(** Every partial sum of the segment times, as accumulated by getVertices, is in
    range; and it hits segment i when its time is not absorbed by rounding. *)
Theorem C15_boundaries (tr : trajectory b64) :
  @boundary_times b64 B64_ops (tr_segments tr) (@n0 b64 B64_ops) =
    map (fun i => @partial_time b64 B64_ops tr (S i)) (seq 0 (tr_K tr)) /\
  (times_fnn tr -> (0 < tr_K tr)%nat -> forall i d,
     exists j s x, nth_error (tr_segments tr) j = Some s /\
       @traj_evaluate b64 B64_ops tr (@partial_time b64 B64_ops tr i) d = @seg_evaluate b64 B64_ops s x d) /\
  (times_fnn tr -> forall i s d, nth_error (tr_segments tr) i = Some s ->
     @nltb b64 B64_ops (@partial_time b64 B64_ops tr i) (@partial_time b64 B64_ops tr (S i)) = true ->
     @traj_evaluate b64 B64_ops tr (@partial_time b64 B64_ops tr i) d =
     @seg_evaluate b64 B64_ops s
       (@nsub b64 B64_ops (@partial_time b64 B64_ops tr i)
          (@nsub b64 B64_ops (@partial_time b64 B64_ops tr (S i)) (seg_time s))) d).
Proof.
  split; [|split].
  - exact (@boundary_times_partial b64 B64_ops (tr_segments tr) n0).
  - intros. now apply evaluate_partial_in_range.
  - intros. now apply evaluate_boundary.
Qed.
Print Assumptions C15_boundaries.

(** Three segments of 0.1 s: the accumulated 0.1 + 0.1 + 0.1 is not 0.3. *)
Definition ex_tenth : b64 := @nlit b64 B64_ops 1 10.
Definition ex_fseg : segment b64 := mkSegment 2 [[ex_tenth; @n1 b64 B64_ops]] ex_tenth.
Example C15_example :
  exists tr, ofold (@run_top b64 B64_ops (fun _ => (true, []))) [TopSet [ex_fseg; ex_fseg; ex_fseg]]
               (@traj_new b64 B64_ops) = Ok tr /\
    (0 < tr_K tr)%nat /\ times_fnn tr /\ nth_error (tr_segments tr) (tr_K tr - 1) = Some ex_fseg /\
    @neqb b64 B64_ops (tr_max_time tr) (@nlit b64 B64_ops 3 10) = false /\
    @nltb b64 B64_ops (@partial_time b64 B64_ops tr 1) (@partial_time b64 B64_ops tr 2) = true.
Proof.
  eexists. split; [reflexivity|]. split; [cbv; lia|]. split; [repeat constructor|].
  split; [reflexivity|]. split; vm_compute; reflexivity.
Qed.

(** ** C16: evaluateRange samples the requested window *)
(** Holds when t_start is the start of a segment; the full statement asks for
    every 0 <= t_start <= t_end <= max_time.  [fuel] bounds the loop iterations;
    the hypothesis on it is satisfiable (see C17). *)
Theorem C16_evaluateRange_partial (tr : trajectory R) (d j m fuel : nat) (t_end dt : R) :
  traj_wf tr -> times_nonneg tr -> 0 < dt -> (j < tr_K tr)%nat ->
  let t_start := start_time tr j in
  0 < seg_time (seg_at tr j) -> t_start <= t_end <= duration tr ->
  (t_end - t_start) / dt + 1 < IZR (2 ^ 59) ->
  t_end <= t_start + INR m * dt -> (m + tr_K tr < fuel)%nat ->
  exists vs ts, traj_evaluateRange fuel tr t_start t_end dt (Z.of_nat d) = Ok (Some (vs, ts)) /\
    window_samples tr d t_start t_end dt vs ts.
Proof.
  intros Hw Hn Hdt Hj t_start Ht Hend Hs Hm Hf.
  assert (Hb : start_time tr j <= t_start < start_time tr (S j)).
  { rewrite (start_time_S tr j Hj). unfold t_start. lra. }
  destruct (evaluateRange_spec tr d t_start t_end dt j m fuel Hw Hn Hdt Hj Hb ltac:(lra) Hs Hm Hf)
    as (vs & ts & E & Hr).
  exists vs, ts. split; auto. apply range_result_window; auto. lra.
Qed.
Print Assumptions C16_evaluateRange_partial.
Example C16_example :
  traj_wf ex_tr /\ times_nonneg ex_tr /\ (1 < tr_K ex_tr)%nat /\ 0 < seg_time (seg_at ex_tr 1) /\
  start_time ex_tr 1 <= 2 <= duration ex_tr /\ (2 - start_time ex_tr 1) / (1/4) + 1 < IZR (2 ^ 59) /\
  2 <= start_time ex_tr 1 + INR 4 * (1/4).
Proof.
  rewrite ex_start1, ex_duration. split; [exact ex_wf|]. split; [exact ex_nonneg|].
  split; [cbv; lia|]. split; [simpl; lra|]. split; [lra|]. split; [|simpl; lra].
  replace ((2 - 1) / (1/4) + 1) with 5 by lra. apply IZR_lt. reflexivity.
Qed.

(** What happens for every t_start: the values are those at t_start + k dt, but
    the labels (and the stopping test) count from the start of the segment that
    contains t_start. *)
Theorem C16_actual_labels (tr : trajectory R) (d j m fuel : nat) (t_start t_end dt : R) :
  traj_wf tr -> times_nonneg tr -> 0 < dt ->
  (j < tr_K tr)%nat -> start_time tr j <= t_start < start_time tr (S j) ->
  t_start <= t_end -> (t_end - t_start) / dt + 1 < IZR (2 ^ 59) ->
  t_end <= start_time tr j + INR m * dt -> (m + tr_K tr < fuel)%nat ->
  exists vs ts, traj_evaluateRange fuel tr t_start t_end dt (Z.of_nat d) = Ok (Some (vs, ts)) /\
    length vs = length ts /\
    (forall k, (k < length vs)%nat ->
       nth k ts 0 = start_time tr j + INR k * dt /\ nth k ts 0 < t_end /\
       t_start + INR k * dt <= duration tr /\
       value_at tr d (t_start + INR k * dt) (nth k vs [])) /\
    (t_end <= start_time tr j + INR (length vs) * dt \/ duration tr < t_start + INR (length vs) * dt).
Proof.
  intros Hw Hn Hdt Hj Hb Hend Hs Hm Hf.
  destruct (evaluateRange_spec tr d t_start t_end dt j m fuel Hw Hn Hdt Hj Hb Hend Hs Hm Hf)
    as (vs & ts & E & Hl & Hk & He).
  exists vs, ts. split; [exact E|]. split; [exact Hl|]. split; [|exact He].
  intros k H. destruct (Hk k H) as (E1 & E2 & E3 & i & Hi & Hi2 & Hi3).
  split; [exact E1|]. split; [rewrite E1; exact E2|]. split; [exact E3|].
  exists i. auto.
Qed.
Print Assumptions C16_actual_labels.
Example C16_actual_labels_example :
  (0 < tr_K ex_tr)%nat /\ start_time ex_tr 0 <= 1/2 < start_time ex_tr 1 /\ 1/2 <= 1 /\
  (1 - 1/2) / (1/4) + 1 < IZR (2 ^ 59) /\ 1 <= start_time ex_tr 0 + INR 4 * (1/4).
Proof.
  rewrite ex_start1, start_time_0. split; [cbv; lia|]. split; [lra|]. split; [lra|].
  split; [|simpl; lra]. replace ((1 - 1/2) / (1/4) + 1) with 3 by lra. apply IZR_lt. reflexivity.
Qed.

(** Sampling [1/2, 1] of the example gives four samples instead of two, at
    1/2, 3/4, 1 and 5/4 but labelled 0, 1/4, 1/2 and 3/4. *)
Theorem C16_evaluateRange_refuted :
  exists (tr : trajectory R) t_start t_end dt fuel vs ts,
    traj_wf tr /\ times_nonneg tr /\ 0 < dt /\ 0 <= t_start <= t_end /\ t_end <= duration tr /\
    traj_evaluateRange fuel tr t_start t_end dt 0 = Ok (Some (vs, ts)) /\
    ~ window_samples tr 0 t_start t_end dt vs ts.
Proof.
  destruct C16_actual_labels_example as (HK & Hb & Hle & Hs & Hm).
  destruct (C16_actual_labels ex_tr 0 0 4 7 (1/2) 1 (1/4) ex_wf ex_nonneg ltac:(lra) HK Hb Hle Hs Hm
    ltac:(cbv; lia)) as (vs & ts & E & Hl & Hk & He).
  exists ex_tr, (1/2), 1, (1/4), 7%nat, vs, ts.
  split; [exact ex_wf|]. split; [exact ex_nonneg|]. split; [lra|]. split; [lra|].
  split; [rewrite ex_duration; lra|]. split; [exact E|].
  intros (n & Hn & Hts & _).
  assert (H0 : (0 < n)%nat) by (apply Hn; simpl; lra).
  assert (Hlen : length ts = n) by (rewrite Hts, map_length, seq_length; auto).
  destruct (Hk 0%nat) as (Ek & _); [lia|].
  assert (F : nth 0 ts 0 = 1/2).
  { rewrite Hts. destruct n; [lia|]. simpl. lra. }
  rewrite F, start_time_0 in Ek. simpl in Ek. lra.
Qed.
Print Assumptions C16_evaluateRange_refuted.

(** ** C17: evaluateRange stays in range and terminates *)
(** Full statement: for every 0 <= t_start <= t_end <= max_time and dt > 0.
    Proved for t_start < max_time and fewer than 2^59 samples: there is a number
    of iterations after which the loop has ended without undefined behaviour. *)
Theorem C17_evaluateRange_total_partial (tr : trajectory R) (d : nat) (t_start t_end dt : R) :
  traj_wf tr -> times_nonneg tr -> 0 < dt -> (0 < tr_K tr)%nat ->
  0 <= t_start < duration tr -> t_start <= t_end -> (t_end - t_start) / dt + 1 < IZR (2 ^ 59) ->
  exists fuel0, forall fuel, (fuel0 <= fuel)%nat ->
    exists vs ts, traj_evaluateRange fuel tr t_start t_end dt (Z.of_nat d) = Ok (Some (vs, ts)).
Proof.
  intros Hw Hn Hdt HK Ht Hle Hs. destruct (find_index tr t_start HK Ht) as (j & Hj & Hb).
  destruct (steps_exist dt (t_end - start_time tr j) Hdt) as (m & Hm).
  exists (S (m + tr_K tr)). intros fuel Hf.
  destruct (evaluateRange_spec tr d t_start t_end dt j m fuel Hw Hn Hdt Hj Hb Hle Hs ltac:(lra) ltac:(lia))
    as (vs & ts & E & _). eauto.
Qed.
Print Assumptions C17_evaluateRange_total_partial.
Example C17_example :
  traj_wf ex_tr /\ times_nonneg ex_tr /\ (0 < tr_K ex_tr)%nat /\ 0 <= 1/2 < duration ex_tr /\
  (3 - 1/2) / (1/4) + 1 < IZR (2 ^ 59).
Proof.
  rewrite ex_duration. split; [exact ex_wf|]. split; [exact ex_nonneg|]. split; [cbv; lia|].
  split; [lra|]. replace ((3 - 1/2) / (1/4) + 1) with 11 by lra. apply IZR_lt. reflexivity.
Qed.

(** Starting at the end of any trajectory reads segments_[K]. *)
Theorem C17_start_at_end_out_of_bounds (tr : trajectory R) (d : Z) (dt : R) (fuel : nat) :
  times_nonneg tr -> 0 < dt -> traj_evaluateRange fuel tr (duration tr) (duration tr) dt d = UB.
Proof.
  intros Hn Hdt. apply evaluateRange_end; auto; [lra|].
  replace ((duration tr - duration tr) / dt + 1) with 1 by (field; lra). apply IZR_lt. reflexivity.
Qed.
Print Assumptions C17_start_at_end_out_of_bounds.
Theorem C17_evaluateRange_refuted :
  exists (tr : trajectory R) t_start t_end dt d,
    traj_wf tr /\ times_nonneg tr /\ (0 < tr_K tr)%nat /\ 0 < dt /\
    0 <= t_start <= t_end /\ t_end <= tr_max_time tr /\
    forall fuel, traj_evaluateRange fuel tr t_start t_end dt d = UB.
Proof.
  exists ex_tr, 3, 3, 1, 0%Z. split; [exact ex_wf|]. split; [exact ex_nonneg|].
  split; [cbv; lia|]. split; [lra|]. split; [lra|]. split; [simpl; lra|].
  intro fuel. rewrite <- ex_duration. apply C17_start_at_end_out_of_bounds; [exact ex_nonneg|lra].
Qed.
Print Assumptions C17_evaluateRange_refuted.
(** A sample count of 2^59 or more makes reserve() throw. *)
Theorem C17_many_samples_refuted :
  exists (tr : trajectory R) t_start t_end dt d,
    traj_wf tr /\ times_nonneg tr /\ (0 < tr_K tr)%nat /\ 0 < dt /\
    0 <= t_start <= t_end /\ t_end <= tr_max_time tr /\
    forall fuel, traj_evaluateRange fuel tr t_start t_end dt d = Throw.
Proof.
  exists ex_tr, 0, 2, (2 / IZR (2 ^ 59)), 0%Z. split; [exact ex_wf|]. split; [exact ex_nonneg|].
  split; [cbv; lia|].
  assert (P : 0 < IZR (2 ^ 59)) by (apply IZR_lt; reflexivity).
  assert (P1 : 1 < IZR (2 ^ 59)) by (apply IZR_lt; reflexivity).
  assert (P2 : IZR (2 ^ 59) + 1 < IZR (2 ^ 64))
    by (rewrite <- plus_IZR; apply IZR_lt; reflexivity).
  split; [apply Rdiv_lt_0_compat; lra|]. split; [lra|]. split; [simpl; lra|].
  intro fuel. unfold traj_evaluateRange. unfold n1. rnum.
  replace ((2 - 0) / (2 / IZR (2 ^ 59)) + 1) with (IZR (2 ^ 59) + 1) by (field; lra).
  rewrite reserve_throw by lra. reflexivity.
Qed.
Print Assumptions C17_many_samples_refuted.
(** In doubles, dt = 0 converts an infinite value to an integer. *)
Theorem C17_zero_step_refuted :
  exists (tr : trajectory b64) t_start t_end d, (0 < tr_K tr)%nat /\
    forall fuel, @traj_evaluateRange b64 B64_ops fuel tr t_start t_end (@n0 b64 B64_ops) d = UB.
Proof.
  exists (mkTraj 1 2 [ex_fseg] ex_tenth), (@n0 b64 B64_ops), ex_tenth, 0%Z.
  split; [cbv; lia|]. intro fuel.
  unfold traj_evaluateRange.
  replace (reserve_samples _) with (@UB unit) by (vm_compute; reflexivity). reflexivity.
Qed.
Print Assumptions C17_zero_step_refuted.

(** ** C18: bookkeeping invariant *)
(** For every arithmetic and every history starting from a new trajectory. *)
Theorem C18_invariant {T} {ops : NumOps T} (rf : root_oracle) (history : list (top T)) (tr : trajectory T) :
  ofold (run_top rf) history traj_new = Ok tr ->
  (forall s, In s (tr_segments tr) -> seg_D s = tr_D tr /\ seg_N s = tr_N tr) /\
  tr_max_time tr = fold_left nadd (traj_getSegmentTimes tr) n0.
Proof.
  intro H. destruct (run_tops_inv rf history traj_new tr (consistent_empty 0 0) H) as [H1 H2].
  split; [now apply List.Forall_forall|exact H2].
Qed.
Print Assumptions C18_invariant.
Example C18_example :
  exists tr, ofold (run_top (fun _ => (true, []))) [TopSet [ex_s0]; TopAdd [ex_s1; ex_s0]; TopScale 2] traj_new = Ok tr /\
    tr_K tr = 3%nat /\ tr_D tr = 2%nat /\ tr_N tr = 3%nat /\ tr_max_time tr = 8.
Proof.
  cbn [ofold run_top traj_setSegments]. rewrite addSegments_ok by repeat constructor.
  cbn [obind ofold run_top].
  rewrite addSegments_ok by (repeat constructor). cbn [obind ofold run_top].
  eexists. split; [reflexivity|]. unfold traj_scale.
  replace (nltb (T:=R) 2 (nlit 1 1000000)) with false.
  2:{ symmetry. unfold nlit. rnum. apply Rltb_false. lra. }
  repeat split. simpl. unfold n0, n1. rnum. lra.
Qed.
Theorem C18_mismatch_aborts {T} {ops : NumOps T} (tr : trajectory T) (segs : list (segment T)) :
  (traj_addSegments tr segs = Abort <->
     exists s, In s segs /\ ~ (seg_D s = tr_D tr /\ seg_N s = tr_N tr)) /\
  (traj_setSegments tr segs = Abort <->
     segs = [] \/ exists s r, In s segs /\ In r segs /\ ~ (seg_D s = seg_D r /\ seg_N s = seg_N r)) /\
  (forall tr', traj_setSegments tr segs = Ok tr' -> tr_segments tr' = segs) /\
  (forall tr', traj_addSegments tr segs = Ok tr' ->
     tr_segments tr' = tr_segments tr ++ segs /\ tr_D tr' = tr_D tr /\ tr_N tr' = tr_N tr).
Proof.
  assert (A : forall tr : trajectory T, traj_addSegments tr segs = Abort <->
     exists s, In s segs /\ ~ (seg_D s = tr_D tr /\ seg_N s = tr_N tr)).
  { clear tr. intro tr.
    assert (Dec : forall s : segment T, {seg_D s = tr_D tr /\ seg_N s = tr_N tr} + {~ (seg_D s = tr_D tr /\ seg_N s = tr_N tr)}).
    { intro s. destruct (Nat.eq_dec (seg_D s) (tr_D tr)), (Nat.eq_dec (seg_N s) (tr_N tr)); tauto. }
    split.
    - intro H. destruct (Forall_Exists_dec _ Dec segs) as [F|E].
      + rewrite (addSegments_ok tr segs F) in H. discriminate.
      + apply Exists_exists in E. exact E.
    - intros (s & Hs & Hn). apply addSegments_abort. intro F.
      rewrite List.Forall_forall in F. exact (Hn (F s Hs)). }
  split; [apply A|]. split; [|split].
  - split.
    + intro H. destruct segs as [|s segs']; [now left|]. right. cbn [traj_setSegments] in H.
      apply A in H. destruct H as (r & Hr & Hne). exists r, s. split; [exact Hr|].
      split; [now left|exact Hne].
    + intros [->|(s & r & Hs & Hr & Hne)]; [reflexivity|].
      destruct segs as [|s0 segs']; [reflexivity|]. cbn [traj_setSegments]. apply A. cbn [tr_D tr_N].
      destruct (Nat.eq_dec (seg_D s) (seg_D s0)), (Nat.eq_dec (seg_N s) (seg_N s0));
        try (exists s; split; [exact Hs|tauto]).
      exists r. split; [exact Hr|]. intros [E1 E2]. apply Hne. split; congruence.
  - intros tr' H. apply setSegments_inv in H. tauto.
  - intros tr' H. destruct (Forall_Exists_dec (fun s : segment T => seg_D s = tr_D tr /\ seg_N s = tr_N tr)) with (l := segs) as [F|E].
    + intro s. destruct (Nat.eq_dec (seg_D s) (tr_D tr)), (Nat.eq_dec (seg_N s) (tr_N tr)); tauto.
    + rewrite (addSegments_ok tr segs F) in H. apply Ok_inj in H. subst tr'. auto.
    + apply Exists_exists in E. apply A in E. rewrite E in H. discriminate.
Qed.
Print Assumptions C18_mismatch_aborts.
Example C18_mismatch_example :
  traj_addSegments ex_tr [ex_s0; mkSegment 3 [[0; 0; 0]] 1] = Abort /\
  traj_setSegments ex_tr [ex_s0; mkSegment 2 [[0; 0]; [0; 0]] 1] = Abort /\
  exists tr', traj_addSegments ex_tr [ex_s1] = Ok tr' /\ tr_K tr' = 3%nat.
Proof. repeat split. eexists. split; reflexivity. Qed.
