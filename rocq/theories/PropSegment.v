(** C09-C13, C63: segments.  [dbl_max_R] below is written out as
    IZR (2^1024 - 2^971), i.e. DBL_MAX: values beyond it do not exist in double. *)
From Coq Require Import Reals Lra Lia List Arith ZArith Bool.
From Coquelicot Require Import Coquelicot.
From Verif Require Import Num RSum SpecPoly ModelPolynomial ModelSegment SpecSegment
  ProofPolynomial ProofSegment ProofSegment2 ProofSegment3.
Import ListNotations.
Open Scope R_scope.

(** * C09 *)
Theorem C09_multi_dimension_extrema :
  forall rf (s : segment R) (d : nat) (dims : list Z) (a b : R) (mn mx : extremum R),
    seg_wf s -> dims_ok s dims -> (2 <= length dims)%nat ->
    (d < seg_N s <= 22)%nat -> (d < 21)%nat -> a <= b ->
    (forall cs, length cs = (2 * (seg_N s - d) - 2)%nat ->
       (forall t, poly_fun cs t =
          lsum (map (fun k => seg_fun s (Z.to_nat k) d t * seg_fun s (Z.to_nat k) (S d) t) dims)) ->
       covers_real_roots (poly_fun cs) a b (snd (rf cs))) ->
    (forall t, a <= t <= b -> seg_norm s dims d t < IZR (2 ^ 1024 - 2 ^ 971)) ->
    exists cands emin emax,
      seg_candidates rf s (Z.of_nat d) a b dims = Ok (true, cands) /\
      seg_selectMinMax a b cands mn mx = Some (emin, emax) /\
      is_min_on (seg_norm s dims d) a b (ext_time emin) (ext_value emin) /\
      is_max_on (seg_norm s dims d) a b (ext_time emax) (ext_value emax).
Proof. exact multi_dim_extrema. Qed.
Print Assumptions C09_multi_dimension_extrema.

(** The maximum alone needs no bound on the values. *)
Theorem C09_multi_dimension_maximum :
  forall rf (s : segment R) (d : nat) (dims : list Z) (a b : R) (mn mx : extremum R),
    seg_wf s -> dims_ok s dims -> (2 <= length dims)%nat ->
    (d < seg_N s <= 22)%nat -> (d < 21)%nat -> a <= b ->
    (forall cs, length cs = (2 * (seg_N s - d) - 2)%nat ->
       (forall t, poly_fun cs t =
          lsum (map (fun k => seg_fun s (Z.to_nat k) d t * seg_fun s (Z.to_nat k) (S d) t) dims)) ->
       covers_real_roots (poly_fun cs) a b (snd (rf cs))) ->
    exists cands emin emax,
      seg_candidates rf s (Z.of_nat d) a b dims = Ok (true, cands) /\
      seg_selectMinMax a b cands mn mx = Some (emin, emax) /\
      is_max_on (seg_norm s dims d) a b (ext_time emax) (ext_value emax).
Proof. exact multi_dim_maximum. Qed.
Print Assumptions C09_multi_dimension_maximum.

(** The planar motion (t, 1-t) on [0,1] meets every hypothesis. *)
Example C09_nonvacuous :
  seg_wf seg_plane /\ dims_ok seg_plane [0%Z; 1%Z] /\ (0 < seg_N seg_plane <= 22)%nat /\
  (forall cs, length cs = (2 * (seg_N seg_plane - 0) - 2)%nat ->
     (forall t, poly_fun cs t =
        lsum (map (fun k => seg_fun seg_plane (Z.to_nat k) 0 t * seg_fun seg_plane (Z.to_nat k) 1 t) [0%Z; 1%Z])) ->
     covers_real_roots (poly_fun cs) 0 1 (snd ((fun _ : list R => (true, [(1 / 2, 0)])) cs))) /\
  (forall t, 0 <= t <= 1 -> seg_norm seg_plane [0%Z; 1%Z] 0 t < IZR (2 ^ 1024 - 2 ^ 971)).
Proof.
  split; [repeat constructor|]. split; [repeat constructor; cbn; lia|]. split; [cbn; lia|].
  split; [exact seg_plane_rf_ok|exact seg_plane_norm_bound].
Qed.

(** Selection inside an arbitrary window of an arbitrary candidate list. *)
Theorem C09_selection_in_window :
  forall (a b : R) (es : list (extremum R)) (mn mx : extremum R),
    a <= b ->
    (exists e, In e es /\ a <= ext_time e <= b) ->
    (forall e, In e es -> a <= ext_time e <= b -> Rabs (ext_value e) < IZR (2 ^ 1024 - 2 ^ 971)) ->
    exists emin emax, seg_selectMinMax a b es mn mx = Some (emin, emax) /\
      In emin es /\ a <= ext_time emin <= b /\ In emax es /\ a <= ext_time emax <= b /\
      forall e, In e es -> a <= ext_time e <= b -> ext_value emin <= ext_value e <= ext_value emax.
Proof. exact seg_selectMinMax_spec. Qed.
Print Assumptions C09_selection_in_window.

Example C09_selection_nonvacuous :
  let es := [mkExtremum 0 5 0; mkExtremum 1 3 0; mkExtremum 9 1 0] in
  (exists e, In e es /\ 0 <= ext_time e <= 2) /\
  (forall e, In e es -> 0 <= ext_time e <= 2 -> Rabs (ext_value e) < IZR (2 ^ 1024 - 2 ^ 971)).
Proof.
  cbv zeta. split.
  - exists (mkExtremum 0 5 0%Z). split; [left; reflexivity|cbn; lra].
  - intros e He _. apply Rlt_trans with 10; [|apply IZR_lt; reflexivity].
    destruct He as [<-|[<-|[<-|[]]]]; cbn [ext_value]; apply Rabs_def1; lra.
Qed.

(** * C10 *)
(** Full claim: with one dimension both the reported minimum and the reported
    maximum of |derivative| are the true ones.  Only the maximum is right (next
    theorem); the minimum is refuted below.  Missing: the minimum. *)
Theorem C10_single_dimension_maximum_partial :
  forall rf (s : segment R) (d : nat) (k : Z) (a b : R) (mn mx : extremum R),
    seg_wf s -> (0 <= k < Z.of_nat (seg_D s))%Z ->
    (d < seg_N s <= 22)%nat -> (d < 21)%nat -> a <= b ->
    (forall cs, length cs = seg_N s -> (forall t, poly_fun cs t = seg_fun s (Z.to_nat k) (S d) t) ->
      covers_real_roots (poly_fun cs) a b (snd (rf cs))) ->
    (forall t, a <= t <= b -> Rabs (seg_fun s (Z.to_nat k) d t) < IZR (2 ^ 1024 - 2 ^ 971)) ->
    exists cands emin emax,
      seg_candidates rf s (Z.of_nat d) a b [k] = Ok (true, cands) /\
      seg_selectMinMax a b cands mn mx = Some (emin, emax) /\
      is_max_on (fun t => Rabs (seg_fun s (Z.to_nat k) d t)) a b (ext_time emax) (ext_value emax) /\
      (a <= ext_time emin <= b) /\ ext_value emin = Rabs (seg_fun s (Z.to_nat k) d (ext_time emin)).
Proof. exact single_dim_maximum. Qed.
Print Assumptions C10_single_dimension_maximum_partial.

(** The maximum alone needs no bound on the values. *)
Theorem C10_single_dimension_maximum :
  forall rf (s : segment R) (d : nat) (k : Z) (a b : R) (mn mx : extremum R),
    seg_wf s -> (0 <= k < Z.of_nat (seg_D s))%Z ->
    (d < seg_N s <= 22)%nat -> (d < 21)%nat -> a <= b ->
    (forall cs, length cs = seg_N s -> (forall t, poly_fun cs t = seg_fun s (Z.to_nat k) (S d) t) ->
      covers_real_roots (poly_fun cs) a b (snd (rf cs))) ->
    exists cands emin emax,
      seg_candidates rf s (Z.of_nat d) a b [k] = Ok (true, cands) /\
      seg_selectMinMax a b cands mn mx = Some (emin, emax) /\
      is_max_on (fun t => Rabs (seg_fun s (Z.to_nat k) d t)) a b (ext_time emax) (ext_value emax).
Proof. exact single_dim_maximum_any. Qed.
Print Assumptions C10_single_dimension_maximum.

(** x(t) = t - 1 on [0,2]: |x| reaches 0, the code reports the minimum 1. The
    root finder is exact here (x' = 1 has no roots). *)
Theorem C10_single_dimension_minimum_refuted :
  exists rf (s : segment R) (d : nat) (k : Z) (a b : R),
    seg_wf s /\ (0 <= k < Z.of_nat (seg_D s))%Z /\ (d < seg_N s <= 22)%nat /\ a <= b /\
    (forall cs, length cs = seg_N s -> (forall t, poly_fun cs t = seg_fun s (Z.to_nat k) (S d) t) ->
      covers_real_roots (poly_fun cs) a b (snd (rf cs))) /\
    forall mn mx, exists cands emin emax,
      seg_candidates rf s (Z.of_nat d) a b [k] = Ok (true, cands) /\
      seg_selectMinMax a b cands mn mx = Some (emin, emax) /\
      ~ is_min_on (fun t => Rabs (seg_fun s (Z.to_nat k) d t)) a b (ext_time emin) (ext_value emin).
Proof.
  exists (fun _ => (true, [])), seg_line, 0%nat, 0%Z, 0, 2.
  split; [repeat constructor|]. split; [cbn; lia|]. split; [cbn; lia|]. split; [lra|]. split.
  - intros cs _ H. right. intros t _ Hz. exfalso. rewrite H, seg_fun_dpoly in Hz.
    revert Hz. rcompute. lra.
  - intros mn mx. destruct (seg_line_select mn mx) as (emin & emax & E & E1 & E2).
    eexists. exists emin, emax. split; [exact seg_line_candidates|]. split; [exact E|].
    intros (_ & _ & H). specialize (H 1 ltac:(lra)). rewrite E1 in H.
    change (Z.to_nat 0) with 0%nat in H. rewrite seg_line_fun in H.
    replace (1 - 1) with 0 in H by lra. rewrite Rabs_R0 in H. lra.
Qed.
Print Assumptions C10_single_dimension_minimum_refuted.

Example C10_nonvacuous :
  seg_wf seg_line /\ (0 <= 0 < Z.of_nat (seg_D seg_line))%Z /\ (0 < seg_N seg_line <= 22)%nat /\
  (forall t, 0 <= t <= 2 -> Rabs (seg_fun seg_line (Z.to_nat 0) 0 t) < IZR (2 ^ 1024 - 2 ^ 971)).
Proof.
  split; [repeat constructor|]. split; [cbn; lia|]. split; [cbn; lia|]. intros t Ht.
  change (Z.to_nat 0) with 0%nat. rewrite seg_line_fun.
  apply Rlt_trans with 10; [apply Rabs_def1; lra|apply IZR_lt; reflexivity].
Qed.

(** * C11 *)
(** Full claim: invalid requests make computeMinMaxMagnitudeCandidates return
    false and never read outside the segment.  What holds: the inner function
    reports failure exactly for no dimensions, a missing dimension or a reversed
    interval - if not exactly one dimension is requested. *)
Theorem C11_candidate_times_failure_iff_partial :
  forall rf (s : segment R) (d : nat) (dims : list Z) (a b : R),
    seg_wf s -> (d < seg_N s <= 22)%nat -> (d < 21)%nat -> length dims <> 1%nat ->
    (seg_candidateTimes rf s (Z.of_nat d) a b dims = Ok None <->
     dims = [] \/ ~ dims_ok s dims \/ b < a).
Proof. exact seg_candidateTimes_none_iff. Qed.
Print Assumptions C11_candidate_times_failure_iff_partial.

Example C11_nonvacuous :
  seg_wf seg_plane /\ (0 < seg_N seg_plane <= 22)%nat /\ length [0%Z; 7%Z] <> 1%nat /\
  ~ dims_ok seg_plane [0%Z; 7%Z].
Proof.
  split; [repeat constructor|]. split; [cbn; lia|]. split; [cbn; lia|].
  intros H. inversion H as [|? ? _ H2]. inversion H2 as [|? ? H3 _]. cbn in H3. lia.
Qed.

(** computeMinMaxMagnitudeCandidates never returns false ... *)
Theorem C11_candidates_never_false :
  forall (T : Type) (ops : NumOps T) rf (s : segment T) d (a b : T) dims ok es,
    seg_candidates rf s d a b dims = Ok (ok, es) -> ok = true.
Proof.
  intros T ops rf s d a b dims ok es. unfold seg_candidates.
  destruct (seg_candidateTimes rf s d a b dims) as [r| | |]; cbn [obind]; try discriminate.
  destruct (omap _ _) as [l| | |]; cbn [obind]; try discriminate.
  intros H. apply Ok_inj in H. congruence.
Qed.
Print Assumptions C11_candidates_never_false.

(** ... so failures are not reported: an invalid request (no dimensions, a
    missing dimension, a reversed interval) yields true and no candidates. *)
Theorem C11_failure_reported_refuted :
  exists rf (s : segment R) (d : Z) (a b : R) (dims : list Z),
    seg_wf s /\ a <= b /\ ~ dims_ok s dims /\
    seg_candidateTimes rf s d a b dims = Ok None /\
    seg_candidates rf s d a b dims = Ok (true, []).
Proof.
  exists (fun _ => (true, [])), seg_plane, 0%Z, 0, 1, [0%Z; 7%Z].
  assert (H : ~ dims_ok seg_plane [0%Z; 7%Z]).
  { intros H. inversion H as [|? ? _ H2]. inversion H2 as [|? ? H3 _]. cbn in H3. lia. }
  assert (E : seg_candidateTimes (fun _ => (true, [])) seg_plane 0 0 1 [0%Z; 7%Z] = Ok None).
  { apply (seg_candidateTimes_none_iff _ seg_plane 0); [repeat constructor|cbn; lia|lia|cbn; lia|tauto]. }
  split; [repeat constructor|]. split; [lra|]. split; [exact H|]. split; [exact E|].
  unfold seg_candidates. rewrite E. reflexivity.
Qed.
Print Assumptions C11_failure_reported_refuted.

(** With exactly one requested dimension the index is not checked. *)
Theorem C11_single_dimension_unchecked :
  forall rf (s : segment R) (d k : Z) (a b : R),
    ~ (0 <= k < Z.of_nat (seg_D s))%Z ->
    seg_candidates rf s d a b [k] = UB.
Proof.
  intros rf s d k a b Hk. unfold seg_candidates, seg_candidateTimes.
  destruct (Z.ltb_spec k 0); [reflexivity|]. rewrite oget_UB by (unfold seg_D in Hk; lia). reflexivity.
Qed.
Print Assumptions C11_single_dimension_unchecked.

(** With several dimensions a derivative order >= N makes the code allocate a
    vector of negative size. *)
Theorem C11_derivative_too_high_undefined :
  forall rf (s : segment R) (d : Z) (k1 k2 : Z) (dims : list Z) (a b : R),
    (Z.of_nat (seg_N s) <= d)%Z -> seg_candidates rf s d a b (k1 :: k2 :: dims) = UB.
Proof.
  intros rf s d k1 k2 dims a b Hd. unfold seg_candidates, seg_candidateTimes, getConvolutionLength.
  destruct (Z.ltb_spec (Z.of_nat (seg_N s) - d + (Z.of_nat (seg_N s) - d - 1) - 1) 0); [reflexivity|lia].
Qed.
Print Assumptions C11_derivative_too_high_undefined.

Theorem C11_never_out_of_range_refuted :
  exists rf (s : segment R) (d k : Z) (a b : R),
    seg_wf s /\ (0 <= d < Z.of_nat (seg_N s))%Z /\ a <= b /\ seg_candidates rf s d a b [k] = UB.
Proof.
  exists (fun _ => (true, [])), seg_line, 0%Z, 3%Z, 0, 2.
  split; [repeat constructor|]. split; [cbn; lia|]. split; [lra|reflexivity].
Qed.
Print Assumptions C11_never_out_of_range_refuted.

Example C11_refuted_nonvacuous :
  ~ (0 <= 3 < Z.of_nat (seg_D seg_line))%Z /\ (Z.of_nat (seg_N seg_plane) <= 2)%Z.
Proof. cbn. lia. Qed.

(** * C12 *)
Theorem C12_segment_evaluate :
  forall (s : segment R) (t : R) (d : Z),
    (0 <= d)%Z ->
    List.Forall (fun p => (length p <= 22)%nat \/ (Z.of_nat (length p) <= d)%Z) (seg_polys s) ->
    exists v, seg_evaluate s t d = Ok v /\ length v = seg_D s /\
      forall k, (k < seg_D s)%nat -> is_derive_n (poly_fun (nth k (seg_polys s) [])) (Z.to_nat d) t (nth k v 0).
Proof. exact seg_evaluate_spec. Qed.
Print Assumptions C12_segment_evaluate.

Theorem C12_single_dimension :
  forall (s : segment R) (k : Z),
    ((0 <= k < Z.of_nat (seg_D s))%Z -> exists r, seg_single s k = Ok (Some r) /\
       seg_D r = 1%nat /\ seg_N r = seg_N s /\ seg_time r = seg_time s /\
       forall d t, seg_fun r 0 d t = seg_fun s (Z.to_nat k) d t) /\
    (~ (0 <= k < Z.of_nat (seg_D s))%Z -> seg_single s k = Ok None).
Proof. exact seg_single_spec. Qed.
Print Assumptions C12_single_dimension.

Theorem C12_offset :
  forall (s : segment R) (o : list R),
    seg_wf s -> (1 <= seg_N s)%nat ->
    ((length o < Nat.min (seg_D s) 3)%nat -> seg_offset s o = None) /\
    ((Nat.min (seg_D s) 3 <= length o)%nat -> exists r, seg_offset s o = Some r /\
       seg_D r = seg_D s /\ seg_N r = seg_N s /\ seg_time r = seg_time s /\ seg_wf r /\
       (forall k t, (k < seg_D s)%nat ->
          seg_fun r k 0 t = seg_fun s k 0 t + (if Nat.ltb k 3 then nth k o 0 else 0)) /\
       (forall k d t, (k < seg_D s)%nat -> seg_fun r k (S d) t = seg_fun s k (S d) t)).
Proof. exact seg_offset_spec. Qed.
Print Assumptions C12_offset.

Example C12_nonvacuous :
  seg_wf seg_plane /\ (1 <= seg_N seg_plane)%nat /\ (Nat.min (seg_D seg_plane) 3 <= length [7; 8]%R)%nat /\
  List.Forall (fun p => (length p <= 22)%nat \/ (Z.of_nat (length p) <= 1)%Z) (seg_polys seg_plane) /\
  seg_evaluate seg_plane (1 / 2) 1 = Ok [1; -1].
Proof.
  split; [repeat constructor|]. split; [cbn; lia|]. split; [cbn; lia|]. split.
  - repeat constructor; left; cbn; lia.
  - pose proof (seg_evaluate_eq seg_plane (1 / 2) 1) as H. change (Z.of_nat 1) with 1%Z in H.
    rewrite H by (repeat constructor; left; cbn; lia).
    cbn [map seg_plane seg_polys]. rcompute. repeat f_equal; lra.
Qed.

(** * C13 *)
(** Full claim: for all segments with positive times.  It holds if the numbers
    of coefficients agree or the times agree; otherwise see the refutation. *)
Theorem C13_append_dimension_partial :
  forall (this app : segment R),
    seg_wf this -> seg_wf app ->
    (1 <= seg_N this)%nat -> (1 <= seg_N app)%nat -> (1 <= seg_D this)%nat -> (1 <= seg_D app)%nat ->
    0 < seg_time this -> 0 < seg_time app ->
    seg_N this = seg_N app \/ seg_time this = seg_time app ->
    exists r, seg_append ToOther this app = Ok (Some r) /\ seg_wf r /\
      seg_N r = Nat.max (seg_N this) (seg_N app) /\
      seg_D r = (seg_D this + seg_D app)%nat /\
      seg_time r = Rmax (seg_time this) (seg_time app) /\
      (forall k t, (k < seg_D this)%nat ->
         poly_fun (nth k (seg_polys r) []) t =
         poly_fun (nth k (seg_polys this) []) (t * (seg_time this / seg_time r))) /\
      (forall k t, (k < seg_D app)%nat ->
         poly_fun (nth (seg_D this + k) (seg_polys r) []) t =
         poly_fun (nth k (seg_polys app) []) (t * (seg_time app / seg_time r))).
Proof. exact seg_append_spec. Qed.
Print Assumptions C13_append_dimension_partial.

Example C13_nonvacuous :
  seg_wf seg_short /\ seg_wf (mkSegment 2 [[0; 0]] 2) /\ (1 <= seg_N seg_short)%nat /\
  0 < seg_time seg_short /\ seg_N seg_short = 2%nat /\
  exists r, seg_append ToOther seg_short (mkSegment 2 [[0; 0]] 2) = Ok (Some r) /\ seg_time r = 2 /\
    seg_polys r = [[0 * 1; 1 * (1 * (1 / 2))]; [0; 0]].
Proof.
  split; [repeat constructor|]. split; [repeat constructor|]. split; [cbn; lia|]. split; [cbn; lra|].
  split; [reflexivity|exact seg_append_equal_example].
Qed.

(** x(t) = t over 1 s (2 coefficients), appended by a 2 s segment with 3
    coefficients: the result lasts 2 s but the first dimension is not stretched. *)
Theorem C13_append_dimension_refuted :
  exists (this app r : segment R) (t : R),
    seg_wf this /\ seg_wf app /\ (1 <= seg_D this)%nat /\ (1 <= seg_D app)%nat /\
    0 < seg_time this /\ 0 < seg_time app /\
    seg_append ToOther this app = Ok (Some r) /\ seg_time r = Rmax (seg_time this) (seg_time app) /\
    poly_fun (nth 0 (seg_polys r) []) t <>
    poly_fun (nth 0 (seg_polys this) []) (t * (seg_time this / seg_time r)).
Proof.
  exists seg_short, seg_long3, (mkSegment 3 [[0; 1; 0]; [0; 0; 0]] 2), 2.
  split; [repeat constructor|]. split; [repeat constructor|]. split; [cbn; lia|]. split; [cbn; lia|].
  cbn [seg_time seg_short seg_long3]. split; [lra|]. split; [lra|].
  split; [exact seg_append_differing_example|]. split; [rewrite Rmax_right; lra|].
  unfold poly_fun. cbn. lra.
Qed.
Print Assumptions C13_append_dimension_refuted.

(** Operands without coefficients or dimensions: the other operand is returned. *)
Theorem C13_append_empty :
  forall (T : Type) (ops : NumOps T) target (this app : segment T),
    (seg_N this = 0%nat \/ seg_D this = 0%nat -> seg_append target this app = Ok (Some app)) /\
    (seg_N this <> 0%nat -> seg_D this <> 0%nat -> seg_N app = 0%nat \/ seg_D app = 0%nat ->
     seg_append target this app = Ok (Some this)).
Proof. exact @seg_append_empty. Qed.
Print Assumptions C13_append_empty.

(** * C63 *)
(** Full claim: the result of getSegmentWithAppendedDimension and
    getSegmentWithSingleDimension does not depend on whether the output object
    is one of the operands.  It holds when the output is the argument and the
    numbers of coefficients agree. *)
Theorem C63_append_into_argument_partial :
  forall (this app : segment R),
    seg_N this = seg_N app -> seg_append ToArgument this app = seg_append ToOther this app.
Proof. exact seg_append_to_argument_same_N. Qed.
Print Assumptions C63_append_into_argument_partial.

Theorem C63_append_into_argument_refuted :
  exists this app r r' : segment R,
    seg_wf this /\ seg_wf app /\
    seg_append ToOther this app = Ok (Some r) /\ seg_append ToArgument this app = Ok (Some r') /\ r <> r'.
Proof.
  destruct seg_append_to_argument_wrong as [E1 E2].
  exists seg_short, seg_long3. do 2 eexists. split; [repeat constructor|]. split; [repeat constructor|].
  split; [exact E1|]. split; [exact E2|]. intros H.
  assert (H' : 0 = 1) by congruence. lra.
Qed.
Print Assumptions C63_append_into_argument_refuted.

(** Appending to itself (output == this) aborts although it is well defined
    for a separate output (C13). *)
Theorem C63_append_into_this_aborts :
  forall (this app : segment R),
    (1 <= seg_N this)%nat -> seg_N this = seg_N app -> (1 <= seg_D this)%nat -> (1 <= seg_D app)%nat ->
    seg_append ToThis this app = Abort.
Proof. exact seg_append_to_this_aborts. Qed.
Print Assumptions C63_append_into_this_aborts.

Theorem C63_append_into_this_refuted :
  exists (this app r : segment R),
    seg_wf this /\ seg_wf app /\ 0 < seg_time this /\ 0 < seg_time app /\
    seg_append ToOther this app = Ok (Some r) /\ seg_append ToThis this app = Abort.
Proof.
  destruct seg_append_equal_example as (r & E & _).
  exists seg_short, (mkSegment 2 [[0; 0]] 2), r.
  split; [repeat constructor|]. split; [repeat constructor|]. split; [cbn; lra|]. split; [cbn; lra|].
  split; [exact E|]. apply seg_append_to_this_aborts; cbn; lia.
Qed.
Print Assumptions C63_append_into_this_refuted.

Theorem C63_single_dimension_into_this_refuted :
  exists (s : segment R) (r0 r1 r' : segment R),
    seg_wf s /\
    seg_single s 1 = Ok (Some r1) /\ seg_single_aliased s 1 = UB /\
    seg_single s 0 = Ok (Some r0) /\ seg_single_aliased s 0 = Ok (Some r') /\
    seg_time r' <> seg_time r0.
Proof.
  destruct seg_single_aliased_wrong as (E1 & E2 & E3 & E4).
  exists (mkSegment 2 [[1; 2]; [3; 4]] 5). do 3 eexists.
  split; [repeat constructor|]. split; [exact E1|]. split; [exact E2|]. split; [exact E3|]. split; [exact E4|].
  cbn. lra.
Qed.
Print Assumptions C63_single_dimension_into_this_refuted.

Example C63_nonvacuous :
  (1 <= seg_N seg_short)%nat /\ seg_N seg_short = seg_N seg_plane /\ (1 <= seg_D seg_plane)%nat.
Proof. cbn. lia. Qed.
