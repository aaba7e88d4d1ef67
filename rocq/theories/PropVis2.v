(** C77: thinning by time; C80: marker groups. *)
From Coq Require Import ZArith Reals List Bool Lia Lra String.
From Verif Require Import Num RSum ModelMotion ModelSampling ModelVis SpecVis PropVis.
Import ListNotations.
Notation length := List.length.
Notation concat := List.concat.

(** ** C77: drawing the points that are at least dt apart. *)
Lemma wrap32_id z : (0 <= z < 2 ^ 32)%Z -> wrap32 z = z.
Proof. intros H. apply Z.mod_small. exact H. Qed.
(** Stamps that fit into 32 bits and do not decrease. *)
Definition stamps_ok {T} (ps : list (point T)) : Prop :=
  (forall p, In p ps -> (0 <= pt_time_ns p < 2 ^ 32)%Z) /\
  (forall i j, (i <= j < length ps)%nat -> (nth i (map pt_time_ns ps) 0 <= nth j (map pt_time_ns ps) 0)%Z).
Lemma filter_thinned {T} {ops : NumOps T} n (all : list (point T)) : stamps_ok all -> forall ps pre t0, all = pre ++ ps ->
  (0 <= t0 < 2 ^ 32)%Z -> (forall p, In p ps -> (t0 <= pt_time_ns p)%Z) ->
  exists I, thinned n (map pt_time_ns all) t0 (length pre) I /\ time_filter n t0 ps = map (fun i => nth i all point_new) I.
Proof.
  intros (B & S). induction ps as [|p ps IH]; intros pre t0 E H0 Hp.
  - exists []. split; [|reflexivity]. cbn. rewrite map_length, E, app_nil_r. intros k Hk. lia.
  - assert (E' : all = (pre ++ [p]) ++ ps) by (rewrite <- app_assoc; exact E).
    assert (L : length (pre ++ [p]) = Datatypes.S (length pre)) by (rewrite app_length; cbn; lia).
    assert (Hin : In p all) by (rewrite E; apply in_or_app; right; left; reflexivity).
    assert (Np : nth (length pre) all point_new = p) by (rewrite E, app_nth2, Nat.sub_diag by lia; reflexivity).
    assert (Nt : nth (length pre) (map pt_time_ns all) 0%Z = pt_time_ns p).
    { rewrite E, map_app, app_nth2; rewrite map_length; [|lia]. rewrite Nat.sub_diag. reflexivity. }
    assert (La : (length pre < length all)%nat) by (rewrite E, app_length; cbn; lia).
    cbn [time_filter]. rewrite (wrap32_id (pt_time_ns p)) by (apply B, Hin).
    assert (Q := Hp p (or_introl eq_refl)). assert (Q' := B p Hin). rewrite wrap32_id by lia.
    destruct (Z.leb_spec n (pt_time_ns p - t0)) as [Hn|Hn].
    + destruct (IH (pre ++ [p]) (pt_time_ns p) E' Q') as (I & Th & F).
      { intros p' Hp'. destruct (In_nth _ _ point_new Hp') as (k & Hk & <-).
        assert (X := S (length pre) (length (pre ++ [p]) + k)%nat). rewrite Nt in X.
        replace (nth (length (pre ++ [p]) + k) (map pt_time_ns all) 0%Z) with (pt_time_ns (nth k ps point_new)) in X.
        - apply X. assert (La' : length all = (length (pre ++ [p]) + length ps)%nat) by (rewrite E' at 1; apply app_length). lia.
        - rewrite E' at 1. rewrite map_app, app_nth2; rewrite map_length; [|lia].
          replace (length (pre ++ [p]) + k - length (pre ++ [p]))%nat with k by lia.
          rewrite nth_indep with (d' := pt_time_ns (@point_new T ops)) by (rewrite map_length; exact Hk). symmetry. apply map_nth. }
      exists (length pre :: I). rewrite F. split; [|cbn [map]; rewrite Np; reflexivity].
      cbn [thinned]. rewrite Nt, map_length. split; [lia|]. split; [exact Hn|]. split; [intros k Hk; lia|]. rewrite L in Th. exact Th.
    + destruct (IH (pre ++ [p]) t0 E' H0) as (I & Th & F); [intros p' Hp'; apply Hp; right; exact Hp'|].
      exists I. split; [|exact F]. rewrite L in Th. destruct I as [|j I]; cbn [thinned] in Th |- *.
      * intros k Hk. destruct (Nat.eq_dec k (length pre)) as [->|]; [rewrite Nt; exact Hn|apply Th; lia].
      * destruct Th as (A1 & A2 & A3 & A4). split; [lia|]. split; [exact A2|]. split; [|exact A4].
        intros k Hk. destruct (Nat.eq_dec k (length pre)) as [->|]; [rewrite Nt; exact Hn|apply A3; lia].
Qed.
(** The first and the last point are always drawn; of those between them, each point
    at least dt after the previously drawn one (after time 0 for the first of them)
    is drawn, and no other.  Stamps below 2^32 ns in order, dt below 2^32 ns. *)
Theorem C77_by_time_partial mp (a b : point R) (mid : list (point R)) (dt : R) frame arr :
  stamps_ok mid -> (0 <= 10 ^ 9 * dt < IZR (2 ^ 32))%R ->
  List.Forall (fun p => length (pt_position p) = 3%nat) (a :: mid ++ [b]) ->
  exists n I out before line, (IZR n <= 10 ^ 9 * dt < IZR n + 1)%R /\ thinned n (map pt_time_ns mid) 0 0 I /\
    drawSampledByTime mp (a :: mid ++ [b]) dt frame arr = Ok out /\ out = before ++ [line] /\ labelled frame out /\ mk_type line = 4%Z /\
    mk_points line = pt_position a :: map (fun i => pt_position (nth i mid point_new)) I ++ [pt_position b].
Proof.
  intros Hs Hdt H3. unfold drawSampledByTime, filter_by_time, to_uint32. rnum.
  replace (dt * IZR (10 ^ 9))%R with (10 ^ 9 * dt)%R by (rewrite Rmult_comm; f_equal; rewrite pow_IZR; reflexivity).
  unfold Rtrunc. destruct (Rlt_dec (10 ^ 9 * dt) 0) as [Hl|_]; [lra|]. destruct (base_Int_part (10 ^ 9 * dt)) as (I1 & I2).
  set (n := Int_part (10 ^ 9 * dt)) in *.
  assert (N0 : (0 <= n)%Z). { apply Znot_gt_le. intros Hg. assert (Q : (n <= -1)%Z) by lia. apply IZR_le in Q. lra. }
  assert (N1 : (n < 2 ^ 32)%Z) by (apply lt_IZR; lra).
  rewrite (proj2 (Z.leb_le _ _) N0), (proj2 (Z.ltb_lt _ _) N1). cbn [andb obind].
  destruct (filter_thinned n mid Hs mid [] 0 eq_refl) as (I & Th & F); [lia|intros p Hp; apply (proj1 Hs), Hp|].
  rewrite removelast_last, F. rewrite (app_comm_cons mid [b] a), last_last.
  set (fl := (a :: map (fun i => nth i mid point_new) I ++ [b])).
  assert (H3' : List.Forall (fun p => length (pt_position p) = 3%nat) fl).
  { rewrite List.Forall_forall in H3 |- *. intros p [<-|Hp]; [apply H3; left; reflexivity|]. apply in_app_or in Hp. destruct Hp as [Hp|[<-|[]]].
    - rewrite <- F in Hp. apply H3. right. apply in_or_app. left. clear -Hp. revert Hp. generalize 0%Z.
      induction mid as [|q mid IH]; intros t Hp; cbn [time_filter] in Hp; [destruct Hp|].
      destruct (Z.leb _ _) in Hp; [destruct Hp as [<-|Hp]; [left; reflexivity|]|]; right; eapply IH; exact Hp.
    - apply H3. right. apply in_or_app. right. left. reflexivity. }
  destruct (C75_path mp fl n0 frame [] arr arr H3') as (_ & Lb & before & line & E & A & _ & C & _).
  exists n, I. eexists. exists before, line. split; [lra|]. split; [exact Th|]. split; [reflexivity|]. split; [exact E|]. split; [exact Lb|].
  split; [exact A|]. rewrite C. unfold fl. cbn [map]. rewrite map_app, map_map. reflexivity.
Qed.
Print Assumptions C77_by_time_partial.
Example C77_example : let mid := [sample 1 400000000; sample 2 1200000000; sample 3 1700000000] in
  stamps_ok mid /\ (0 <= 10 ^ 9 * 1 < IZR (2 ^ 32))%R /\
  List.Forall (fun p => length (pt_position p) = 3%nat) (sample 0 0 :: mid ++ [sample 4 1900000000]) /\
  thinned (10 ^ 9) (map pt_time_ns mid) 0 0 [1%nat].
Proof.
  cbv zeta. split; [split|split; [|split]].
  - intros p [<-|[<-|[<-|[]]]]; cbn; lia.
  - intros [|[|[|i]]] [|[|[|j]]] Hij; cbn in *; lia.
  - split; [lra|]. apply Rle_lt_trans with (IZR 1000000000); [lra|apply IZR_lt; reflexivity].
  - repeat constructor.
  - cbn [thinned map sample pt_time_ns length nth]. split; [lia|]. split; [lia|]. split.
    + intros k Hk. replace k with 0%nat by lia. cbn. lia.
    + intros k Hk. replace k with 2%nat by lia. cbn. lia.
Qed.

(** The documented spacing ("a minimum of dt apart in time") does not hold for the
    last point, ... *)
Definition line_points (o : outcome (list (marker R))) : list (list R) :=
  match o with Ok ms => mk_points (last ms marker_new) | _ => [] end.
Lemma one_second : @to_uint32 R R_ops (nmul 1%R (nofZ (10 ^ 9))) = Ok (10 ^ 9)%Z.
Proof.
  unfold to_uint32. rnum. rewrite Rmult_1_l. unfold Rtrunc.
  destruct (Rlt_dec (IZR (10 ^ 9)) 0) as [H|_]; [apply lt_IZR in H; lia|]. destruct (base_Int_part (IZR (10 ^ 9))) as (I1 & I2).
  assert (E : Int_part (IZR (10 ^ 9)) = (10 ^ 9)%Z); [|rewrite E; reflexivity].
  apply le_IZR in I1. assert (10 ^ 9 < Int_part (IZR (10 ^ 9)) + 1)%Z; [|lia]. apply lt_IZR. rewrite plus_IZR. lra.
Qed.
Lemma line_of_draw mp (ps : list (point R)) d frame g arr : List.Forall (fun p => length (pt_position p) = 3%nat) ps ->
  line_points (Ok (drawSampledWithMarker mp ps d frame g arr)) = map pt_position ps.
Proof.
  intros H. destruct (C75_path mp ps d frame g arr arr H) as (_ & _ & before & line & E & _ & _ & C & _).
  unfold line_points. rewrite E, last_last. exact C.
Qed.
Theorem C77_last_point_refuted : exists (ps : list (point R)) (dt : R), stamps_ok ps /\ dt = 1%R /\
  List.Forall (fun p => length (pt_position p) = 3%nat) ps /\
  map pt_time_ns ps = [0; 1000000000; 1000000001]%Z /\
  forall mp frame arr, line_points (drawSampledByTime mp ps dt frame arr) = map pt_position ps.
Proof.
  exists [sample 0 0; sample 1 1000000000; sample 2 1000000001], 1%R. split; [split|].
  - intros p [<-|[<-|[<-|[]]]]; cbn; lia.
  - intros [|[|[|i]]] [|[|[|j]]] Hij; cbn in *; lia.
  - split; [reflexivity|]. split; [repeat constructor|]. split; [reflexivity|]. intros mp frame arr.
    unfold drawSampledByTime, filter_by_time. rewrite one_second. cbn [obind removelast time_filter last app].
    cbn [sample pt_time_ns]. change (10 ^ 9 <=? wrap32 (wrap32 1000000000 - 0))%Z with true. cbn iota. cbn [app].
    apply line_of_draw. repeat constructor.
Qed.
Print Assumptions C77_last_point_refuted.
(** ... nor for the second point when the first stamp is not 0 (a part of a
    trajectory), ... *)
Theorem C77_late_start_refuted : exists (ps : list (point R)) (dt : R), stamps_ok ps /\ dt = 1%R /\
  List.Forall (fun p => length (pt_position p) = 3%nat) ps /\
  map pt_time_ns ps = [2000000000; 2000000001; 4000000000]%Z /\
  forall mp frame arr, line_points (drawSampledByTime mp ps dt frame arr) = map pt_position ps.
Proof.
  exists [sample 0 2000000000; sample 1 2000000001; sample 2 4000000000], 1%R. split; [split|].
  - intros p [<-|[<-|[<-|[]]]]; cbn; lia.
  - intros [|[|[|i]]] [|[|[|j]]] Hij; cbn in *; lia.
  - split; [reflexivity|]. split; [repeat constructor|]. split; [reflexivity|]. intros mp frame arr.
    unfold drawSampledByTime, filter_by_time. rewrite one_second. cbn [obind removelast time_filter last app].
    cbn [sample pt_time_ns]. change (10 ^ 9 <=? wrap32 (wrap32 2000000001 - 0))%Z with true. cbn iota. cbn [app].
    apply line_of_draw. repeat constructor.
Qed.
Print Assumptions C77_late_start_refuted.
(** ... and points far apart are dropped when the gap is just above a multiple of
    2^32 ns (4.29 s). *)
Theorem C77_wrap_refuted : exists (ps : list (point R)) (dt : R), dt = 1%R /\
  List.Forall (fun p => length (pt_position p) = 3%nat) ps /\
  map pt_time_ns ps = [0; 4500000000; 10000000000]%Z /\
  forall mp frame arr, line_points (drawSampledByTime mp ps dt frame arr) = [[0; 0; 0]; [2; 0; 0]]%R.
Proof.
  exists [sample 0 0; sample 1 4500000000; sample 2 10000000000], 1%R. split; [reflexivity|]. split; [repeat constructor|]. split; [reflexivity|].
  intros mp frame arr. unfold drawSampledByTime, filter_by_time. rewrite one_second. cbn [obind removelast time_filter last app].
  cbn [sample pt_time_ns]. change (10 ^ 9 <=? wrap32 (wrap32 4500000000 - 0))%Z with false. cbn iota. cbn [app].
  rewrite line_of_draw by repeat constructor. reflexivity.
Qed.
Print Assumptions C77_wrap_refuted.
(** No points, and intervals of 2^32 ns or more or negative ones of 1 ns or more, are
    undefined behaviour. *)
Theorem C77_empty_undefined {T} {ops : NumOps T} mp (dt : T) frame arr : drawSampledByTime mp [] dt frame arr = UB.
Proof.
  unfold drawSampledByTime, filter_by_time, to_uint32. destruct (ntoZ _) as [z|]; [|reflexivity]. destruct (_ && _)%bool; reflexivity.
Qed.
Print Assumptions C77_empty_undefined.
Theorem C77_long_interval_undefined mp (ps : list (point R)) (dt : R) frame arr : (IZR (2 ^ 32) <= 10 ^ 9 * dt)%R ->
  drawSampledByTime mp ps dt frame arr = UB.
Proof.
  intros H. unfold drawSampledByTime, filter_by_time, to_uint32. rnum.
  replace (dt * IZR (10 ^ 9))%R with (10 ^ 9 * dt)%R by (rewrite Rmult_comm; f_equal; rewrite pow_IZR; reflexivity).
  assert (P : (0 <= IZR (2 ^ 32))%R) by (apply IZR_le; lia).
  unfold Rtrunc. destruct (Rlt_dec (10 ^ 9 * dt) 0) as [Hl|_]; [lra|]. destruct (base_Int_part (10 ^ 9 * dt)) as (I1 & I2).
  set (n := Int_part (10 ^ 9 * dt)) in *. assert (N : (2 ^ 32 < n + 1)%Z) by (apply lt_IZR; rewrite plus_IZR; lra).
  rewrite (proj2 (Z.ltb_ge n (2 ^ 32))) by lia. rewrite andb_false_r. reflexivity.
Qed.
Print Assumptions C77_long_interval_undefined.
Example C77_long_interval_example : (IZR (2 ^ 32) <= 10 ^ 9 * 5)%R.
Proof. apply Rle_trans with (IZR 5000000000); [apply IZR_le; discriminate|lra]. Qed.
(** A single point is drawn twice. *)
Theorem C77_single_point_twice mp (p : point R) frame arr : length (pt_position p) = 3%nat ->
  line_points (drawSampledByTime mp [p] 1%R frame arr) = [pt_position p; pt_position p].
Proof.
  intros H. unfold drawSampledByTime, filter_by_time. rewrite one_second. cbn [obind removelast time_filter last app].
  rewrite line_of_draw by (repeat constructor; exact H). reflexivity.
Qed.
Print Assumptions C77_single_point_twice.
Example C77_single_point_example : length (pt_position (sample 1 0)) = 3%nat.
Proof. reflexivity. Qed.
