(** C75, C76: drawing sampled trajectories. *)
From Coq Require Import ZArith Reals List Bool Lia Lra String.
From Verif Require Import Num RSum ModelMotion ModelSampling ModelVis SpecVis.
Import ListNotations.
Notation length := List.length.
Notation concat := List.concat.
Open Scope R_scope.

(** ** Labels *)
Lemma props_length {T} f (l : T) a : forall ms c, length (setMarkerProperties f l a c ms) = length ms.
Proof. induction ms as [|m ms IH]; intros c; cbn; [reflexivity|now rewrite IH]. Qed.
Lemma props_app {T} f (l : T) a : forall ms ms' c, setMarkerProperties f l a c (ms ++ ms') =
  setMarkerProperties f l a c ms ++ setMarkerProperties f l a (c + Z.of_nat (length ms)) ms'.
Proof.
  induction ms as [|m ms IH]; intros ms' c; cbn [app setMarkerProperties length].
  - f_equal. lia.
  - rewrite IH. do 2 f_equal. rewrite Nat2Z.inj_succ. f_equal. lia.
Qed.
Lemma props_nth {T} f (l : T) a d d' : forall ms c i, (i < length ms)%nat ->
  nth i (setMarkerProperties f l a c ms) d = set_life (set_id (set_action (set_frame (nth i ms d') f) a) (c + Z.of_nat i)) l.
Proof.
  induction ms as [|m ms IH]; intros c [|i] Hi; cbn [length] in Hi; try lia; cbn [setMarkerProperties nth].
  - do 2 f_equal. lia.
  - rewrite IH by lia. do 2 f_equal. lia.
Qed.
Lemma props_labelled {T} {ops : NumOps T} f ms : labelled f (setMarkerProperties f n0 kADD 0 ms).
Proof.
  intros i d Hi. rewrite props_length in Hi. rewrite (props_nth f n0 kADD d d ms 0 i Hi). cbn. repeat split.
Qed.

(** ** The fold *)
Section Fold.
  Context {T : Type} {ops : NumOps T} (mp : point T -> list T).
  (** The markers of one pose before labelling. *)
  Definition block (additional : list (marker T)) (p : point T) : list (marker T) := pose_markers mp additional p [].
  Lemma pose_markers_app additional p arr : pose_markers mp additional p arr = arr ++ block additional p.
  Proof.
    unfold block, pose_markers, appendMarkers, group_getMarkers. cbn [negb andb app map]. rewrite <- !app_assoc. reflexivity.
  Qed.
  (** Offsets of the drawn points. *)
  Fixpoint selected (distance acc : T) (last : list T) (i : nat) (ps : list (point T)) : list nat :=
    match ps with
    | [] => []
    | p :: ps' =>
        let acc1 := nadd acc (v3_norm (v3_sub last (pt_position p))) in
        if nltb distance acc1 then i :: selected distance n0 (pt_position p) (S i) ps' else selected distance acc1 (pt_position p) (S i) ps'
    end.
  Lemma draw_fold distance additional all : forall ps pre acc last arr strip, all = pre ++ ps ->
    exists acc' last', fold_left (draw_step mp distance additional) ps (acc, last, arr, strip) =
      (acc', last', arr ++ concat (map (fun i => block additional (nth i all point_new)) (selected distance acc last (length pre) ps)),
       strip ++ map (fun p => point_msg (pt_position p)) ps).
  Proof.
    induction ps as [|p ps IH]; intros pre acc last arr strip E.
    - cbn. exists acc, last. now rewrite !app_nil_r.
    - cbn [fold_left map selected]. unfold draw_step at 2.
      assert (E' : all = (pre ++ [p]) ++ ps) by (rewrite <- app_assoc; exact E).
      assert (L : length (pre ++ [p]) = S (length pre)) by (rewrite app_length; cbn; lia).
      destruct (nltb _ _).
      + destruct (IH (pre ++ [p]) n0 (pt_position p) (pose_markers mp additional p arr) (strip ++ [point_msg (pt_position p)]) E') as (a & l & F).
        exists a, l. rewrite F, L, pose_markers_app. cbn [map concat]. rewrite <- !app_assoc. cbn [app].
        replace (nth (length pre) all point_new) with p; [reflexivity|]. rewrite E, app_nth2, Nat.sub_diag by lia. reflexivity.
      + destruct (IH (pre ++ [p]) (nadd acc (v3_norm (v3_sub last (pt_position p)))) (pt_position p) arr (strip ++ [point_msg (pt_position p)]) E') as (a & l & F).
        exists a, l. rewrite F, L, <- !app_assoc. reflexivity.
  Qed.
  Lemma draw_shape ps distance frame additional arr : exists line,
    drawSampledWithMarker mp ps distance frame additional arr =
      setMarkerProperties frame n0 kADD 0
        (concat (map (fun i => block additional (nth i ps point_new)) (selected distance n0 [n0; n0; n0] 0 ps)) ++ [line]) /\
    mk_type line = kLINE_STRIP /\ mk_ns line = "path"%string /\ mk_points line = map (fun p => point_msg (pt_position p)) ps /\
    mk_position line = [n0; n0; n0] /\ mk_color line = [n1; nlit 1 2; n0; n1].
  Proof.
    unfold drawSampledWithMarker. destruct (draw_fold distance additional ps ps [] n0 [n0; n0; n0] [] [] eq_refl) as (a & l & F).
    rewrite F. eexists. split; [reflexivity|]. cbn. auto 6.
  Qed.
End Fold.

Lemma vx_nth {T} {ops : NumOps T} (v : list T) i : vx v i = nth i v n0. Proof. reflexivity. Qed.
Lemma vec3 {A} (v : list A) d : length v = 3%nat -> v = [nth 0 v d; nth 1 v d; nth 2 v d].
Proof. destruct v as [|a [|b [|c [|]]]]; cbn; try discriminate; reflexivity. Qed.
Lemma point_msg_id {T} {ops : NumOps T} (v : list T) : length v = 3%nat -> point_msg v = v.
Proof. intros H. rewrite (vec3 v n0 H) at 2. reflexivity. Qed.
Lemma nth_last_app {A} (l : list A) x d : nth (length l) (l ++ [x]) d = x.
Proof. rewrite app_nth2, Nat.sub_diag by lia. reflexivity. Qed.

(** ** C75: the drawn path.  For every number type: the last marker is a line strip
    through the positions of all points in order; all markers carry the frame, the
    action ADD and the ids 0, 1, ..., so no two share an id; what the array held
    before plays no role. *)
Theorem C75_path {T} {ops : NumOps T} mp (ps : list (point T)) distance frame additional arr arr' :
  List.Forall (fun p => length (pt_position p) = 3%nat) ps ->
  let out := drawSampledWithMarker mp ps distance frame additional arr in
  out = drawSampledWithMarker mp ps distance frame additional arr' /\ labelled frame out /\
  (exists before line, out = before ++ [line] /\ mk_type line = 4%Z /\ mk_ns line = "path"%string /\
     mk_points line = map pt_position ps /\ mk_position line = [n0; n0; n0] /\ mk_color line = [n1; nlit 1 2; n0; n1]).
Proof.
  intros H3 out. split; [reflexivity|].
  destruct (draw_shape mp ps distance frame additional arr) as (line & E & A & B & C & D & F). fold out in E. split.
  - rewrite E. apply props_labelled.
  - rewrite E, props_app. do 2 eexists. split; [cbn [setMarkerProperties]; reflexivity|]. cbn. split; [exact A|]. split; [exact B|].
    split; [|split; [exact D|exact F]]. rewrite C. apply map_ext_in. intros p Hp. apply point_msg_id. rewrite List.Forall_forall in H3. auto.
Qed.
Print Assumptions C75_path.

(** ** Real arithmetic *)
Lemma norm_dist a b : v3_norm (v3_sub a b) = dist3 a b.
Proof. unfold v3_norm, v3_sub, dist3, vx, n0. rnum. f_equal. cbn [nth]. ring. Qed.
Lemma path_step Q i j : (i <= j)%nat -> path_length Q i (S j) = path_length Q i j + dist3 (nth j Q origin) (nth (S j) Q origin).
Proof.
  intros H. unfold path_length. replace (S j - i)%nat with (S (j - i)) by lia. rewrite seq_S, map_app, lsum_app. cbn [map lsum].
  replace (i + (j - i))%nat with j by lia. lra.
Qed.
Lemma path_same Q i : path_length Q i i = 0.
Proof. unfold path_length. rewrite Nat.sub_diag. reflexivity. Qed.

Lemma selected_spaced distance all : forall ps pre acc last i, all = pre ++ ps -> (i <= length pre)%nat ->
  let Q := origin :: map pt_position all in
  last = nth (length pre) Q origin -> acc = path_length Q i (length pre) ->
  (forall k, (i < k <= length pre)%nat -> path_length Q i k <= distance) ->
  spaced distance Q i (map S (selected distance acc last (length pre) ps)).
Proof.
  induction ps as [|p ps IH]; intros pre acc last i E Hi Q Hl Ha Hk.
  - cbn. intros k Hk'. apply Hk. unfold Q in Hk'. cbn [length] in Hk'. rewrite map_length, E, app_nil_r in Hk'. lia.
  - assert (E' : all = (pre ++ [p]) ++ ps) by (rewrite <- app_assoc; exact E).
    assert (L : length (pre ++ [p]) = S (length pre)) by (rewrite app_length; cbn; lia).
    assert (Np : nth (S (length pre)) Q origin = pt_position p).
    { unfold Q. cbn [nth]. rewrite E, map_app, app_nth2; rewrite map_length; [|lia]. rewrite Nat.sub_diag. reflexivity. }
    assert (LQ : (S (length pre) < length Q)%nat).
    { unfold Q. cbn [length]. rewrite map_length, E, app_length. cbn. lia. }
    assert (Ea : nadd acc (v3_norm (v3_sub last (pt_position p))) = path_length Q i (S (length pre))).
    { rewrite norm_dist, Hl, Ha, path_step, Np by exact Hi. reflexivity. }
    cbn [selected]. rewrite Ea. change (@nltb R R_ops) with Rltb.
    destruct (Rltb_spec distance (path_length Q i (S (length pre)))) as [Hd|Hd].
    + cbn [map spaced]. split; [lia|]. split; [exact Hd|]. split; [intros k Hk'; apply Hk; lia|].
      rewrite <- L. apply (IH (pre ++ [p]) n0 (pt_position p) (length (pre ++ [p])) E'); rewrite ?L.
      * lia.
      * symmetry. exact Np.
      * symmetry. exact (path_same Q _).
      * intros k Hk'. lia.
    + rewrite <- L. apply (IH (pre ++ [p]) _ (pt_position p) i E'); rewrite ?L.
      * lia.
      * symmetry. exact Np.
      * reflexivity.
      * intros k Hk'. destruct (Nat.eq_dec k (S (length pre))) as [->|]; [unfold Q in Hd; lra|apply Hk; lia].
Qed.
Lemma spaced_unique distance Q : forall I I' i, spaced distance Q i I -> spaced distance Q i I' -> I = I'.
Proof.
  induction I as [|j I IH]; intros [|j' I'] i; cbn [spaced]; intros H H'.
  - reflexivity.
  - destruct H' as (A & B & _). specialize (H j' A). lra.
  - destruct H as (A & B & _). specialize (H' j A). lra.
  - destruct H as (A & B & C & D), H' as (A' & B' & C' & D'). assert (j = j').
    { destruct (Nat.lt_trichotomy j j') as [Hl|[He|Hl]]; [|exact He|]; exfalso.
      - specialize (C' j ltac:(lia)). lra.
      - specialize (C j' ltac:(lia)). lra. }
    subst j'. f_equal. eapply IH; eassumption.
Qed.

Lemma q_rotate_R q v : unit_q q -> q_rotate q v = rotated q v.
Proof.
  intros (L & U). unfold q_rotate, rotated, q_vec, v3_add, v3_scale, v3_cross, vx. unfold n0. rnum. cbn [nth].
  repeat (f_equal; try ring).
Qed.
Lemma q_mult_unit a b : unit_q a -> unit_q b -> unit_q (q_mult a b).
Proof.
  intros (_ & A) (_ & B). split; [reflexivity|]. unfold q_mult, vx, n0. rnum. cbn [nth].
  set (a0 := nth 0 a 0) in *. set (a1 := nth 1 a 0) in *. set (a2 := nth 2 a 0) in *. set (a3 := nth 3 a 0) in *.
  set (b0 := nth 0 b 0) in *. set (b1 := nth 1 b 0) in *. set (b2 := nth 2 b 0) in *. set (b3 := nth 3 b 0) in *.
  transitivity ((a0 ^ 2 + a1 ^ 2 + a2 ^ 2 + a3 ^ 2) * (b0 ^ 2 + b1 ^ 2 + b2 ^ 2 + b3 ^ 2)); [ring|]. rewrite A, B. ring.
Qed.
(** The rotation matrix with the squared norm of the quaternion instead of 1. *)
Definition hrot (q v : list R) : list R :=
  let w := nth 0 q 0 in let x := nth 1 q 0 in let y := nth 2 q 0 in let z := nth 3 q 0 in
  let a := nth 0 v 0 in let b := nth 1 v 0 in let c := nth 2 v 0 in
  [(w ^ 2 + x ^ 2 - y ^ 2 - z ^ 2) * a + 2 * (x * y - w * z) * b + 2 * (x * z + w * y) * c;
   2 * (x * y + w * z) * a + (w ^ 2 - x ^ 2 + y ^ 2 - z ^ 2) * b + 2 * (y * z - w * x) * c;
   2 * (x * z - w * y) * a + 2 * (y * z + w * x) * b + (w ^ 2 - x ^ 2 - y ^ 2 + z ^ 2) * c].
Lemma hrot_unit q v : unit_q q -> hrot q v = rotated q v.
Proof.
  intros (_ & U). unfold hrot, rotated. cbv zeta.
  set (w := nth 0 q 0) in *. set (x := nth 1 q 0) in *. set (y := nth 2 q 0) in *. set (z := nth 3 q 0) in *.
  replace (w ^ 2 + x ^ 2 - y ^ 2 - z ^ 2) with (1 - 2 * (y ^ 2 + z ^ 2)) by lra.
  replace (w ^ 2 - x ^ 2 + y ^ 2 - z ^ 2) with (1 - 2 * (x ^ 2 + z ^ 2)) by lra.
  replace (w ^ 2 - x ^ 2 - y ^ 2 + z ^ 2) with (1 - 2 * (x ^ 2 + y ^ 2)) by lra. reflexivity.
Qed.
Lemma hrot_mult a b v : hrot (q_mult a b) v = hrot a (hrot b v).
Proof. unfold hrot, q_mult, vx, n0. rnum. cbn [nth]. repeat (f_equal; try ring). Qed.
Lemma rotated_mult a b v : unit_q a -> unit_q b -> rotated (q_mult a b) v = rotated a (rotated b v).
Proof. intros A B. rewrite <- !hrot_unit by (assumption || now apply q_mult_unit). apply hrot_mult. Qed.
Lemma v3_add_R a b : v3_add a b = plus3 a b. Proof. reflexivity. Qed.
Lemma transform_moved t q m : unit_q q -> moved t q m (transformMarker t q m).
Proof.
  intros U. split; [repeat split|]. split.
  - cbn. rewrite q_rotate_R by exact U. reflexivity.
  - intros Um. cbn. split; [now apply q_mult_unit|]. intros v. now apply rotated_mult.
Qed.

Lemma plus3_zero v : length v = 3%nat -> v3_add [n0; n0; n0] v = v.
Proof. intros H. rewrite (vec3 v 0 H) at 2. unfold v3_add, vx, n0. rnum. cbn [nth]. repeat (f_equal; try ring). Qed.
Lemma arrow_scale : [nmul (nlit 3 10) (nlit 1 10); nmul (nmul (nlit 3 10) (nofZ 2)) (nlit 1 10); n0] = [3 / 100; 6 / 100; 0].
Proof. unfold nlit, n0. rnum. repeat (f_equal; try field). Qed.

Lemma block_shows mp additional p : length (pt_position p) = 3%nat -> unit_q (pt_orientation p) -> mp p = pt_position p ->
  shows additional p (block mp additional p).
Proof.
  intros L U E. unfold block, pose_markers, group_getMarkers, appendMarkers, drawAxesArrows. cbn [negb andb app map].
  change (String.eqb "pose" "") with false. cbn iota. rewrite E. unfold shows.
  do 5 eexists. exists (map (transformMarker (pt_position p) (pt_orientation p)) additional). split.
  { cbn [app]. do 5 f_equal. unfold group_transform. rewrite map_map. apply map_ext. intros m.
    destruct (neqb _ _) eqn:En; [reflexivity|]. exfalso. unfold n1 in En. rnum. revert En. destruct (Reqb_spec 1 1); [discriminate|lra]. }
  assert (Ax : forall u, v3_add (v3_scale (q_rotate (pt_orientation p) u) (nlit 3 10)) (pt_position p) =
                         plus3 (pt_position p) (times3 (3 / 10) (rotated (pt_orientation p) u))).
  { intros u. rewrite q_rotate_R by exact U. unfold v3_add, v3_scale, plus3, times3, vx, n0, nlit. rnum. cbn [nth]. repeat (f_equal; try field). }
  assert (Ar : forall ns t c m, mk_position m = origin -> length t = 3%nat ->
     arrow (set_ns (drawArrowPoints (pt_position p) t c (nlit 3 10) m) ns) ns (pt_position p) t c).
  { intros ns t c m Hm Ht. unfold arrow, drawArrowPoints. cbn. rewrite !point_msg_id by assumption. repeat (split; [first [reflexivity|exact Hm]|]).
    exact arrow_scale. }
  rewrite !plus3_zero, !Ax by exact L.
  split; [apply (Ar "pose"%string); reflexivity|]. split; [apply (Ar "pose"%string); reflexivity|]. split; [apply (Ar "pose"%string); reflexivity|].
  split; [apply (Ar "acceleration"%string); reflexivity|]. split; [apply (Ar "velocity"%string); reflexivity|].
  clear -U. induction additional as [|m l IH]; cbn [map]; constructor; [now apply transform_moved|exact IH].
Qed.

(** Labelling does not change what a pose shows. *)
Definition relabelled (m m' : marker R) : Prop := same_look m m' /\ mk_position m' = mk_position m /\ mk_orientation m' = mk_orientation m.
Lemma props_relabelled f l a : forall ms c, Forall2 relabelled ms (setMarkerProperties f l a c ms).
Proof. induction ms as [|m ms IH]; intros c; cbn; constructor; [repeat split|apply IH]. Qed.
Lemma arrow_relabelled m m' ns x y c : relabelled m m' -> arrow m ns x y c -> arrow m' ns x y c.
Proof.
  intros ((A & B & C & D & E & F & G & H) & P & Q) (R1 & R2 & R3 & R4 & R5 & R6). unfold arrow. rewrite A, B, C, D, F, P. auto 6.
Qed.
Lemma moved_relabelled t q m m1 m2 : moved t q m m1 -> relabelled m1 m2 -> moved t q m m2.
Proof.
  intros ((A & B & C & D & E & F & G & H) & P & Q) ((A' & B' & C' & D' & E' & F' & G' & H') & P' & Q'). unfold moved, same_look.
  rewrite A', B', C', D', E', F', G', H', P', Q'. auto 10.
Qed.
Lemma shows_relabelled additional p b b' : shows additional p b -> Forall2 relabelled b b' -> shows additional p b'.
Proof.
  intros (x & y & z & a & v & rest & -> & A & B & C & D & E & M) F. cbn [app] in F.
  inversion F as [|? x' ? ? Fx F1]; subst. inversion F1 as [|? y' ? ? Fy F2]; subst. inversion F2 as [|? z' ? ? Fz F3]; subst.
  inversion F3 as [|? a' ? ? Fa F4]; subst. inversion F4 as [|? v' ? rest' Fv F5]; subst.
  exists x', y', z', a', v', rest'. split; [reflexivity|].
  split; [eapply arrow_relabelled; eassumption|]. split; [eapply arrow_relabelled; eassumption|]. split; [eapply arrow_relabelled; eassumption|].
  split; [eapply arrow_relabelled; eassumption|]. split; [eapply arrow_relabelled; eassumption|].
  clear -M F5. revert rest' F5. induction M as [|m m1 l l1 Hm M IH]; intros rest' F5; inversion F5; subst; constructor.
  - eapply moved_relabelled; eassumption.
  - apply IH. assumption.
Qed.
Lemma blocks_split (bs : list (list (marker R))) : forall ms, Forall2 relabelled (concat bs) ms ->
  exists bs', ms = concat bs' /\ Forall2 (Forall2 relabelled) bs bs'.
Proof.
  induction bs as [|b bs IH]; intros ms F; cbn [concat] in F.
  - inversion F. exists []. split; [reflexivity|constructor].
  - destruct (Forall2_app_inv_l _ _ F) as (m1 & m2 & F1 & F2 & ->). destruct (IH m2 F2) as (bs' & -> & G).
    exists (m1 :: bs'). split; [reflexivity|]. constructor; assumption.
Qed.

(** ** C75, C76: which poses are drawn and how.  The points whose path length from
    the previously drawn one exceeds the distance are drawn, in order, each by its
    body axes, acceleration, velocity and the additional markers moved to the pose;
    the first one is measured from the origin of the frame. *)
Theorem C76_poses mp (ps : list (point R)) distance frame additional arr :
  (forall p, In p ps -> length (pt_position p) = 3%nat /\ unit_q (pt_orientation p) /\ mp p = pt_position p) ->
  exists I blocks line, drawSampledWithMarker mp ps distance frame additional arr = concat blocks ++ [line] /\
    spaced distance (origin :: map pt_position ps) 0 I /\
    (forall I', spaced distance (origin :: map pt_position ps) 0 I' -> I' = I) /\
    Forall2 (fun i b => shows additional (nth (i - 1) ps point_new) b) I blocks.
Proof.
  intros H. destruct (draw_shape mp ps distance frame additional arr) as (line & E & _).
  assert (Sp := selected_spaced distance ps ps [] 0 origin 0 eq_refl (le_n 0)). cbn [length] in Sp.
  specialize (Sp eq_refl eq_refl ltac:(intros; lia)).
  set (sel := selected distance 0 origin 0 ps) in *. change (selected distance n0 [n0; n0; n0] 0 ps) with sel in E.
  rewrite props_app in E. cbn [setMarkerProperties] in E.
  destruct (blocks_split _ _ (props_relabelled frame n0 kADD (concat (map (fun i => block mp additional (nth i ps point_new)) sel)) 0)) as (bs & Eb & F).
  rewrite Eb in E. exists (map S sel), bs. eexists. split; [exact E|]. split; [exact Sp|].
  split; [intros I' HI; eapply spaced_unique; eassumption|].
  assert (Hin : forall i, In i sel -> (i < length ps)%nat).
  { clear -Sp. revert Sp. generalize 0%nat at 1. induction sel as [|j sel IH]; intros i0 Sp i Hi; [destruct Hi|].
    cbn [map spaced] in Sp. destruct Sp as (A & _ & _ & D). destruct Hi as [<-|Hi].
    - cbn [length] in A. rewrite map_length in A. lia.
    - eapply IH; eassumption. }
  clear -H F Hin. revert bs F. induction sel as [|j sel IH]; intros bs F; inversion F as [|? b' ? bs' Fb Fs]; subst; cbn [map]; constructor.
  - cbn [Nat.sub]. rewrite Nat.sub_0_r. eapply shows_relabelled; [|exact Fb].
    destruct (H (nth j ps point_new)) as (A & B & C); [apply nth_In, Hin; left; reflexivity|]. now apply block_shows.
  - apply IH; [intros i Hi; apply Hin; right; exact Hi|exact Fs].
Qed.
Print Assumptions C76_poses.

(** A concrete trajectory of three samples along x, upright. *)
Definition sample (x : R) (t : Z) : point R :=
  mkPoint t [x; 0; 0] [1; 0; 0] [0; 0; 0] [0; 0; 0] [0; 0; 0] [1; 0; 0; 0] [0; 0; 0] [0; 0; 0] DOF4.
Definition ex_samples : list (point R) := [sample 2 0; sample 5 1; sample 6 2].
Example C75_example : List.Forall (fun p => length (pt_position p) = 3%nat) ex_samples.
Proof. repeat constructor. Qed.
Lemma ex_samples_ok : forall p, In p ex_samples -> length (pt_position p) = 3%nat /\ unit_q (pt_orientation p) /\ pt_position p = pt_position p.
Proof. intros p [<-|[<-|[<-|[]]]]; (split; [reflexivity|split; [split; [reflexivity|cbn; ring]|reflexivity]]). Qed.
Lemma dist3_x a b c d : dist3 [a; c; d] [b; c; d] = Rabs (a - b).
Proof. unfold dist3. cbn [nth]. rewrite <- sqrt_Rsqr_abs. f_equal. unfold Rsqr. ring. Qed.
(** Distances along the path from the origin: 2, 3, 1; with distance 2.5 only the
    second sample is drawn. *)
Example C76_example : (forall p, In p ex_samples -> length (pt_position p) = 3%nat /\ unit_q (pt_orientation p) /\ pt_position p = pt_position p) /\
  spaced (5 / 2) (origin :: map pt_position ex_samples) 0 [2%nat].
Proof.
  split; [exact ex_samples_ok|].
  assert (P01 : path_length (origin :: map pt_position ex_samples) 0 1 = 2).
  { unfold path_length. cbn [map seq Nat.sub lsum nth ex_samples sample pt_position]. unfold origin. rewrite dist3_x, Rabs_left by lra. lra. }
  assert (P02 : path_length (origin :: map pt_position ex_samples) 0 2 = 5).
  { rewrite path_step, P01 by lia. cbn [map nth ex_samples sample pt_position]. rewrite dist3_x, Rabs_left by lra. lra. }
  assert (P23 : path_length (origin :: map pt_position ex_samples) 2 3 = 1).
  { rewrite path_step, path_same by lia. cbn [map nth ex_samples sample pt_position]. rewrite dist3_x, Rabs_left by lra. lra. }
  cbn [spaced]. split; [cbn; lia|]. split; [rewrite P02; lra|]. split.
  - intros k Hk. replace k with 1%nat by lia. rewrite P01. lra.
  - intros k Hk. cbn [length map ex_samples] in Hk. replace k with 3%nat by lia. rewrite P23. lra.
Qed.

(** Number of markers: five and the additional ones per drawn pose, and the strip. *)
Lemma forall2_length {A B} (P : A -> B -> Prop) l l' : Forall2 P l l' -> length l = length l'.
Proof. induction 1; cbn; congruence. Qed.
Lemma shows_length additional p b : shows additional p b -> length b = (5 + length additional)%nat.
Proof. intros (x & y & z & a & v & rest & -> & _ & _ & _ & _ & _ & M). apply forall2_length in M. rewrite app_length. cbn. lia. Qed.
Theorem C76_count mp (ps : list (point R)) distance frame additional arr I :
  (forall p, In p ps -> length (pt_position p) = 3%nat /\ unit_q (pt_orientation p) /\ mp p = pt_position p) ->
  spaced distance (origin :: map pt_position ps) 0 I ->
  length (drawSampledWithMarker mp ps distance frame additional arr) = (length I * (5 + length additional) + 1)%nat.
Proof.
  intros H Sp. destruct (C76_poses mp ps distance frame additional arr H) as (I' & bs & line & E & _ & U & F). rewrite <- (U I Sp) in F.
  rewrite E, app_length. cbn [length]. f_equal. clear -F. induction F as [|i b I bs Hb F IH]; [reflexivity|].
  cbn [concat length]. rewrite app_length, IH, (shows_length _ _ _ Hb). lia.
Qed.
Print Assumptions C76_count.

(** Zero distance: contrary to the documentation ("If distance = 0.0, then these
    additional markers are disabled") every point that differs from the one before
    it is drawn as a pose. *)
Lemma dist3_pos a b : length a = 3%nat -> length b = 3%nat -> a <> b -> 0 < dist3 a b.
Proof.
  intros La Lb Hn. unfold dist3. apply sqrt_lt_R0. apply Rnot_le_lt. intros Hle. apply Hn. rewrite (vec3 a 0 La), (vec3 b 0 Lb).
  assert (A := pow2_ge_0 (nth 0 a 0 - nth 0 b 0)). assert (B := pow2_ge_0 (nth 1 a 0 - nth 1 b 0)). assert (C := pow2_ge_0 (nth 2 a 0 - nth 2 b 0)).
  assert (Z : forall x y, (x - y) ^ 2 = 0 -> x = y). { intros x y Hz. apply Rminus_diag_uniq. apply Rsqr_0_uniq. unfold Rsqr. lra. }
  rewrite (Z (nth 0 a 0) (nth 0 b 0)), (Z (nth 1 a 0) (nth 1 b 0)), (Z (nth 2 a 0) (nth 2 b 0)) by lra. reflexivity.
Qed.
Theorem C76_zero_distance_draws_every_pose mp (ps : list (point R)) frame additional arr :
  (forall p, In p ps -> length (pt_position p) = 3%nat /\ unit_q (pt_orientation p) /\ mp p = pt_position p) ->
  (forall i, (i < length ps)%nat -> nth i (origin :: map pt_position ps) origin <> nth (S i) (origin :: map pt_position ps) origin) ->
  length (drawSampledWithMarker mp ps 0 frame additional arr) = (length ps * (5 + length additional) + 1)%nat.
Proof.
  intros H Hn.
  rewrite (C76_count mp ps 0 frame additional arr (seq 1 (length ps)) H); [now rewrite seq_length|].
  set (Q := origin :: map pt_position ps) in *. assert (LQ : length Q = S (length ps)) by (unfold Q; cbn; now rewrite map_length).
  assert (L3 : forall i, length (nth i Q origin) = 3%nat).
  { intros i. destruct (Nat.lt_ge_cases i (length Q)) as [Hi|Hi]; [|rewrite nth_overflow by exact Hi; reflexivity].
    assert (Hin := nth_In Q origin Hi). destruct Hin as [<-|Hin]; [reflexivity|]. apply in_map_iff in Hin. destruct Hin as (p & <- & Hp). apply H, Hp. }
  assert (G : forall m i, (i + m = length ps)%nat -> spaced 0 Q i (seq (S i) m)); [|apply (G (length ps) 0%nat); lia].
  induction m as [|m IH]; intros i Hi; cbn [seq spaced].
  - intros k Hk. lia.
  - split; [lia|]. split; [|split; [intros k Hk; lia|apply IH; lia]].
    rewrite path_step, path_same by lia. rewrite Rplus_0_l. apply dist3_pos; [apply L3|apply L3|apply Hn; lia].
Qed.
Print Assumptions C76_zero_distance_draws_every_pose.
Lemma ex_samples_moving : forall i, (i < length ex_samples)%nat ->
  nth i (origin :: map pt_position ex_samples) origin <> nth (S i) (origin :: map pt_position ex_samples) origin.
Proof. intros [|[|[|i]]] Hi; cbn in Hi |- *; try lia; unfold origin; intros [=]; lra. Qed.
Example C76_zero_distance_example : (forall p, In p ex_samples -> length (pt_position p) = 3%nat /\ unit_q (pt_orientation p) /\ pt_position p = pt_position p) /\
  (forall i, (i < length ex_samples)%nat -> nth i (origin :: map pt_position ex_samples) origin <> nth (S i) (origin :: map pt_position ex_samples) origin).
Proof. split; [exact ex_samples_ok|exact ex_samples_moving]. Qed.
Theorem C76_zero_distance_refuted : exists (ps : list (point R)) frame,
  length (drawSampled pt_position ps 0 frame []) = 16%nat.
Proof.
  exists ex_samples, "world"%string. unfold drawSampled.
  rewrite (C76_zero_distance_draws_every_pose pt_position ex_samples _ [] [] ex_samples_ok ex_samples_moving). reflexivity.
Qed.
Print Assumptions C76_zero_distance_refuted.

(** The poses that are drawn depend on where the trajectory lies: the same motion
    moved away from the origin has its first sample drawn. *)
Theorem C76_translation_refuted : exists (ps ps' : list (point R)) (t : list R) distance frame,
  map pt_position ps' = map (plus3 t) (map pt_position ps) /\
  (forall p, In p ps \/ In p ps' -> length (pt_position p) = 3%nat /\ unit_q (pt_orientation p)) /\ 0 < distance /\
  length (drawSampled pt_position ps distance frame []) = 1%nat /\ length (drawSampled pt_position ps' distance frame []) = 6%nat.
Proof.
  exists [sample 0 0], [sample 2 0], [2; 0; 0], 1, "world"%string. split.
  { cbn. unfold plus3. cbn [nth]. repeat (f_equal; try ring). }
  assert (K : forall x p, In p [sample x 0] -> length (pt_position p) = 3%nat /\ unit_q (pt_orientation p) /\ pt_position p = pt_position p).
  { intros x p [<-|[]]. split; [reflexivity|split; [split; [reflexivity|cbn; ring]|reflexivity]]. }
  split; [intros p [Hp|Hp]; destruct (K _ p Hp) as (A & B & _); auto|]. split; [lra|].
  assert (D : forall x, path_length [origin; [x; 0; 0]] 0 1 = Rabs (0 - x)).
  { intros x. unfold path_length. cbn [map seq Nat.sub lsum nth]. unfold origin. rewrite dist3_x. lra. }
  unfold drawSampled. split.
  - rewrite (C76_count pt_position [sample 0 0] 1 _ [] [] [] (K 0)); [reflexivity|]. intros k Hk. cbn in Hk. replace k with 1%nat by lia.
    cbn [map sample pt_position]. rewrite D. rewrite Rabs_right by lra. lra.
  - rewrite (C76_count pt_position [sample 2 0] 1 _ [] [] [1%nat] (K 2)); [reflexivity|]. cbn [spaced map sample pt_position].
    split; [cbn; lia|]. rewrite D. rewrite Rabs_left by lra. split; [lra|]. split; intros k Hk; cbn in Hk; lia.
Qed.
Print Assumptions C76_translation_refuted.
