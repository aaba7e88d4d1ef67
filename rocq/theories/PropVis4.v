(** C80: marker groups; C82: vehicles; C83: axes and arrows. *)
From Coq Require Import ZArith Reals List Bool Lia Lra String.
From Verif Require Import Num RSum ModelSampling ModelVis SpecVis PropVis.
Import ListNotations.
Notation length := List.length.
Notation concat := List.concat.
Open Scope R_scope.

(** ** Transforming a group moves every marker rigidly. *)
Theorem C80_transform (g : list (marker R)) (t q : list R) : unit_q q -> Forall2 (moved t q) g (group_transform g t q).
Proof. intros U. induction g as [|m g IH]; cbn; constructor; [now apply transform_moved|exact IH]. Qed.
Print Assumptions C80_transform.
Lemma hrot_norm q x y : (dist3 (hrot q x) (hrot q y)) = sqrt ((nth 0 q 0 ^ 2 + nth 1 q 0 ^ 2 + nth 2 q 0 ^ 2 + nth 3 q 0 ^ 2) ^ 2 *
  ((nth 0 x 0 - nth 0 y 0) ^ 2 + (nth 1 x 0 - nth 1 y 0) ^ 2 + (nth 2 x 0 - nth 2 y 0) ^ 2)).
Proof. unfold dist3, hrot. cbn [nth]. f_equal. ring. Qed.
Lemma motion_dist t q x y : unit_q q -> dist3 (motion t q x) (motion t q y) = dist3 x y.
Proof.
  intros U. assert (E : dist3 (motion t q x) (motion t q y) = dist3 (rotated q x) (rotated q y)).
  { unfold dist3, motion, plus3. cbn [nth]. f_equal. ring. }
  rewrite E, <- !hrot_unit, hrot_norm by exact U. rewrite (proj2 U). unfold dist3. f_equal. ring.
Qed.
(** Distances between the markers of a group are kept. *)
Theorem C80_transform_keeps_distances (g : list (marker R)) (t q : list R) i j d : unit_q q -> (i < length g)%nat -> (j < length g)%nat ->
  dist3 (mk_position (nth i (group_transform g t q) d)) (mk_position (nth j (group_transform g t q) d)) =
  dist3 (mk_position (nth i g d)) (mk_position (nth j g d)).
Proof.
  intros U Hi Hj. unfold group_transform.
  assert (N : forall k, (k < length g)%nat -> nth k (map (transformMarker t q) g) d = transformMarker t q (nth k g d)).
  { intros k Hk. rewrite nth_indep with (d' := transformMarker t q d) by (rewrite map_length; exact Hk). apply map_nth. }
  rewrite !N by assumption.
  rewrite !(proj1 (proj2 (transform_moved t q _ U))). now apply motion_dist.
Qed.
Print Assumptions C80_transform_keeps_distances.
(** Two transformations are one: first by (t1, q1), then by (t2, q2). *)
Theorem C80_transform_twice (t1 q1 t2 q2 : list R) : unit_q q1 -> unit_q q2 ->
  exists q, unit_q q /\ (forall v, rotated q v = rotated q2 (rotated q1 v)) /\
    forall g, group_transform (group_transform g t1 q1) t2 q2 = group_transform g (motion t2 q2 t1) q.
Proof.
  intros U1 U2. exists (q_mult q2 q1). assert (U := q_mult_unit q2 q1 U2 U1). split; [exact U|]. split; [intros v; now apply rotated_mult|].
  intros g. unfold group_transform. rewrite map_map. apply map_ext. intros m. unfold transformMarker. cbn.
  assert (Eo : q_mult q2 (q_mult q1 (mk_orientation m)) = q_mult (q_mult q2 q1) (mk_orientation m)).
  { unfold q_mult, vx, n0. rnum. cbn [nth]. repeat (f_equal; try ring). }
  assert (Ep : v3_add (q_rotate q2 (v3_add (q_rotate q1 (mk_position m)) t1)) t2 = v3_add (q_rotate (q_mult q2 q1) (mk_position m)) (motion t2 q2 t1)).
  { rewrite !q_rotate_R by assumption. rewrite rotated_mult by assumption. unfold v3_add, motion, plus3, rotated, vx, n0. rnum. cbn [nth].
    repeat (f_equal; try ring). }
  unfold set_pose. cbn. rewrite Eo, Ep. reflexivity.
Qed.
Print Assumptions C80_transform_twice.
Example C80_example : unit_q [3 / 5; 0; 0; 4 / 5] /\ unit_q [0; 1; 0; 0] /\ (0 < length (hexacopter (T := R) true))%nat /\ (8 < length (hexacopter (T := R) true))%nat.
Proof. repeat split; cbn; try lra; lia. Qed.

(** ** Reading a group: the markers, placed and sized by the scale, after those that
    were there when appending. *)
Definition scaled (s : R) (m m' : marker R) : Prop :=
  mk_position m' = times3 s (mk_position m) /\ mk_scale m' = times3 s (mk_scale m) /\
  mk_orientation m' = mk_orientation m /\ mk_frame m' = mk_frame m /\ mk_ns m' = mk_ns m /\ mk_id m' = mk_id m /\ mk_type m' = mk_type m /\
  mk_action m' = mk_action m /\ mk_color m' = mk_color m /\ mk_lifetime m' = mk_lifetime m /\ mk_locked m' = mk_locked m /\
  mk_points m' = mk_points m /\ mk_colors m' = mk_colors m /\ mk_mesh m' = mk_mesh m.
Lemma times3_comm s v : v3_scale v s = times3 s v.
Proof. unfold v3_scale, times3, vx, n0. rnum. repeat (f_equal; try ring). Qed.
Theorem C80_getMarkers (g before : list (marker R)) (s : R) (append : bool) :
  (forall m, In m g -> length (mk_position m) = 3%nat /\ length (mk_scale m) = 3%nat) ->
  exists ms, group_getMarkers g before s append = (if append then before else []) ++ ms /\ Forall2 (scaled s) g ms.
Proof.
  intros H. unfold group_getMarkers. change (@neqb R R_ops) with Reqb. change (@n1 R R_ops) with 1. destruct (Reqb_spec s 1) as [->|Hs].
  - exists g. split; [destruct append; cbn [negb andb app]; [now rewrite map_id|reflexivity]|]. induction g as [|m g IH]; constructor.
    + destruct (H m (or_introl eq_refl)) as (A & B). assert (T1 : forall v, length v = 3%nat -> v = times3 1 v).
      { intros v Hv. rewrite (vec3 v 0 Hv) at 1. unfold times3. repeat (f_equal; try ring). }
      split; [apply T1, A|]. split; [apply T1, B|]. repeat split.
    + apply IH. intros; apply H; right; assumption.
  - exists (map (scale_marker s) g). split; [rewrite andb_false_r; reflexivity|]. clear H. induction g as [|m g IH]; cbn; constructor; [|exact IH].
    unfold scaled, scale_marker. cbn. rewrite !times3_comm. repeat split.
Qed.
Print Assumptions C80_getMarkers.
Example C80_getMarkers_example : forall m, In m (hexacopter (T := R) true) -> length (mk_position m) = 3%nat /\ length (mk_scale m) = 3%nat.
Proof. intros m Hm. cbn in Hm. repeat (destruct Hm as [<-|Hm]; [split; reflexivity|]). destruct Hm. Qed.

(** ** Setters change the named field of every marker and nothing else. *)
Theorem C80_setters {T} (g : list (marker T)) (s f : string) (a : Z) (l : T) (b : bool) :
  let all P := List.Forall P in
  (all (fun m => mk_ns m = s) (group_setNamespace g s) /\ map (fun m => set_ns m "") (group_setNamespace g s) = map (fun m => set_ns m "") g) /\
  (all (fun m => mk_frame m = f) (group_setHeader g f) /\ map (fun m => set_frame m "") (group_setHeader g f) = map (fun m => set_frame m "") g) /\
  (all (fun m => mk_ns m = s /\ mk_frame m = f) (group_setHeaderAndNamespace g f s) /\
     map (fun m => set_ns (set_frame m "") "") (group_setHeaderAndNamespace g f s) = map (fun m => set_ns (set_frame m "") "") g) /\
  (all (fun m => mk_action m = a) (group_setAction g a) /\ map (fun m => set_action m 0) (group_setAction g a) = map (fun m => set_action m 0) g) /\
  (all (fun m => mk_lifetime m = l) (group_setLifetime g l) /\ map (fun m => set_life m l) (group_setLifetime g l) = map (fun m => set_life m l) g) /\
  (all (fun m => mk_locked m = b) (group_setFrameLocked g b) /\ map (fun m => set_locked m true) (group_setFrameLocked g b) = map (fun m => set_locked m true) g).
Proof.
  cbv zeta. unfold group_setNamespace, group_setHeader, group_setHeaderAndNamespace, group_setAction, group_setLifetime, group_setFrameLocked.
  repeat split; try (rewrite map_map; apply map_ext; intros m; reflexivity);
    (apply List.Forall_forall; intros m Hm; apply in_map_iff in Hm; destruct Hm as (m0 & <- & _); repeat split).
Qed.
Print Assumptions C80_setters.

(** ** C82: the two vehicles *)
(** The markers of the hexacopter have different ids and one namespace. *)
Theorem C82_hexacopter_partial {T} {ops : NumOps T} (simple : bool) :
  NoDup (map mk_id (hexacopter simple)) /\ List.Forall (fun m => mk_ns m = "hexacopter"%string /\ mk_locked m = true) (hexacopter simple).
Proof. destruct simple; (split; [cbn; repeat constructor; cbn; intuition lia|repeat constructor]). Qed.
Print Assumptions C82_hexacopter_partial.
(** Those of the Leica do not: two different markers carry the id 1, so that only the
    later one stays visible. *)
Theorem C82_leica_ids_refuted : exists i j, forall c : R, (i < j < length (leica c))%nat /\
  mk_id (nth i (leica c) marker_new) = mk_id (nth j (leica c) marker_new) /\ mk_ns (nth i (leica c) marker_new) = mk_ns (nth j (leica c) marker_new) /\
  mk_position (nth i (leica c) marker_new) <> mk_position (nth j (leica c) marker_new).
Proof.
  exists 1%nat, 2%nat. intros c. split; [cbn; lia|]. split; [reflexivity|]. split; [reflexivity|]. cbn. unfold nlit. rnum. intros [=]. lra.
Qed.
Print Assumptions C82_leica_ids_refuted.
(** The body meshes of the full hexacopter have no orientation (all zero), and
    transforming the group leaves it so: they do not turn with the vehicle. *)
Theorem C82_mesh_orientation_refuted : exists m, In m (hexacopter (T := R) false) /\ mk_type m = 10%Z /\ ~ unit_q (mk_orientation m) /\
  forall t q, unit_q q -> mk_orientation (transformMarker t q m) = [0; 0; 0; 0].
Proof.
  exists (nth 6 (hexacopter (T := R) false) marker_new). split; [apply nth_In; cbn; lia|]. split; [reflexivity|]. split.
  - intros (_ & U). cbn in U. lra.
  - intros t q _. cbn. unfold q_mult, vx, n0. rnum. cbn [nth]. repeat (f_equal; try ring).
Qed.
Print Assumptions C82_mesh_orientation_refuted.

(** ** C83: axes and arrows *)
(** In a line list, line k joins the points 2 k and 2 k + 1, given relative to the
    pose of the marker: its end points in the frame, and its colour. *)
Definition line_ends (m : marker R) (k : nat) : list R * list R :=
  (motion (mk_position m) (mk_orientation m) (nth (2 * k) (mk_points m) []), motion (mk_position m) (mk_orientation m) (nth (2 * k + 1) (mk_points m) [])).
Definition unit_vector (k : nat) : list R := nth k [[1; 0; 0]; [0; 1; 0]; [0; 0; 1]] [].
Definition axis_color (k : nat) : list R := nth k [[1; 0; 0; 1]; [0; 1; 0; 1]; [0; 0; 1; 1]] [].
(** drawAxes draws three lines from p along the axes of q, red, green and blue,
    whatever the marker was before. *)
Theorem C83_axes (p q : list R) (scale width : R) (m : marker R) (k : nat) : length p = 3%nat -> unit_q q -> (k < 3)%nat ->
  let m' := drawAxes p q scale width m in
  mk_type m' = 5%Z /\ mk_action m' = 0%Z /\ length (mk_points m') = 6%nat /\ length (mk_colors m') = 6%nat /\ nth 0 (mk_scale m') 0 = width /\
  mk_position m' = p /\ mk_orientation m' = q /\
  line_ends m' k = (p, plus3 p (times3 scale (rotated q (unit_vector k)))) /\
  nth (2 * k) (mk_colors m') [] = axis_color k /\ nth (2 * k + 1) (mk_colors m') [] = axis_color k.
Proof.
  intros L U Hk m'. unfold m', drawAxes. cbn -[Nat.mul Nat.add]. rewrite point_msg_id by exact L.
  do 7 (split; [reflexivity|]). split; [|destruct k as [|[|[|k]]]; try lia; split; reflexivity].
  unfold line_ends. cbn -[Nat.mul Nat.add motion].
  assert (A : motion p q [0; 0; 0] = p). { rewrite (vec3 p 0 L) at 2. unfold motion, plus3, rotated. cbn [nth]. repeat (f_equal; try ring). }
  assert (B : forall u, motion p q (times3 scale u) = plus3 p (times3 scale (rotated q u))).
  { intros u. unfold motion, plus3, rotated, times3. cbn [nth]. repeat (f_equal; try ring). }
  rewrite <- B. destruct k as [|[|[|k]]]; [| | |lia]; cbn [Nat.mul Nat.add nth unit_vector]; (f_equal; [exact A|]); f_equal;
    unfold times3, unit_vector, n1, n0; rnum; cbn [nth]; repeat (f_equal; try ring).
Qed.
Print Assumptions C83_axes.
(** drawAxesArrows draws the same three axes as arrows. *)
Theorem C83_axes_arrows (p q : list R) (scale diameter : R) (k : nat) d : length p = 3%nat -> unit_q q -> (k < 3)%nat ->
  let ms := drawAxesArrows p q scale diameter in
  length ms = 3%nat /\ mk_type (nth k ms d) = 0%Z /\ mk_position (nth k ms d) = origin /\ mk_color (nth k ms d) = axis_color k /\
  mk_points (nth k ms d) = [p; plus3 p (times3 scale (rotated q (unit_vector k)))] /\
  mk_scale (nth k ms d) = [diameter / 10; diameter / 5; 0].
Proof.
  intros L U Hk ms. unfold ms, drawAxesArrows. split; [reflexivity|].
  assert (E : forall u, point_msg (v3_add (v3_scale (q_rotate q u) scale) p) = plus3 p (times3 scale (rotated q u))).
  { intros u. rewrite q_rotate_R by exact U. unfold point_msg, v3_add, v3_scale, plus3, times3, vx, n0. rnum. cbn [nth]. repeat (f_equal; try ring). }
  assert (Z : point_msg (v3_add [n0; n0; n0] p) = p) by (rewrite plus3_zero by exact L; now apply point_msg_id).
  assert (Sc : [nmul diameter (nlit 1 10); nmul (nmul diameter (nofZ 2)) (nlit 1 10); n0] = [diameter / 10; diameter / 5; 0]).
  { unfold nlit, n0. rnum. repeat (f_equal; try field). }
  destruct k as [|[|[|k]]]; [| | |lia]; cbn [nth]; unfold drawArrowPoints; cbn -[point_msg v3_add v3_scale q_rotate plus3 times3 rotated nmul nlit nofZ];
    (split; [reflexivity|]); (split; [reflexivity|]); (split; [reflexivity|]); (split; [rewrite Z, E; reflexivity|exact Sc]).
Qed.
Print Assumptions C83_axes_arrows.
(** An arrow given by a pose. *)
Theorem C83_arrow_pose {T} {ops : NumOps T} (p q color : list T) (len diameter : T) (m : marker T) : length p = 3%nat ->
  let m' := drawArrowPositionOrientation p q color len diameter m in
  mk_type m' = 0%Z /\ mk_action m' = 0%Z /\ mk_position m' = p /\ mk_orientation m' = q /\ mk_color m' = color /\ mk_scale m' = [len; diameter; diameter].
Proof. intros L m'. unfold m'. cbn. rewrite point_msg_id by exact L. auto 6. Qed.
Print Assumptions C83_arrow_pose.
(** A marker used before as an arrow between points keeps them: the pose given is
    then not what is shown (an arrow marker with two points is drawn between them). *)
Theorem C83_arrow_pose_reused_refuted : exists (m : marker R) p q color len diameter, length p = 3%nat /\ unit_q q /\
  mk_points (drawArrowPositionOrientation p q color len diameter m) = [[0; 0; 0]; [1; 0; 0]].
Proof.
  exists (drawArrowPoints [0; 0; 0] [1; 0; 0] [1; 0; 0; 1] 1 marker_new), [5; 5; 5], [1; 0; 0; 0], [1; 0; 0; 1], 1, 1.
  split; [reflexivity|]. split; [split; [reflexivity|cbn; ring]|]. reflexivity.
Qed.
Print Assumptions C83_arrow_pose_reused_refuted.
Example C83_example : length [1; 2; 3] = 3%nat /\ unit_q [3 / 5; 0; 0; 4 / 5] /\ (1 < 3)%nat.
Proof. repeat split; cbn; try lra; lia. Qed.
