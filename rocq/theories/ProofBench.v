(** Proofs about the benchmark: distances and lengths. *)
From Coq Require Import ZArith Reals List Bool Lia Lra Psatz String.
From Verif Require Import Num RSum SpecPoly ModelPolynomial ModelSegment ModelVertex ModelTrajectory ModelSampling ModelVis ModelLinear ModelNonlinear ModelPlanner ModelBench
  SpecSegment SpecVertex SpecTrajectory SpecVis SpecBench ProofSegment ProofVertex.
Import ListNotations.
Notation length := List.length.
Open Scope R_scope.

Lemma dist3_sq a b : dist3 a b ^ 2 = (nth 0 a 0 - nth 0 b 0) ^ 2 + (nth 1 a 0 - nth 1 b 0) ^ 2 + (nth 2 a 0 - nth 2 b 0) ^ 2.
Proof. unfold dist3. apply pow2_sqrt. repeat apply Rplus_le_le_0_compat; apply pow2_ge_0. Qed.
Lemma dist3_nonneg a b : 0 <= dist3 a b. Proof. apply sqrt_pos. Qed.
Lemma dist3_sym a b : dist3 a b = dist3 b a. Proof. unfold dist3. f_equal. ring. Qed.
Lemma dist3_refl a : dist3 a a = 0.
Proof. unfold dist3. replace (_ + _) with 0 by ring. apply sqrt_0. Qed.

Lemma norm3_triangle a b c x y z :
  sqrt ((a + x) ^ 2 + (b + y) ^ 2 + (c + z) ^ 2) <= sqrt (a ^ 2 + b ^ 2 + c ^ 2) + sqrt (x ^ 2 + y ^ 2 + z ^ 2).
Proof.
  set (u := sqrt (a ^ 2 + b ^ 2 + c ^ 2)). set (v := sqrt (x ^ 2 + y ^ 2 + z ^ 2)).
  assert (U0 : 0 <= u) by apply sqrt_pos. assert (V0 : 0 <= v) by apply sqrt_pos.
  assert (U : u ^ 2 = a ^ 2 + b ^ 2 + c ^ 2) by (apply pow2_sqrt; repeat apply Rplus_le_le_0_compat; apply pow2_ge_0).
  assert (V : v ^ 2 = x ^ 2 + y ^ 2 + z ^ 2) by (apply pow2_sqrt; repeat apply Rplus_le_le_0_compat; apply pow2_ge_0).
  assert (D : a * x + b * y + c * z <= u * v).
  { apply Rsqr_incr_0_var; [|nra]. unfold Rsqr.
    replace (u * v * (u * v)) with (u ^ 2 * v ^ 2) by ring. rewrite U, V.
    assert (0 <= (a * y - b * x) ^ 2) by apply pow2_ge_0. assert (0 <= (a * z - c * x) ^ 2) by apply pow2_ge_0. assert (0 <= (b * z - c * y) ^ 2) by apply pow2_ge_0. nra. }
  rewrite <- (sqrt_pow2 (u + v)) by lra. apply sqrt_le_1_alt.
  replace ((u + v) ^ 2) with (u ^ 2 + v ^ 2 + 2 * (u * v)) by ring. rewrite U, V. nra.
Qed.
Lemma dist3_triangle a b c : dist3 a c <= dist3 a b + dist3 b c.
Proof.
  unfold dist3.
  assert (Q := norm3_triangle (nth 0 a 0 - nth 0 b 0) (nth 1 a 0 - nth 1 b 0) (nth 2 a 0 - nth 2 b 0)
    (nth 0 b 0 - nth 0 c 0) (nth 1 b 0 - nth 1 c 0) (nth 2 b 0 - nth 2 c 0)).
  match goal with |- sqrt ?x <= _ => match type of Q with sqrt ?y <= _ => replace x with y by (f_equal; ring) end end. exact Q.
Qed.
Lemma norm_dist3 a b : v3_norm (v3_sub a b) = dist3 a b.
Proof. unfold v3_norm, v3_sub, dist3, vx, n0. rnum. f_equal. cbn [nth]. ring. Qed.

(** ** Paths *)
Lemma polyline_cons a b Q : polyline (a :: b :: Q) = dist3 a b + polyline (b :: Q).
Proof.
  unfold polyline, path_length. cbn [length]. rewrite !Nat.sub_0_r. replace (S (S (length Q)) - 1)%nat with (S (length Q)) by lia.
  replace (S (length Q) - 1)%nat with (length Q) by lia. cbn [seq map]. rewrite <- seq_shift, map_map. reflexivity.
Qed.
Lemma polyline_nil : polyline [] = 0. Proof. reflexivity. Qed.
Lemma polyline_one a : polyline [a] = 0. Proof. reflexivity. Qed.
Lemma path_length_from_R ps : forall last acc,
  path_length_from last ps acc = acc + polyline (last :: map pt_position ps).
Proof.
  induction ps as [|p ps IH]; intros last acc; cbn [path_length_from map]; [rewrite polyline_one; ring|].
  rewrite IH, polyline_cons, norm_dist3, dist3_sym. rnum. ring.
Qed.
Lemma computePathLength_R (ps : list (point R)) : computePathLength ps = polyline (map pt_position ps).
Proof. destruct ps as [|p ps]; [reflexivity|]. unfold computePathLength. rewrite path_length_from_R. cbn [map]. unfold n0. rnum. ring. Qed.
Lemma last_cons {A} (Q : list A) : forall a b, last (b :: Q) a = last Q b.
Proof. induction Q as [|c Q IH]; intros a b; [reflexivity|]. change (last (c :: Q) a = last (c :: Q) b). rewrite !IH. reflexivity. Qed.
Lemma polyline_ge_ends Q : forall a, dist3 a (last Q a) <= polyline (a :: Q).
Proof.
  induction Q as [|b Q IH]; intros a; [rewrite polyline_one; cbn [last]; rewrite dist3_refl; lra|].
  rewrite polyline_cons. assert (E := last_cons Q a b).
  rewrite E. assert (H := IH b). assert (G := dist3_triangle a b (last Q b)). lra.
Qed.

(** ** The line through two points *)
Lemma pointLine_R A B C : 0 < dist3 B C ->
  let s := (nth 0 A 0 - nth 0 B 0) * (nth 0 C 0 - nth 0 B 0) + (nth 1 A 0 - nth 1 B 0) * (nth 1 C 0 - nth 1 B 0) + (nth 2 A 0 - nth 2 B 0) * (nth 2 C 0 - nth 2 B 0) in
  pointLineDistance A B C = dist3 A (line_point B C (s / dist3 B C ^ 2)).
Proof.
  intros H s. unfold pointLineDistance. set (v := v3_sub C B). assert (Ev : v3_norm v = dist3 B C) by (unfold v; rewrite norm_dist3; apply dist3_sym). rewrite Ev, norm_dist3.
  unfold v, v3_add, v3_scale, v3_dot, v3_div, v3_sub, line_point, vx, n0. rnum. cbn [nth].
  set (L := dist3 B C) in *. unfold s. unfold dist3. cbn [nth]. f_equal. clearbody L. clear s v Ev.
  generalize (nth 0 A 0) (nth 1 A 0) (nth 2 A 0) (nth 0 B 0) (nth 1 B 0) (nth 2 B 0) (nth 0 C 0) (nth 1 C 0) (nth 2 C 0).
  intros. field. lra.
Qed.
Lemma line_minimum A B C : 0 < dist3 B C ->
  let s0 := ((nth 0 A 0 - nth 0 B 0) * (nth 0 C 0 - nth 0 B 0) + (nth 1 A 0 - nth 1 B 0) * (nth 1 C 0 - nth 1 B 0) + (nth 2 A 0 - nth 2 B 0) * (nth 2 C 0 - nth 2 B 0)) / dist3 B C ^ 2 in
  forall s, dist3 A (line_point B C s0) <= dist3 A (line_point B C s).
Proof.
  intros H s0 s. unfold dist3 at 1 2. apply sqrt_le_1_alt. unfold line_point. cbn [nth].
  assert (L := dist3_sq B C). set (l := dist3 B C) in *. assert (L0 : 0 < l ^ 2) by (apply pow_lt; exact H).
  assert (E : s0 * l ^ 2 = (nth 0 A 0 - nth 0 B 0) * (nth 0 C 0 - nth 0 B 0) + (nth 1 A 0 - nth 1 B 0) * (nth 1 C 0 - nth 1 B 0) + (nth 2 A 0 - nth 2 B 0) * (nth 2 C 0 - nth 2 B 0)) by (unfold s0; field; lra).
  set (a0 := nth 0 A 0) in *. set (a1 := nth 1 A 0) in *. set (a2 := nth 2 A 0) in *.
  set (b0 := nth 0 B 0) in *. set (b1 := nth 1 B 0) in *. set (b2 := nth 2 B 0) in *.
  set (c0 := nth 0 C 0) in *. set (c1 := nth 1 C 0) in *. set (c2 := nth 2 C 0) in *.
  clearbody s0 l a0 a1 a2 b0 b1 b2 c0 c1 c2.
  assert (Q : forall u, (a0 - ((1 - u) * b0 + u * c0)) ^ 2 + (a1 - ((1 - u) * b1 + u * c1)) ^ 2 + (a2 - ((1 - u) * b2 + u * c2)) ^ 2
     = (a0 - b0) ^ 2 + (a1 - b1) ^ 2 + (a2 - b2) ^ 2 - 2 * u * (s0 * l ^ 2) + u ^ 2 * l ^ 2).
  { intros u. rewrite E, L. ring. }
  rewrite !Q. assert (0 <= (s - s0) ^ 2 * l ^ 2) by (apply Rmult_le_pos; apply pow2_ge_0). nra.
Qed.

(** ** Nominal length *)
Lemma head_of_ok (x : list R) : (3 <= length x)%nat -> head_of (Some x) = Ok (firstn 3 x).
Proof. intros H. unfold head_of. destruct (Nat.ltb_spec (length x) 3); [lia|reflexivity]. Qed.
Lemma nominal_loop_R vs : List.Forall (fun v => exists x, vertex_get v 0 = Some x /\ (3 <= length x)%nat) vs -> vs <> [] ->
  forall acc, nominal_loop vs acc = Ok (acc + polyline (map (fun v => firstn 3 (pos_of v)) vs)).
Proof.
  induction vs as [|v vs IH]; intros H Hn acc; [congruence|]. destruct vs as [|w vs]; [cbn [nominal_loop map]; rewrite polyline_one; rnum; f_equal; ring|].
  inversion H as [|? ? Hv Hr]; subst. destruct Hv as (x & Ex & Lx). inversion Hr as [|? ? Hw _]; subst. destruct Hw as (y & Ey & Ly).
  change (nominal_loop (v :: w :: vs) acc) with (e <-- head_of (first_position (w :: vs)) ;; s <-- head_of (vertex_get v kPosition) ;; nominal_loop (w :: vs) (nadd acc (v3_norm (v3_sub e s)))).
  change kPosition with 0%Z. cbn [first_position]. change kPosition with 0%Z. rewrite Ex, Ey, !head_of_ok by assumption. cbn [obind].
  rewrite IH by (try assumption; discriminate). cbn [map]. rewrite polyline_cons, norm_dist3. replace (pos_of v) with x by (unfold pos_of; rewrite Ex; reflexivity). replace (pos_of w) with y by (unfold pos_of; rewrite Ey; reflexivity). rewrite dist3_sym. rnum. f_equal. ring.
Qed.
