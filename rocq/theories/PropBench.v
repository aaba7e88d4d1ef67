(** C88: path length, distance from a line and nominal length in the benchmark. *)
From Coq Require Import ZArith Reals List Bool Lia Lra Psatz String.
From Flocq Require Import Core BinarySingleNaN.
From Verif Require Import Num RSum SpecPoly ModelPolynomial ModelSegment ModelVertex ModelTrajectory ModelSampling ModelVis ModelLinear ModelNonlinear ModelPlanner ModelBench
  SpecSegment SpecVertex SpecTrajectory SpecVis SpecBench ProofSegment ProofVertex ProofFloat ProofBench.
Import ListNotations.
Notation length := List.length.
Open Scope R_scope.

(** ** C88: the path length. *)
Theorem C88_path_length (ps : list (point R)) :
  computePathLength ps = polyline (map pt_position ps) /\
  (forall i j, (i <= j < length ps)%nat -> dist3 (pt_position (nth i ps point_new)) (pt_position (nth j ps point_new)) <= computePathLength ps).
Proof.
  split; [apply computePathLength_R|]. intros i j Hij. rewrite computePathLength_R.
  assert (G : forall (Q : list (list R)), polyline (skipn i Q) <= polyline Q).
  { clear. induction i as [|i IH]; intros Q; [cbn [skipn]; lra|]. destruct Q as [|a Q]; [cbn [skipn]; lra|]. cbn [skipn].
    eapply Rle_trans; [apply IH|]. destruct Q as [|b Q]; [rewrite polyline_nil, polyline_one; lra|]. rewrite polyline_cons.
    assert (D := dist3_nonneg a b). lra. }
  assert (P : forall (n : nat) (Q : list (list R)) a, (n < length (a :: Q))%nat -> dist3 a (nth n (a :: Q) origin) <= polyline (a :: Q)).
  { clear. induction n as [|n IH]; intros Q a Hn.
    - cbn [nth]. rewrite dist3_refl. revert a Hn. induction Q as [|b Q IH]; intros a _; [rewrite polyline_one; lra|]. rewrite polyline_cons.
      assert (D := dist3_nonneg a b). assert (E := IH b ltac:(cbn [length]; lia)). lra.
    - destruct Q as [|b Q]; [cbn [length] in Hn; lia|]. change (nth (S n) (a :: b :: Q) origin) with (nth n (b :: Q) origin). rewrite polyline_cons.
      assert (D := dist3_triangle a b (nth n (b :: Q) origin)). assert (E := IH Q b ltac:(cbn [length] in *; lia)). lra. }
  eapply Rle_trans; [|apply (G (map pt_position ps))]. rewrite skipn_map.
  assert (Ei : skipn i ps = nth i ps point_new :: skipn (S i) ps).
  { assert (Hi : (i < length ps)%nat) by lia. clear -Hi. revert ps Hi. induction i as [|i IH]; intros [|p ps] H; cbn [length] in H; try lia; [reflexivity|]. cbn [skipn nth].
    rewrite (IH ps) by lia. reflexivity. }
  assert (Ej : pt_position (nth j ps point_new) = nth (j - i) (map pt_position (skipn i ps)) origin).
  { change origin with (pt_position (point_new (T := R))). rewrite map_nth. f_equal. rewrite <- (firstn_skipn i ps) at 1.
    rewrite app_nth2; rewrite firstn_length_le by lia; [reflexivity|lia]. }
  rewrite Ej, Ei. cbn [map]. apply P. rewrite <- (map_length pt_position) in Hij. cbn [length]. rewrite map_length, skipn_length. rewrite map_length in Hij. lia.
Qed.
Print Assumptions C88_path_length.

Definition pts_of (ps : list (list R)) : list (point R) :=
  map (fun x => mkPoint 0 x origin origin origin origin [1; 0; 0; 0] origin origin DOF4) ps.
Example C88_length_example : computePathLength (pts_of [[0; 0; 0]; [3; 4; 0]; [3; 4; 12]]) = 17.
Proof.
  rewrite (proj1 (C88_path_length _)). cbn [pts_of map pt_position]. rewrite !polyline_cons, polyline_one. unfold dist3. cbn [nth].
  replace ((0 - 3) ^ 2 + (0 - 4) ^ 2 + (0 - 0) ^ 2) with (5 ^ 2) by ring. replace ((3 - 3) ^ 2 + (4 - 4) ^ 2 + (0 - 12) ^ 2) with (12 ^ 2) by ring.
  rewrite !sqrt_pow2 by lra. ring.
Qed.

(** ** C88: the distance from the line through two different points. *)
Theorem C88_line_distance (A B C : list R) : 0 < dist3 B C -> distance_to_line A B C (pointLineDistance A B C).
Proof.
  intros H. rewrite (pointLine_R A B C H). split; [|eexists; reflexivity]. intros s. apply (line_minimum A B C H).
Qed.
Print Assumptions C88_line_distance.
Example C88_distance_example : 0 < dist3 [0; 0; 0] [2; 0; 0] /\ pointLineDistance [5; 3; 4] [0; 0; 0] [2; 0; 0] = 5.
Proof.
  assert (E : dist3 [0; 0; 0] [2; 0; 0] = 2).
  { unfold dist3. cbn [nth]. replace (_ + _) with (2 ^ 2) by ring. apply sqrt_pow2. lra. }
  split; [lra|]. rewrite pointLine_R by lra. rewrite E. unfold dist3, line_point. cbn [nth].
  replace (_ + _) with (5 ^ 2) by field. apply sqrt_pow2. lra.
Qed.

(** In binary64 the distance from the "line" through two equal points is not a
    number, for every point and all coordinates. *)
Definition zn (x : b64) : Prop := match x with B754_zero _ | B754_nan => True | _ => False end.
Lemma minus_self (x : b64) : zn (@nsub b64 B64_ops x x).
Proof.
  destruct (is_finite x) eqn:F.
  - change (@nsub b64 B64_ops) with (@Bminus 53 1024 b64_prec_gt_0 b64_prec_lt_emax mode_NE).
    assert (Q := @Bminus_correct 53 1024 b64_prec_gt_0 b64_prec_lt_emax mode_NE x x F F).
    rewrite Rminus_diag_eq, round_0, Rabs_R0 in Q by (try reflexivity; apply valid_rnd_round_mode).
    rewrite Rlt_bool_true in Q by apply bpow_gt_0. destruct Q as (Q & Fq & _).
    destruct (Bminus mode_NE x x) as [s|s| |s m e b]; cbn; try exact I; [discriminate|].
    apply B2R_finite_nonzero in Q || idtac. cbn [B2R] in Q. exfalso. apply eq_0_F2R in Q. destruct s; discriminate.
  - destruct x as [s|s| |s m e b]; try discriminate; cbn; [destruct s; cbn; exact I|exact I].
Qed.
Ltac zn2 x y := let a := fresh in let b := fresh in intros a b; destruct x; try (exfalso; exact a); destruct y; try (exfalso; exact b).
Lemma zn_mul x y : zn x -> zn y -> zn (@nmul b64 B64_ops x y). Proof. zn2 x y; exact I. Qed.
Lemma zn_add x y : zn x -> zn y -> zn (@nadd b64 B64_ops x y). Proof. zn2 x y; try exact I. cbn. destruct (Bool.eqb _ _); exact I. Qed.
Lemma zn_sqrt x : zn x -> zn (@nsqrt b64 B64_ops x). Proof. intros H. destruct x; try (exfalso; exact H); exact I. Qed.
Lemma zn_div x y : zn x -> zn y -> @ndiv b64 B64_ops x y = B754_nan. Proof. zn2 x y; reflexivity. Qed.
Lemma nan_mul_r x : @nmul b64 B64_ops x B754_nan = B754_nan. Proof. destruct x; reflexivity. Qed.
Lemma nan_mul_l x : @nmul b64 B64_ops B754_nan x = B754_nan. Proof. destruct x; reflexivity. Qed.
Lemma nan_add_r x : @nadd b64 B64_ops x B754_nan = B754_nan. Proof. destruct x; reflexivity. Qed.
Lemma nan_add_l x : @nadd b64 B64_ops B754_nan x = B754_nan. Proof. destruct x; reflexivity. Qed.
Lemma nan_sub_l x : @nsub b64 B64_ops B754_nan x = B754_nan. Proof. destruct x; reflexivity. Qed.
Theorem C88_equal_points_nan (A B : list b64) : @pointLineDistance b64 B64_ops A B B = B754_nan.
Proof.
  unfold pointLineDistance, v3_add, v3_scale, v3_dot, v3_div. cbn [vx nth]. unfold vx. cbn [nth].
  assert (Zs : forall i, zn (nth i (@v3_sub b64 B64_ops B B) (@n0 b64 B64_ops))).
  { intros [|[|[|i]]]; unfold v3_sub; cbn [nth]; try apply minus_self. destruct i; exact I. }
  assert (Zn : zn (@v3_norm b64 B64_ops (@v3_sub b64 B64_ops B B))).
  { unfold v3_norm, vx. apply zn_sqrt. repeat first [apply zn_add|apply zn_mul|apply Zs]. }
  rewrite !(zn_div _ _ (Zs _) Zn). rewrite !nan_mul_l, !nan_add_r. unfold v3_sub at 1. unfold vx. cbn [nth].
  unfold v3_norm, vx. cbn [nth]. rewrite !nan_sub_l. rewrite !nan_mul_l. rewrite !nan_add_l. reflexivity.
Qed.
Print Assumptions C88_equal_points_nan.
Theorem C88_line_distance_refuted : exists A B : list b64,
  List.Forall (fun x => is_finite x = true) (A ++ B) /\ length A = 3%nat /\ length B = 3%nat /\
  is_nan (@pointLineDistance b64 B64_ops A B B) = true.
Proof.
  exists (repeat (@n1 b64 B64_ops) 3), (repeat (@n0 b64 B64_ops) 3). split; [|split; [reflexivity|split; [reflexivity|rewrite C88_equal_points_nan; reflexivity]]].
  repeat constructor; vm_compute; reflexivity.
Qed.
Print Assumptions C88_line_distance_refuted.

(** ** C88: the nominal length. *)
Theorem C88_nominal_length (vs : list (vertex R)) : vs <> [] ->
  List.Forall (fun v => exists x, vertex_get v 0 = Some x /\ (3 <= length x)%nat) vs ->
  nominalLength vs = Ok (polyline (map (fun v => firstn 3 (pos_of v)) vs)).
Proof. intros Hn H. unfold nominalLength. rewrite nominal_loop_R by assumption. unfold n0. rnum. f_equal. ring. Qed.
Print Assumptions C88_nominal_length.

(** Although the comment says that the next vertex with a position is looked
    for, two or more vertices of which one has no position are undefined
    behaviour. *)
Theorem C88_missing_position {T} {ops : NumOps T} (vs : list (vertex T)) :
  (exists v, In v vs /\ vertex_get v 0 = None) -> (2 <= length vs)%nat -> nominalLength vs = UB.
Proof.
  intros H. unfold nominalLength. generalize (@n0 T ops) as acc. revert H.
  induction vs as [|v vs IH]; intros (u & Hu & Eu) acc Hl; [cbn [length] in Hl; lia|]. destruct vs as [|w vs]; [cbn [length] in Hl; lia|].
  change (nominal_loop (v :: w :: vs) acc) with (e <-- head_of (first_position (w :: vs)) ;; s <-- head_of (vertex_get v kPosition) ;; nominal_loop (w :: vs) (nadd acc (v3_norm (v3_sub e s)))).
  unfold head_of at 1. destruct (first_position (w :: vs)) as [e|] eqn:Ef; [|reflexivity].
  destruct (Nat.ltb (length e) 3); [reflexivity|]. cbn [obind]. unfold head_of. change kPosition with 0%Z in *.
  destruct (vertex_get v 0) as [x|] eqn:Ev; [|reflexivity]. destruct (Nat.ltb (length x) 3); [reflexivity|]. cbn [obind].
  destruct Hu as [->|Hu]; [congruence|]. destruct vs as [|w' vs].
  - destruct Hu as [->|[]]. cbn [first_position] in Ef. change kPosition with 0%Z in Ef. rewrite Eu in Ef. discriminate.
  - apply IH; [exists u; auto|cbn [length]; lia].
Qed.
Print Assumptions C88_missing_position.
Definition pos_vertex (x : list R) : vertex R := mkVertex (length x) [(0%Z, x)].
Theorem C88_nominal_length_refuted : exists vs : list (vertex R),
  length vs = 3%nat /\ (exists x y, nth_error vs 0 = Some (pos_vertex x) /\ nth_error vs 2 = Some (pos_vertex y)) /\ nominalLength vs = UB.
Proof.
  exists [pos_vertex [0; 0; 0]; vertex_new 3; pos_vertex [1; 0; 0]]. split; [reflexivity|].
  split; [exists [0; 0; 0], [1; 0; 0]; auto|]. apply C88_missing_position; [|cbn [length]; lia]. exists (vertex_new 3). split; [cbn; auto|reflexivity].
Qed.
Print Assumptions C88_nominal_length_refuted.
Example C88_nominal_example : let vs := [pos_vertex [0; 0; 0; 9]; pos_vertex [3; 4; 0]] in
  List.Forall (fun v => exists x, vertex_get v 0 = Some x /\ (3 <= length x)%nat) vs /\ nominalLength vs = Ok 5.
Proof.
  cbv zeta. assert (H : List.Forall (fun v => exists x, vertex_get v 0 = Some x /\ (3 <= length x)%nat) [pos_vertex [0; 0; 0; 9]; pos_vertex [3; 4; 0]]).
  { repeat constructor; eexists; (split; [reflexivity|cbn [length]; lia]). }
  split; [exact H|]. rewrite C88_nominal_length by (try discriminate; exact H). f_equal. change (polyline [[0; 0; 0]; [3; 4; 0]] = 5).
  rewrite polyline_cons, polyline_one. unfold dist3. cbn [nth].
  replace ((0 - 3) ^ 2 + (0 - 4) ^ 2 + (0 - 0) ^ 2) with (5 ^ 2) by ring. rewrite sqrt_pow2 by lra. ring.
Qed.
