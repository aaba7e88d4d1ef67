(** Properties C26-C30: vertices, segment time estimation and vertex generators. *)
From Coq Require Import ZArith Reals List Bool Lia Lra Sorted.
From Coquelicot Require Import Coquelicot.
From Verif Require Import Num RSum ModelPolynomial ModelVertex SpecVertex
  ProofVertex ProofVertex2 ProofVertex3.
Import ListNotations.
Open Scope R_scope.

(** ** C26: a vertex is a finite map *)
(** For every arithmetic (in particular doubles) and every sequence of mutating
    calls: the code aborts iff the specification does, and otherwise all
    observers agree with the specified partial map. *)
Theorem C26_vertex_is_finite_map {T} {ops : NumOps T} (D : nat) (l : list (vop T)) :
  match spec_vops D (fun _ => None) l with
  | None => ofold run_vop l (vertex_new D) = Abort
  | Some f =>
      exists v, ofold run_vop l (vertex_new D) = Ok v /\ v_D v = D /\
        (forall k, vertex_get v k = f k) /\
        (forall k, vertex_has v k = true <-> f k <> None) /\
        (exists keys, NoDup keys /\ (forall k, In k keys <-> f k <> None) /\
                      vertex_count v = length keys) /\
        (forall k, fst (vertex_remove v k) = true <-> f k <> None)
  end.
Proof. exact (vertex_finite_map D l). Qed.
Print Assumptions C26_vertex_is_finite_map.

Definition c26_ops : list (vop R) :=
  [OpStartOrEnd [1; 2] 2; OpAdd 1 [3; 4]; OpRemove 2; OpAddScalar 4 7; OpAdd 1 [5; 6]].
Example C26_example :
  exists f, spec_vops 2 (fun _ => None) c26_ops = Some f /\
    f 0%Z = Some [1; 2] /\ f 1%Z = Some [5; 6] /\ f 2%Z = None /\ f 4%Z = Some [7; 7].
Proof. eexists. split; [reflexivity|]. repeat split; reflexivity. Qed.
Example C26_example_abort : spec_vops 2 (fun _ => None) [OpAddScalar 0 1; OpAdd 1 [3]] = None.
Proof. reflexivity. Qed.

(** Every vertex reachable by these calls satisfies the invariant used below. *)
Theorem C26_invariant {T} {ops : NumOps T} (D : nat) (l : list (vop T)) (v : vertex T) :
  ofold run_vop l (vertex_new D) = Ok v -> vertex_wf v /\ v_D v = D.
Proof.
  intro H. pose proof (run_vops_spec l (vertex_new D) (fun _ => None) (vertex_new_wf D)
    (fun _ => eq_refl)) as S. simpl in S. destruct (spec_vops D _ l).
  - destruct S as (v' & E & W & DD & _). rewrite E in H. apply Ok_inj in H. subst. auto.
  - rewrite S in H. discriminate.
Qed.
Print Assumptions C26_invariant.
Example C26_invariant_example :
  exists v, ofold run_vop c26_ops (vertex_new 2) = Ok v /\ vertex_count v = 3%nat.
Proof. eexists. split; reflexivity. Qed.

(** ** C27: isEqualTol and getSubdimension *)
Theorem C27_isEqualTol (v w : vertex R) (tol : R) :
  vertex_wf v -> vertex_wf w -> v_D v = v_D w ->
  exists b, vertex_isEqualTol v w tol = Ok b /\
    (b = true <->
     forall k, match vertex_get v k, vertex_get w k with
               | Some x, Some y => forall i, (i < v_D v)%nat -> Rabs (nth i x 0 - nth i y 0) <= tol
               | None, None => True
               | _, _ => False
               end).
Proof.
  intros Hv Hw HD. destruct (isEqualTol_spec v w tol Hv Hw HD) as (b & E & H).
  exists b. split; auto. rewrite H. split; intros G k; specialize (G k);
    destruct (vertex_get v k), (vertex_get w k); auto; intros i Hi; specialize (G i Hi);
    unfold n0 in *; rnum; now apply Rleb_true.
Qed.
Print Assumptions C27_isEqualTol.

Theorem C27_isEqualTol_reflexive (v : vertex R) (tol : R) :
  vertex_wf v -> 0 <= tol -> vertex_isEqualTol v v tol = Ok true.
Proof.
  intros Hv Ht. destruct (C27_isEqualTol v v tol Hv Hv eq_refl) as (b & E & H).
  rewrite E. f_equal. apply H. intro k. destruct (vertex_get v k); auto.
  intros. rewrite Rminus_eq_0, Rabs_R0. auto.
Qed.
Print Assumptions C27_isEqualTol_reflexive.

Theorem C27_isEqualTol_symmetric (v w : vertex R) (tol : R) :
  vertex_wf v -> vertex_wf w -> v_D v = v_D w ->
  vertex_isEqualTol v w tol = vertex_isEqualTol w v tol.
Proof.
  intros Hv Hw HD. destruct (C27_isEqualTol v w tol Hv Hw HD) as (b & E & H).
  destruct (C27_isEqualTol w v tol Hw Hv (eq_sym HD)) as (b' & E' & H').
  rewrite E, E'. f_equal. apply Bool.eq_true_iff_eq. rewrite H, H'.
  split; intros G k; specialize (G k);
    destruct (vertex_get v k), (vertex_get w k); auto; intros i Hi; rewrite Rabs_minus_sym;
    apply G; congruence.
Qed.
Print Assumptions C27_isEqualTol_symmetric.

Definition c27_v : vertex R := mkVertex 2 [(0%Z, [1; 2]); (1%Z, [3; 4])].
Definition c27_w : vertex R := mkVertex 2 [(0%Z, [1; 2]); (1%Z, [3; 5])].
Lemma c27_wf : vertex_wf c27_v /\ vertex_wf c27_w.
Proof.
  split; split; simpl; repeat constructor.
Qed.
Example C27_example : vertex_isEqualTol c27_v c27_w (1/2) = Ok false /\
                      vertex_isEqualTol c27_v c27_w 1 = Ok true.
Proof.
  destruct c27_wf as [Wv Ww].
  destruct (C27_isEqualTol c27_v c27_w (1/2) Wv Ww eq_refl) as (b & E & H).
  destruct (C27_isEqualTol c27_v c27_w 1 Wv Ww eq_refl) as (b' & E' & H').
  rewrite E, E'. split; f_equal.
  - destruct b; auto. destruct H as [H _]. specialize (H eq_refl 1%Z). simpl in H.
    specialize (H 1%nat ltac:(simpl; lia)). simpl in H.
    rewrite Rabs_minus_sym, Rabs_pos_eq in H by lra. lra.
  - apply H'. intro k. unfold vertex_get. simpl.
    destruct (k =? 0)%Z; [|destruct (k =? 1)%Z; auto];
      intros [|[|i]] Hi; simpl; try lia.
    all: try (rewrite Rminus_eq_0, Rabs_R0; lra).
    rewrite Rabs_minus_sym, Rabs_pos_eq; lra.
Qed.

(** The dimensions are not compared: vertices of different dimension reach a
    subtraction of vectors of different sizes. *)
Theorem C27_different_dimension_refuted :
  exists (v w : vertex R) tol, vertex_wf v /\ vertex_wf w /\ vertex_isEqualTol v w tol = UB.
Proof.
  exists (mkVertex 1 [(0%Z, [1])]), (mkVertex 2 [(0%Z, [1; 2])]), 0.
  split; [|split]; [split; simpl; repeat constructor|split; simpl; repeat constructor|reflexivity].
Qed.
Print Assumptions C27_different_dimension_refuted.

(** [dims] are size_t values. *)
Theorem C27_getSubdimension {T} {ops : NumOps T} (v : vertex T) (dims : list nat) (max_order : Z) :
  vertex_wf v ->
  ((forall k, In k dims -> (k < v_D v)%nat) ->
   exists sub, vertex_getSubdimension v dims max_order = Ok (true, sub) /\ v_D sub = length dims /\
     forall k, vertex_get sub k =
       if (k <=? max_order)%Z
       then option_map (fun x => map (fun j => nth j x n0) dims) (vertex_get v k)
       else None) /\
  ((exists k, In k dims /\ (v_D v <= k)%nat) ->
   exists sub, vertex_getSubdimension v dims max_order = Ok (false, sub)).
Proof.
  intro Hv. destruct (getSubdimension_spec v dims max_order Hv) as [H1 H2]. split; intro H.
  - destruct (H1 H) as (sub & E & _ & D & G). eauto.
  - eauto.
Qed.
Print Assumptions C27_getSubdimension.
Example C27_getSubdimension_example :
  (forall k, In k [1%nat; 0%nat; 1%nat] -> (k < v_D c27_v)%nat) /\
  vertex_getSubdimension c27_v [1%nat; 0%nat; 1%nat] 0 = Ok (true, mkVertex 3 [(0%Z, [2; 1; 2])]) /\
  vertex_getSubdimension c27_v [2%nat] 0 = Ok (false, mkVertex 1 []).
Proof. split; [|split; reflexivity]. intros k [<-|[<-|[<-|[]]]]; simpl; lia. Qed.

(** ** C28: velocity ramp *)
(** [T] is the minimum time of a rest-to-rest motion. *)
Definition minimum_time (d vm am T : R) : Prop :=
  (exists x v, rest_to_rest d vm am T x v) /\
  (forall T' x v, rest_to_rest d vm am T' x v -> T <= T').

Theorem C28_velocity_ramp_times (n : nat) (vs : list (vertex R)) (vm am time_factor : R) :
  (2 <= length vs)%nat -> has_positions n vs -> 0 < vm -> 0 < am ->
  exists ts, estimateSegmentTimesVelocityRamp vs vm am time_factor = Ok ts /\
    length ts = (length vs - 1)%nat /\
    forall i d, (S i < length vs)%nat ->
      exists T, minimum_time (SpecVertex.dist (pos_of (nth i vs d)) (pos_of (nth (S i) vs d))) vm am T /\
        nth i ts 0 = Rmax (1/10) T.
Proof.
  intros Hl Hp Hv Ha. rewrite (velocity_ramp_eq n) by auto. eexists. split; [reflexivity|].
  split; [rewrite map_length, pairs_length; lia|].
  intros i d Hi. exists (ramp_time (SpecVertex.dist (pos_of (nth i vs d)) (pos_of (nth (S i) vs d))) vm am).
  split.
  - split.
    + apply ramp_time_feasible; auto. apply dist_nonneg.
    + intros T' x v H. apply (rest_to_rest_minimal _ _ _ _ x v); auto. apply dist_nonneg.
  - rewrite (ProofPolynomial.nth_map_lt _ _ _ (d, d)) by (rewrite pairs_length; lia).
    rewrite pairs_nth by auto. reflexivity.
Qed.
Print Assumptions C28_velocity_ramp_times.

Definition c28_vs : list (vertex R) := [mkVertex 2 [(0%Z, [0; 0])]; mkVertex 2 [(0%Z, [3; 4])]].
Lemma c28_positions : has_positions 2 c28_vs.
Proof. repeat constructor; eexists; split; reflexivity. Qed.
Lemma c28_dist : SpecVertex.dist [0; 0] [3; 4] = 5.
Proof.
  unfold SpecVertex.dist. cbn [combine fold_right fst snd].
  replace ((0 - 3) ^ 2 + ((0 - 4) ^ 2 + 0)) with (5 ^ 2) by ring. apply sqrt_pow2. lra.
Qed.
Example C28_example : estimateSegmentTimesVelocityRamp c28_vs 1 1 1 = Ok [6].
Proof.
  rewrite (velocity_ramp_eq 2) by (try apply c28_positions; simpl; lia).
  cbn [pairs c28_vs map fst snd pos_of vertex_get v_con map_find Z.eqb].
  rewrite c28_dist, ramp_time_eq by lra. destruct Rlt_dec; [lra|].
  repeat f_equal. rewrite Rmax_right; lra.
Qed.
(** Exactly the vertex counts below two abort. *)
Theorem C28_too_few_vertices_abort {T} {ops : NumOps T} (vs : list (vertex T)) vm am f :
  (length vs < 2)%nat -> estimateSegmentTimesVelocityRamp vs vm am f = Abort.
Proof. intro H. unfold estimateSegmentTimesVelocityRamp. apply Nat.ltb_lt in H. now rewrite H. Qed.
Print Assumptions C28_too_few_vertices_abort.

(** The documented effect of time_factor is absent. *)
Theorem C28_time_factor_refuted :
  exists (vs : list (vertex R)) vm am ts ts',
    has_positions 2 vs /\ 0 < vm /\ 0 < am /\
    estimateSegmentTimesVelocityRamp vs vm am 1 = Ok ts /\
    estimateSegmentTimesVelocityRamp vs vm am 2 = Ok ts' /\
    ts' <> map (fun t => 2 * t) ts /\ ts' = ts.
Proof.
  exists c28_vs, 1, 1, [6], [6]. split; [apply c28_positions|]. split; [lra|]. split; [lra|].
  split; [apply C28_example|]. split; [apply C28_example|]. split; auto.
  simpl. intro H. injection H as H. lra.
Qed.
Print Assumptions C28_time_factor_refuted.

(** ** C29: estimateSegmentTimes *)
Theorem C29_positive_times_partial (n : nat) (vs : list (vertex R)) (vm am : R) :
  (2 <= length vs)%nat -> has_positions n vs -> 0 < vm -> 0 < am ->
  (forall i d, (S i < length vs)%nat -> pos_of (nth i vs d) <> pos_of (nth (S i) vs d)) ->
  exists ts, estimateSegmentTimes exp vs vm am = Ok ts /\
    length ts = (length vs - 1)%nat /\ List.Forall (fun t => 0 < t) ts.
Proof.
  intros Hl Hp Hv Ha Hne. unfold estimateSegmentTimes.
  rewrite (nfabian_eq n) by auto. eexists. split; [reflexivity|].
  split; [rewrite map_length, pairs_length; lia|].
  assert (d : vertex R) by exact (vertex_new 0).
  apply List.Forall_forall. intros t Ht. apply in_map_iff in Ht as (p & <- & Hin).
  apply (In_nth _ _ (d, d)) in Hin as (i & Hi & Ep). subst p. rewrite pairs_length in Hi.
  rewrite pairs_nth by lia. simpl fst; simpl snd.
  apply nfabian_time_pos; auto; [|unfold nlit; cbn [ndiv nofZ R_ops]; lra].
  assert (Hlen : forall i, (i < length vs)%nat -> length (pos_of (nth i vs d)) = n).
  { intros j Hj. unfold has_positions in Hp. rewrite List.Forall_forall in Hp.
    destruct (Hp (nth j vs d)) as (x & E & Hx); [now apply nth_In|]. unfold pos_of. now rewrite E. }
  apply dist_pos.
  - rewrite !Hlen; auto; lia.
  - intro E. apply (Hne i d); [lia|]. auto.
Qed.
Print Assumptions C29_positive_times_partial.
Example C29_example : has_positions 2 c28_vs /\
  (forall i d, (S i < length c28_vs)%nat -> pos_of (nth i c28_vs d) <> pos_of (nth (S i) c28_vs d)).
Proof.
  split; [apply c28_positions|]. intros [|i] d Hi; simpl in Hi; try lia.
  cbn. intro H. injection H as H _. lra.
Qed.

(** Every repeated waypoint gets the time 0. *)
Theorem C29_repeated_waypoint (n : nat) (vs : list (vertex R)) (vm am : R) (i : nat) (d : vertex R) :
  (S i < length vs)%nat -> has_positions n vs ->
  pos_of (nth i vs d) = pos_of (nth (S i) vs d) ->
  exists ts, estimateSegmentTimes exp vs vm am = Ok ts /\ nth i ts 1 = 0.
Proof.
  intros Hi Hp E. unfold estimateSegmentTimes. rewrite (nfabian_eq n) by (auto; lia).
  eexists. split; [reflexivity|].
  rewrite (ProofPolynomial.nth_map_lt _ _ _ (d, d)) by (rewrite pairs_length; lia).
  rewrite pairs_nth by auto. simpl fst; simpl snd. rewrite dist_zero by auto. apply nfabian_time_0.
Qed.
Print Assumptions C29_repeated_waypoint.
Definition c29_vs : list (vertex R) := [mkVertex 1 [(0%Z, [1])]; mkVertex 1 [(0%Z, [1])]].
Example C29_repeated_example : (1 < length c29_vs)%nat /\ has_positions 1 c29_vs /\
  pos_of (nth 0 c29_vs (vertex_new 0)) = pos_of (nth 1 c29_vs (vertex_new 0)).
Proof. split; [simpl; lia|]. split; [repeat constructor; eexists; split; reflexivity|reflexivity]. Qed.

Theorem C29_positive_times_refuted :
  exists (vs : list (vertex R)) vm am ts,
    has_positions 1 vs /\ (2 <= length vs)%nat /\ 0 < vm /\ 0 < am /\
    estimateSegmentTimes exp vs vm am = Ok ts /\ ~ List.Forall (fun t => 0 < t) ts.
Proof.
  destruct (C29_repeated_waypoint 1 c29_vs 1 1 0 (vertex_new 0)) as (ts & E & H);
    try apply C29_repeated_example.
  exists c29_vs, 1, 1, ts. split; [apply C29_repeated_example|]. split; [simpl; lia|].
  split; [lra|]. split; [lra|]. split; auto. intro F.
  destruct ts as [|t ts]; simpl in H; [lra|]. apply List.Forall_inv in F. lra.
Qed.
Print Assumptions C29_positive_times_refuted.

(** ** C30: generated vertices *)
Theorem C30_square_vertices (k : Z) (cx cy cz side : R) (rounds : Z) : (0 <= rounds)%Z ->
  exists l, createSquareVertices k (cx, cy, cz) side rounds = Ok l /\
    length l = (4 * Z.to_nat rounds + 1)%nat /\ has_positions 3 l /\
    (forall i d, (S i < length l)%nat ->
       SpecVertex.dist (pos_of (nth i l d)) (pos_of (nth (S i) l d)) = Rabs side) /\
    (forall d, exists p, pos_of (nth 0 l d) = p /\ pos_of (last l d) = p /\
       at_rest 3 k (nth 0 l d) /\ at_rest 3 k (last l d)) /\
    (forall v, In v l -> exists x y, pos_of v = [x; y; cz] /\
       Rabs (x - cx) = Rabs side / 2 /\ Rabs (y - cy) = Rabs side / 2).
Proof. exact (createSquareVertices_spec k cx cy cz side rounds). Qed.
Print Assumptions C30_square_vertices.
Example C30_square_example : exists l, createSquareVertices 4 (0, 0, 1) 2 3 = Ok l /\ length l = 13%nat.
Proof. destruct (C30_square_vertices 4 0 0 1 2 3) as (l & E & L & _); [lia|]. exists l. split; auto. Qed.

(** Whenever the rejection loop ends (within any number of attempts) the result
    has all the promised properties. *)
Theorem C30_random_vertices_partial (draw : nat -> R -> R -> R) (fuel : nat) (k : Z) (n : nat)
        (lo hi : list R) (l : list (vertex R)) :
  (forall n a b, a <= b -> a <= draw n a b <= b) ->
  createRandomVertices draw fuel k n lo hi = Ok (Some l) ->
  length l = S n /\ has_positions (length lo) l /\
  (forall v, In v l -> in_box lo hi (pos_of v)) /\
  (forall i d, (S i < length l)%nat ->
     1/5 < SpecVertex.dist (pos_of (nth i l d)) (pos_of (nth (S i) l d))) /\
  (forall d, at_rest (length lo) k (nth 0 l d) /\ at_rest (length lo) k (last l d)).
Proof. exact (createRandomVertices_spec draw fuel k n lo hi l). Qed.
Print Assumptions C30_random_vertices_partial.

(** A source that alternates between the ends of the interval. *)
Definition alternating (n : nat) (a b : R) : R := if Nat.even n then a else b.
Lemma alternating_in_range : forall n a b, a <= b -> a <= alternating n a b <= b.
Proof. intros. unfold alternating. destruct (Nat.even n); lra. Qed.
Example C30_random_example :
  exists l, createRandomVertices alternating 1 2 1 [0] [1] = Ok (Some l).
Proof.
  unfold createRandomVertices. cbn [Nat.ltb Nat.leb length Nat.eqb negb].
  rewrite !vec_norm_dist.
  assert (D1 : SpecVertex.dist [1] [0] = 1).
  { unfold SpecVertex.dist. cbn [combine fold_right fst snd].
    replace ((1 - 0) ^ 2 + 0) with (1 ^ 2) by ring. apply sqrt_pow2. lra. }
  rewrite D1.
  replace (nleb (nlit 2 10) 1) with true by (symmetry; unfold nlit; rnum; apply Rleb_true; lra).
  cbn [negb Z.leb Z.compare Pos.compare Pos.compare_cont].
  replace (existsb (fun p : R * R => nltb (snd p) (fst p)) (combine [0] [1])) with false
    by (symmetry; simpl; rewrite orb_false_r; apply Rltb_false; lra).
  change (draw_vector alternating 0 [0] [1]) with [0].
  cbn [obind vertex_makeStartOrEnd vertex_add length vertex_new v_D Nat.eqb random_loop draw_far].
  rewrite vec_norm_dist.
  change (draw_vector alternating 1 [0] [1]) with [1]. rewrite D1.
  replace (nltb (nlit 2 10) 1) with true by (symmetry; unfold nlit; rnum; apply Rltb_true; lra).
  eexists. reflexivity.
Qed.

(** The loop need not end: on the box [0, 0.3], which passes all checks, a first
    sample at 0.15 leaves no admissible second vertex. *)
Theorem C30_random_vertices_terminate_refuted :
  exists (draw : nat -> R -> R -> R) (lo hi : list R) (k : Z) (n : nat),
    (forall n a b, a <= b -> a <= draw n a b <= b) /\
    forall fuel, createRandomVertices draw fuel k n lo hi = Ok None.
Proof.
  exists (fun _ a b => (a + b) / 2), [0], [3/10], 4%Z, 1%nat.
  assert (Hd : forall (n : nat) a b, a <= b -> a <= (a + b) / 2 <= b) by (intros; lra).
  split; [exact Hd|]. intro fuel. apply createRandomVertices_stuck; auto; try lia; try lra.
  intros x Hx. apply Rabs_le. lra.
Qed.
Print Assumptions C30_random_vertices_terminate_refuted.

(** On the smallest accepted box no random source ends the loop. *)
Theorem C30_smallest_box_never_terminates (draw : nat -> R -> R -> R) (fuel : nat) (k : Z) (n : nat)
        (lo hi : R) :
  (forall n a b, a <= b -> a <= draw n a b <= b) -> (0 < k)%Z -> (1 <= n)%nat -> hi - lo = 1/5 ->
  createRandomVertices1D draw fuel k n lo hi = Ok None.
Proof.
  intros Hd Hk Hn Hb. apply createRandomVertices_stuck; auto; [lra|].
  intros x Hx. specialize (Hd 0%nat lo hi ltac:(lra)). apply Rabs_le. lra.
Qed.
Print Assumptions C30_smallest_box_never_terminates.
Example C30_smallest_box_example :
  createRandomVertices1D alternating 1000 4 5 0 (1/5) = Ok None.
Proof. apply C30_smallest_box_never_terminates; try lia; try lra. apply alternating_in_range. Qed.
