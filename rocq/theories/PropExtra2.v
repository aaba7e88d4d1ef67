(** C92: the random path of the timing evaluation. *)
From Coq Require Import ZArith Reals List Bool Lia Lra Sorted.
From Verif Require Import Num RSum ModelPolynomial ModelSegment ModelVertex ModelTrajectory ModelLinear ModelExtra
  SpecPoly SpecSegment SpecVertex SpecLinear ProofPolynomial ProofVertex ProofVertex2 ProofVertex3 ProofBench PropVertex PropLinear.
Import ListNotations.
Open Scope R_scope.

(** Euclidean norm and sum of vectors of any dimension. *)
Definition norm (u : list R) : R := sqrt (lsum (map (fun x => x ^ 2) u)).
Definition plus (u v : list R) : list R := map (fun c => fst c + snd c) (combine u v).

Lemma lsum_squares u : 0 <= lsum (map (fun x => x ^ 2) u).
Proof. induction u as [|x u IH]; cbn [map lsum]; [lra|]. assert (0 <= x ^ 2) by apply pow2_ge_0. lra. Qed.
Lemma norm_nonneg u : 0 <= norm u. Proof. apply sqrt_pos. Qed.
Lemma norm_cons x u : norm (x :: u) = sqrt (x ^ 2 + norm u ^ 2).
Proof. unfold norm at 1. cbn [map lsum]. f_equal. f_equal. unfold norm. rewrite pow2_sqrt; [reflexivity|apply lsum_squares]. Qed.
Lemma norm_plus u : forall v, norm (plus u v) <= norm u + norm v.
Proof.
  induction u as [|x u IH]; intros v.
  - unfold plus. cbn [combine map]. assert (Q := norm_nonneg v). assert (E : norm [] = 0) by (unfold norm; cbn; apply sqrt_0). lra.
  - destruct v as [|y v].
    + unfold plus. cbn [combine map]. assert (Q := norm_nonneg (x :: u)). assert (E : norm [] = 0) by (unfold norm; cbn; apply sqrt_0). lra.
    + change (plus (x :: u) (y :: v)) with ((x + y) :: plus u v). rewrite !norm_cons.
      assert (T := norm3_triangle x (norm u) 0 y (norm v) 0). replace (0 ^ 2) with 0 in T by ring. replace ((0 + 0) ^ 2) with 0 in T by ring.
      rewrite !Rplus_0_r in T. eapply Rle_trans; [|exact T]. apply sqrt_le_1_alt. apply Rplus_le_compat_l.
      apply pow_incr. split; [apply norm_nonneg|apply IH].
Qed.
Lemma vec_norm_R (p : list R) : ModelVertex.vec_norm p = norm p.
Proof.
  unfold ModelVertex.vec_norm, norm. change (nsqrt : R -> R) with sqrt. f_equal.
  assert (G : forall a, fold_left (fun acc x => nadd acc (nmul x x)) p a = a + lsum (map (fun x => x ^ 2) p)).
  { induction p as [|x p IH]; intros a; cbn [fold_left map lsum]; [ring|]. rewrite IH. rnum. ring. }
  rewrite G. rnum. ring.
Qed.
Lemma squares_R (p : list R) : fold_left (fun acc x => nadd acc (nmul x x)) p n0 = norm p ^ 2.
Proof.
  unfold norm. rewrite pow2_sqrt by apply lsum_squares.
  assert (G : forall a, fold_left (fun acc x => nadd acc (nmul x x)) p a = a + lsum (map (fun x => x ^ 2) p)).
  { induction p as [|x p IH]; intros a; cbn [fold_left map lsum]; [ring|]. rewrite IH. rnum. ring. }
  rewrite G. rnum. ring.
Qed.
Lemma norm_scale c p : norm (map (fun x => x * c) p) = norm p * Rabs c.
Proof.
  unfold norm. rewrite map_map, (map_ext _ (fun x => x ^ 2 * c ^ 2)) by (intros; ring).
  rewrite <- (map_map (fun x => x ^ 2) (fun y => y * c ^ 2)), lsum_map_scal, sqrt_mult_alt by apply lsum_squares.
  f_equal. rewrite <- sqrt_Rsqr_abs. f_equal. unfold Rsqr. ring.
Qed.
(** A sample has the drawn distance as its norm. *)
Lemma scaled_norm p r : 0 < norm p -> 0 <= r -> norm (scaled_sample p r) = r.
Proof.
  intros Hp Hr. unfold scaled_sample. rewrite squares_R, vec_norm_R. change (nltb n0 (norm p ^ 2)) with (Rltb 0 (norm p ^ 2)).
  replace (Rltb 0 (norm p ^ 2)) with true by (symmetry; apply Rltb_true; nra).
  rewrite (map_ext _ (fun x => x * (r / norm p))) by (intros; rnum; field; lra).
  rewrite norm_scale, Rabs_pos_eq; [field; lra|]. apply Rmult_le_pos; [exact Hr|]. left. now apply Rinv_0_lt_compat.
Qed.
Lemma scaled_length {T} `{NumOps T} (p : list T) r : length (scaled_sample p r) = length p.
Proof. unfold scaled_sample. apply map_length. Qed.

Lemma draw_direction_spec draw fuel dim : forall n n' p, draw_direction draw fuel n dim = Some (n', p) ->
  length p = dim /\ 1 / 5 < norm p /\ exists m, p = draw_vector draw m (repeat (-1) dim) (repeat 1 dim).
Proof.
  induction fuel as [|fuel IH]; intros n n' p E; [discriminate|]. cbn [draw_direction] in E. rewrite vec_norm_R in E.
  destruct (nltb _ _) eqn:El; [|now apply IH in E].
  unfold nlit in El. rnum. apply Rltb_true in El. injection E as _ <-.
  split; [rewrite draw_vector_length; apply repeat_length|]. split; [lra|]. eexists. reflexivity.
Qed.

(** The samples behind the path: u 0 is the first position, the others have a norm
    in [0, 2 average_distance]. *)
Lemma path_loop_R draw fuel dim avg k : in_range draw -> 0 <= avg -> forall n last vs l,
  length last = dim -> path_loop draw fuel n k dim avg last = Ok (Some (vs, l)) ->
  exists us, length us = k /\ length vs = k /\ List.Forall (fun u => length u = dim /\ norm u <= 2 * avg) us /\
    List.Forall2 (fun v p => vertex_wf v /\ v_D v = dim /\ vertex_get v 0 = Some p /\ forall j, j <> 0%Z -> vertex_get v j = None)
      vs (map (fun c => plus (fst c) (snd c)) (combine us (last :: us))) /\
    l = List.last us last.
Proof.
  intros Hd Ha. induction k as [|k IH]; intros n lp vs l Hl E; cbn [path_loop] in E.
  - apply Ok_inj in E. injection E as <- <-. exists []. repeat split; constructor.
  - destruct (draw_direction draw fuel n dim) as [[n' p]|] eqn:Ed; [|discriminate].
    destruct (draw_direction_spec _ _ _ _ _ _ Ed) as (Lp & Np & _).
    set (u := scaled_sample p (draw n' n0 (nmul (nofZ 2) avg))) in *.
    assert (Lu : length u = dim) by (unfold u; now rewrite scaled_length).
    assert (Rd : 0 <= draw n' 0 (2 * avg) <= 2 * avg) by (apply Hd; lra).
    assert (Nu : norm u <= 2 * avg) by (unfold u; rnum; rewrite scaled_norm; lra).
    change (map (fun c : R * R => nadd (fst c) (snd c)) (combine u lp)) with (plus u lp) in E.
    assert (Ls : length (plus u lp) = dim) by (unfold plus; rewrite map_length, combine_length; lia).
    destruct (vertex_add_ok (vertex_new dim) kPosition (plus u lp) Ls) as [v Ev]. rewrite Ev in E. cbn [obind] in E.
    destruct (path_loop draw fuel (S n') k dim avg u) as [[[vs1 l1]|]| | |] eqn:Er; try discriminate.
    cbn [obind] in E. apply Ok_inj in E. injection E as <- <-.
    destruct (IH _ _ _ _ Lu Er) as (us & H1 & H2 & H3 & H4 & H5).
    destruct (vertex_add_wf _ _ _ _ (vertex_new_wf dim) Ev) as (W & DD & _ & G).
    exists (u :: us). split; [cbn; lia|]. split; [cbn; lia|]. split; [constructor; auto|]. split.
    + cbn [combine map]. constructor; [|exact H4]. split; [exact W|]. split; [exact DD|].
      split; [rewrite G; reflexivity|]. intros j Hj. rewrite G. destruct (Z.eq_dec j kPosition) as [->|]; [now destruct Hj|reflexivity].
    + rewrite H5. destruct us as [|u' us]; [reflexivity|]. change (List.last (u :: u' :: us) lp) with (List.last (u' :: us) lp). apply last_indep. discriminate.
Qed.

Lemma start_or_end dim v p k : vertex_wf v -> v_D v = dim -> length p = dim ->
  exists w, vertex_makeStartOrEnd v p k = Ok w /\ vertex_wf w /\ v_D w = dim /\ vertex_get w 0 = Some p /\ at_rest dim k w.
Proof.
  intros Wv Dv Lp. destruct (vertex_makeStartOrEnd_spec v p k Wv) as [H1 _].
  destruct H1 as (w & Ew & Ww & Dw & Gw); [congruence|]. exists w.
  split; [auto|]. split; [auto|]. split; [congruence|]. split; [rewrite Gw; reflexivity|].
  intros j Hj. rewrite Gw. destruct Z.eq_dec; try lia. do 2 (destruct Z_le_dec; try lia). rewrite Dv. reflexivity.
Qed.

(** C92.  The path: n_segments + 1 vertices with a position, the ends at rest, the
    others with nothing but a position.  Behind it are vectors u 0, u 1, ...: u 0 in
    the cube [-1, 1]^dim, the others of norm at most 2 average_distance.  The
    position of an inner vertex i is u i + u (i - 1), that of the last one u n. *)
Theorem C92_path (draw : nat -> R -> R -> R) (fuel dim n : nat) (avg : R) (k : Z) (l : list (vertex R)) :
  (forall n a b, a <= b -> a <= draw n a b <= b) ->
  createRandomVerticesPath draw fuel dim n avg k = Ok (Some l) ->
  (1 <= n)%nat /\ (0 < k)%Z /\ 0 <= avg /\
  length l = S n /\ List.Forall (fun v => vertex_wf v /\ v_D v = dim) l /\ has_positions dim l /\
  (forall v0, at_rest dim k (nth 0 l v0) /\ at_rest dim k (nth n l v0)) /\
  (forall i v0 j, (0 < i < n)%nat -> j <> 0%Z -> vertex_get (nth i l v0) j = None) /\
  exists u : nat -> list R,
    (forall i, (i <= n)%nat -> length (u i) = dim) /\ (forall x, In x (u 0%nat) -> -1 <= x <= 1) /\
    (forall i, (1 <= i <= n)%nat -> norm (u i) <= 2 * avg) /\
    forall v0, pos_of (nth 0 l v0) = u 0%nat /\ pos_of (nth n l v0) = u n /\
      forall i, (0 < i < n)%nat -> pos_of (nth i l v0) = plus (u i) (u (i - 1)%nat).
Proof.
  intros Hd E. unfold createRandomVerticesPath in E.
  destruct (Nat.ltb_spec n 1) as [|Hn]; [discriminate|]. destruct (Z.leb_spec k 0) as [|Hk]; [discriminate|].
  destruct (nltb _ n0) eqn:Ea; [discriminate|]. rnum. apply Rltb_false in Ea.
  assert (Ha : 0 <= avg) by lra.
  set (p0 := draw_vector draw 0 (repeat (- (1)) dim) (repeat 1 dim)) in *.
  assert (L0 : length p0 = dim) by (unfold p0; rewrite draw_vector_length; apply repeat_length).
  assert (B0 : forall x, In x p0 -> -1 <= x <= 1).
  { intros x Hx. unfold p0, draw_vector in Hx. apply in_map_iff in Hx as (i & <- & Hi). apply in_seq in Hi. rewrite repeat_length in Hi.
    assert (Rp : forall c : R, nth i (repeat c dim) 0 = c) by (intros c; rewrite (nth_indep _ 0 c) by (rewrite repeat_length; lia); apply nth_repeat).
    change (n0 : R) with 0. rewrite !Rp. apply Hd. lra. }
  destruct (start_or_end dim (vertex_new dim) p0 k (vertex_new_wf dim) eq_refl L0) as (first & Ef & Wf & Df & Gf & Rf).
  rewrite Ef in E. cbn [obind] in E.
  destruct (path_loop draw fuel dim n dim avg p0) as [[[vs lp]|]| | |] eqn:Er; try discriminate. cbn [obind] in E.
  destruct (path_loop_R draw fuel dim avg n Hd Ha dim p0 vs lp L0 Er) as (us & H1 & H2 & H3 & H4 & H5).
  assert (Hne : vs <> []) by (destruct vs; [simpl in H2; lia|discriminate]).
  destruct (exists_last Hne) as (fr & v & ->).
  change (first :: fr ++ [v]) with ((first :: fr) ++ [v]) in E. rewrite update_last_app in E.
  rewrite app_length in H2. cbn [length] in H2.
  (* entry i of the vertices after the first one *)
  assert (Hv : forall i w0, (i < n)%nat -> let w := nth i (fr ++ [v]) w0 in
            vertex_wf w /\ v_D w = dim /\ vertex_get w 0 = Some (plus (nth i us []) (nth i (p0 :: us) [])) /\
            forall j, j <> 0%Z -> vertex_get w j = None).
  { intros i w0 Hi. assert (Q : forall i, (i < length (fr ++ [v]))%nat ->
      (fun v p => vertex_wf v /\ v_D v = dim /\ vertex_get v 0 = Some p /\ forall j, j <> 0%Z -> vertex_get v j = None)
        (nth i (fr ++ [v]) w0) (nth i (map (fun c => plus (fst c) (snd c)) (combine us (p0 :: us))) [])).
    { clear - H4. induction H4 as [|a b la lb Hab Hf IH]; intros i Hi; [cbn in Hi; lia|]. destruct i as [|i]; [exact Hab|]. apply IH. cbn in Hi. lia. }
    specialize (Q i). rewrite app_length in Q. cbn [length] in Q. specialize (Q ltac:(lia)). cbn beta in Q.
    assert (Ec : nth i (map (fun c => plus (fst c) (snd c)) (combine us (p0 :: us))) [] = plus (nth i us []) (nth i (p0 :: us) [])).
    { assert (Hc : (i < length (combine us (p0 :: us)))%nat) by (rewrite combine_length; cbn [length]; lia).
      rewrite (nth_map_lt _ _ _ ([], [])) by exact Hc.
      clear - Hi H1. revert p0 us i n H1 Hi.
      assert (G : forall (A B : list (list R)) i, (i < length A)%nat -> (i < length B)%nat -> nth i (combine A B) (([] : list R), ([] : list R)) = (nth i A [], nth i B [])).
      { induction A as [|a A IH]; intros [|b B] i H H'; cbn in H, H'; try lia. destruct i; [reflexivity|]. cbn [combine nth]. apply IH; lia. }
      intros p0 us i n H1 Hi. rewrite G by (cbn [length]; lia). reflexivity. }
    rewrite Ec in Q. exact Q. }
  assert (Hl : forall v0, nth (n - 1) (fr ++ [v]) v0 = v) by (intros v0; rewrite app_nth2 by lia; replace (n - 1 - length fr)%nat with 0%nat by lia; reflexivity).
  destruct (Hv (n - 1)%nat v ltac:(lia)) as (Wv & Dv & _). cbn zeta in Wv, Dv. rewrite Hl in Wv, Dv.
  assert (Elp : lp = nth (n - 1) us []).
  { rewrite H5. assert (Hu : us <> []) by (destruct us; [cbn in H1; lia|discriminate]).
    destruct (exists_last Hu) as (us' & z & ->). rewrite last_last, app_length in *. cbn [length] in H1.
    rewrite app_nth2 by lia. replace (n - 1 - length us')%nat with 0%nat by lia. reflexivity. }
  rewrite List.Forall_forall in H3.
  assert (Hus : forall i, (i < n)%nat -> length (nth i us []) = dim /\ norm (nth i us []) <= 2 * avg) by (intros i Hi; apply H3, nth_In; lia).
  destruct (start_or_end dim v lp k Wv Dv) as (w & Ew & Ww & Dw & Gw & Rw); [rewrite Elp; now apply Hus; lia|].
  rewrite Ew in E. cbn [obind] in E. apply Ok_inj in E. apply Some_inj in E. subst l.
  assert (E0 : forall v0, nth 0 ((first :: fr) ++ [w]) v0 = first) by reflexivity.
  assert (En : forall v0, nth n ((first :: fr) ++ [w]) v0 = w).
  { intros v0. rewrite app_nth2 by (cbn [length]; lia). cbn [length]. replace (n - S (length fr))%nat with 0%nat by lia. reflexivity. }
  assert (Ei : forall i v0, (0 < i < n)%nat -> nth i ((first :: fr) ++ [w]) v0 = nth (i - 1) (fr ++ [v]) v0).
  { intros i v0 Hi. destruct i as [|i]; [lia|]. cbn [app nth]. replace (S i - 1)%nat with i by lia. rewrite !app_nth1 by lia. reflexivity. }
  assert (Hlen : length ((first :: fr) ++ [w]) = S n) by (rewrite app_length; cbn [length]; lia).
  assert (Hall : forall i v0, (i <= n)%nat -> let y := nth i ((first :: fr) ++ [w]) v0 in
            (vertex_wf y /\ v_D y = dim) /\ exists p, vertex_get y 0 = Some p /\ length p = dim).
  { intros i v0 Hi. cbn zeta. destruct (Nat.eq_dec i 0) as [->|]; [rewrite E0; eauto|].
    destruct (Nat.eq_dec i n) as [->|]; [rewrite En; split; [auto|]; exists lp; split; [exact Gw|]; rewrite Elp; apply Hus; lia|].
    rewrite Ei by lia. destruct (Hv (i - 1)%nat v0 ltac:(lia)) as (W & D & G & _). split; [auto|]. eexists. split; [exact G|].
    unfold plus. rewrite map_length, combine_length. destruct (Hus (i - 1)%nat ltac:(lia)) as (Lu & _). rewrite Lu.
    assert (Lc : length (nth (i - 1) (p0 :: us) []) = dim) by (destruct (i - 1)%nat as [|j] eqn:Ej; cbn [nth]; [exact L0|apply Hus; lia]).
    rewrite Lc. lia. }
  split; [exact Hn|]. split; [exact Hk|]. split; [exact Ha|]. split; [exact Hlen|].
  split; [|split; [|split; [|split]]].
  - rewrite List.Forall_forall. intros y Hy. apply (In_nth _ _ first) in Hy as (i & Hi & <-). apply Hall. lia.
  - unfold has_positions. rewrite List.Forall_forall. intros y Hy. apply (In_nth _ _ first) in Hy as (i & Hi & <-). apply Hall. lia.
  - intros v0. rewrite E0, En. auto.
  - intros i v0 j Hi Hj. rewrite Ei by lia. apply Hv; [lia|exact Hj].
  - exists (fun i => nth i (p0 :: us) []). split; [|split; [|split]].
    + intros [|i] Hi; [exact L0|]. apply Hus. lia.
    + exact B0.
    + intros [|i] Hi; [lia|]. apply Hus. lia.
    + intros v0. rewrite E0, En. unfold pos_of at 1 2. rewrite Gf, Gw. split; [reflexivity|].
      split; [destruct n as [|n']; [lia|]; rewrite Elp; cbn [nth]; f_equal; lia|].
      intros i Hi. rewrite Ei by lia. destruct (Hv (i - 1)%nat v0 ltac:(lia)) as (_ & _ & G & _). unfold pos_of. rewrite G.
      destruct i as [|i]; [lia|]. cbn [nth]. replace (S i - 1)%nat with i by lia. reflexivity.
Qed.
Print Assumptions C92_path.

(** So the path never leaves the neighbourhood of the origin, however many
    segments it has: it is not a chain of steps of the drawn lengths. *)
Theorem C92_stays_near_origin (draw : nat -> R -> R -> R) (fuel dim n : nat) (avg : R) (k : Z) (l : list (vertex R)) :
  (forall n a b, a <= b -> a <= draw n a b <= b) ->
  createRandomVerticesPath draw fuel dim n avg k = Ok (Some l) ->
  forall i v0, (i <= n)%nat -> norm (pos_of (nth i l v0)) <= if Nat.leb i 1 then 2 * avg + sqrt (INR dim) else 4 * avg.
Proof.
  intros Hd E i v0 Hi. destruct (C92_path _ _ _ _ _ _ _ Hd E) as (Hn & _ & Ha & _ & _ & _ & _ & _ & u & Lu & Bu & Nu & P).
  destruct (P v0) as (P0 & Pn & Pi).
  assert (N0 : norm (u 0%nat) <= sqrt (INR dim)).
  { unfold norm. apply sqrt_le_1_alt. rewrite <- (Lu 0%nat) by lia. revert Bu. generalize (u 0%nat). clear.
    induction l as [|x l IH]; intros B; [cbn; lra|]. cbn [map lsum length]. rewrite S_INR.
    specialize (IH (fun y Hy => B y (or_intror Hy))). assert (-1 <= x <= 1) by (apply B; now left). nra. }
  assert (Hs := sqrt_pos (INR dim)).
  destruct (Nat.eq_dec i 0) as [->|H0]; [rewrite P0; cbn [Nat.leb]; lra|].
  destruct (Nat.eq_dec i n) as [->|H1].
  - rewrite Pn. assert (Q := Nu n ltac:(lia)). destruct (Nat.leb n 1); lra.
  - rewrite Pi by lia. assert (Q := norm_plus (u i) (u (i - 1)%nat)). assert (Q1 := Nu i ltac:(lia)).
    destruct (Nat.leb_spec i 1).
    + replace (i - 1)%nat with 0%nat in * by lia. lra.
    + assert (Q2 := Nu (i - 1)%nat ltac:(lia)). lra.
Qed.
Print Assumptions C92_stays_near_origin.

(** Termination: enough that among any fuel consecutive points of the cube that
    are drawn one has a norm above 0.2. *)
Theorem C92_terminates (draw : nat -> R -> R -> R) (fuel dim n : nat) (avg : R) (k : Z) :
  (1 <= n)%nat -> (0 < k)%Z -> 0 <= avg ->
  (forall m, exists j, (j < fuel)%nat /\ 1 / 5 < norm (map (fun i => draw (m + j * dim + i)%nat (-1) 1) (seq 0 dim))) ->
  exists l, createRandomVerticesPath draw fuel dim n avg k = Ok (Some l).
Proof.
  intros Hn Hk Ha Hj.
  assert (V : forall m, draw_vector draw m (repeat (nopp n1) dim) (repeat n1 dim) = map (fun i => draw (m + i)%nat (-1) 1) (seq 0 dim)).
  { intros m. unfold draw_vector. rewrite repeat_length. apply map_ext_in. intros i Hi. apply in_seq in Hi. 
    assert (Rp : forall c : R, nth i (repeat c dim) n0 = c) by (intros c; rewrite (nth_indep _ n0 c) by (rewrite repeat_length; lia); apply nth_repeat).
    rewrite !Rp. f_equal; rnum; ring. }
  assert (D : forall f m, (exists j, (j < f)%nat /\ 1 / 5 < norm (map (fun i => draw (m + j * dim + i)%nat (-1) 1) (seq 0 dim))) ->
            exists m' p, draw_direction draw f m dim = Some (m', p)).
  { induction f as [|f IH]; intros m (j & Hjf & Hjn); [lia|]. cbn [draw_direction]. rewrite vec_norm_R, V.
    destruct (nltb _ _) eqn:El; [eauto|]. unfold nlit in El. rnum. apply Rltb_false in El.
    apply IH. destruct j as [|j].
    - exfalso. replace (m + 0 * dim)%nat with m in Hjn by lia. lra.
    - exists j. split; [lia|]. replace (m + dim + j * dim)%nat with (m + S j * dim)%nat by lia. exact Hjn. }
  assert (L : forall q m last, length last = dim -> exists vs l, path_loop draw fuel m q dim avg last = Ok (Some (vs, l)) /\
            length vs = q /\ length l = dim /\ List.Forall (fun v => vertex_wf v /\ v_D v = dim) vs).
  { induction q as [|q IH]; intros m lp Hl; cbn [path_loop]; [exists [], lp; auto|].
    destruct (D fuel m (Hj m)) as (m' & p & Ed). rewrite Ed.
    destruct (draw_direction_spec _ _ _ _ _ _ Ed) as (Lp & _).
    set (u := scaled_sample p _).
    assert (Lu : length u = dim) by (unfold u; now rewrite scaled_length).
    destruct (vertex_add_ok (vertex_new dim) kPosition (map (fun c : R * R => nadd (fst c) (snd c)) (combine u lp))) as [v Ev].
    { rewrite map_length, combine_length. cbn [vertex_new v_D]. lia. }
    rewrite Ev. cbn [obind]. destruct (IH (S m') u Lu) as (vs & l & E & H1 & H2 & H3). rewrite E. cbn [obind].
    destruct (vertex_add_wf _ _ _ _ (vertex_new_wf dim) Ev) as (W & DD & _).
    exists (v :: vs), l. split; [reflexivity|]. split; [cbn; lia|]. split; [exact H2|]. constructor; auto. }
  unfold createRandomVerticesPath. destruct (Nat.ltb_spec n 1); [lia|]. destruct (Z.leb_spec k 0); [lia|].
  replace (nltb (nmul (nofZ 2) avg) n0) with false by (symmetry; rnum; apply Rltb_false; lra).
  set (p0 := draw_vector draw 0 _ _).
  assert (L0 : length p0 = dim) by (unfold p0; rewrite draw_vector_length; apply repeat_length).
  destruct (start_or_end dim (vertex_new dim) p0 k (vertex_new_wf dim) eq_refl L0) as (first & Ef & _). rewrite Ef. cbn [obind].
  destruct (L n dim p0 L0) as (vs & l & E & H1 & H2 & H3). rewrite E. cbn [obind].
  assert (Hne : vs <> []) by (destruct vs; [cbn in H1; lia|discriminate]).
  destruct (exists_last Hne) as (fr & v & ->). change (first :: fr ++ [v]) with ((first :: fr) ++ [v]). rewrite update_last_app.
  apply Forall_app in H3 as [_ H3]. apply Forall_inv in H3 as (Wv & Dv).
  destruct (start_or_end dim v l k Wv Dv H2) as (w & Ew & _). rewrite Ew. cbn [obind]. eauto.
Qed.
Print Assumptions C92_terminates.

(** In dimension 0 the rejection loop never ends. *)
Theorem C92_dimension_zero (draw : nat -> R -> R -> R) (fuel n : nat) (avg : R) (k : Z) :
  (1 <= n)%nat -> (0 < k)%Z -> 0 <= avg -> createRandomVerticesPath draw fuel 0 n avg k = Ok None.
Proof.
  intros Hn Hk Ha.
  assert (D : forall f m, draw_direction draw f m 0 = None).
  { induction f as [|f IH]; intros m; [reflexivity|]. cbn [draw_direction]. rewrite vec_norm_R.
    unfold draw_vector. cbn [repeat length seq map]. unfold norm. cbn [map lsum]. rewrite sqrt_0.
    replace (nltb (nlit 2 10) 0) with false by (symmetry; unfold nlit; rnum; apply Rltb_false; lra). apply IH. }
  unfold createRandomVerticesPath. destruct (Nat.ltb_spec n 1); [lia|]. destruct (Z.leb_spec k 0); [lia|].
  replace (nltb (nmul (nofZ 2) avg) n0) with false by (symmetry; rnum; apply Rltb_false; lra).
  destruct (start_or_end 0 (vertex_new 0) (draw_vector draw 0 (repeat (nopp n1) 0) (repeat n1 0)) k (vertex_new_wf 0) eq_refl eq_refl) as (first & Ef & _).
  rewrite Ef. cbn [obind]. destruct n as [|n]; [lia|]. cbn [path_loop]. rewrite D. reflexivity.
Qed.
Print Assumptions C92_dimension_zero.

(** A generator that returns the upper quarter point, except for the direction of
    the second sample. *)
Definition back_and_forth (n : nat) (a b : R) : R :=
  match n with 0%nat => (a + b) / 2 | 3%nat => a + (b - a) / 4 | _ => b - (b - a) / 4 end.
Lemma back_and_forth_range n a b : a <= b -> a <= back_and_forth n a b <= b.
Proof. intros Hab. unfold back_and_forth. destruct n as [|[|[|[|n]]]]; lra. Qed.
Lemma back_and_forth_path : exists l, createRandomVerticesPath back_and_forth 1 1 2 5 4 = Ok (Some l) /\
  map pos_of l = [[0]; [15 / 2]; [- (15 / 2)]].
Proof.
  assert (A : forall x, sqrt (x * x) = Rabs x) by (intros x; apply sqrt_Rsqr_abs).
  unfold createRandomVerticesPath. cbn [Nat.ltb Nat.leb Z.leb Z.compare].
  replace (nltb (nmul (nofZ 2) 5) n0) with false by (symmetry; rnum; apply Rltb_false; lra).
  cbn [repeat].
  assert (V : forall n, draw_vector back_and_forth n [nopp n1] [n1] = [match n with 0%nat => 0 | 3%nat => - (1 / 2) | _ => 1 / 2 end]).
  { intros n. unfold draw_vector. cbn [length seq map nth Nat.add]. rewrite Nat.add_0_r. f_equal. rnum.
    unfold back_and_forth. destruct n as [|[|[|[|n]]]]; lra. }
  rewrite V.
  destruct (start_or_end 1 (vertex_new 1) [0] 4 (vertex_new_wf 1) eq_refl eq_refl) as (first & Ef & Wf & Df & Gf & _). rewrite Ef. cbn [obind].
  assert (N : forall x, norm [x] = Rabs x) by (intros x; unfold norm; cbn [map lsum]; rewrite Rplus_0_r; replace (x ^ 2) with (x * x) by ring; apply A).
  assert (S1 : forall x r, x = 1 / 2 -> scaled_sample [x] r = [r]).
  { intros x r ->. unfold scaled_sample. rewrite squares_R, vec_norm_R, N, Rabs_pos_eq by lra.
    replace (nltb n0 ((1 / 2) ^ 2)) with true by (symmetry; rnum; apply Rltb_true; lra). cbn [map]. f_equal. rnum. field. }
  assert (S2 : forall x r, x = - (1 / 2) -> scaled_sample [x] r = [- r]).
  { intros x r ->. unfold scaled_sample. rewrite squares_R, vec_norm_R, N, Rabs_left by lra.
    replace (nltb n0 ((- - (1 / 2)) ^ 2)) with true by (symmetry; rnum; apply Rltb_true; lra). cbn [map]. f_equal. rnum. field. }
  assert (D1 : draw_direction back_and_forth 1 1 1 = Some (2%nat, [1 / 2])).
  { cbn [draw_direction repeat]. rewrite V, vec_norm_R, N.
    replace (nltb (nlit 2 10) (Rabs (1 / 2))) with true by (symmetry; unfold nlit; rnum; apply Rltb_true; rewrite Rabs_pos_eq; lra). reflexivity. }
  assert (D2 : draw_direction back_and_forth 1 3 1 = Some (4%nat, [- (1 / 2)])).
  { cbn [draw_direction repeat]. rewrite V, vec_norm_R, N.
    replace (nltb (nlit 2 10) (Rabs (- (1 / 2)))) with true by (symmetry; unfold nlit; rnum; apply Rltb_true; rewrite Rabs_left; lra). reflexivity. }
  cbn [path_loop]. rewrite D1, S1 by reflexivity. cbn [combine map fst snd].
  set (p1 := [nadd _ 0]). destruct (vertex_add_ok (vertex_new 1) kPosition p1 eq_refl) as [v1 E1]. rewrite E1. cbn [obind].
  rewrite D2, S2 by reflexivity. cbn [combine map fst snd].
  set (p2 := [nadd _ _]). destruct (vertex_add_ok (vertex_new 1) kPosition p2 eq_refl) as [v2 E2]. rewrite E2. cbn [obind].
  destruct (vertex_add_wf _ _ _ _ (vertex_new_wf 1) E1) as (W1 & Dv1 & _ & G1).
  destruct (vertex_add_wf _ _ _ _ (vertex_new_wf 1) E2) as (W2 & Dv2 & _ & G2).
  change [first; v1; v2] with ([first; v1] ++ [v2]). rewrite update_last_app.
  destruct (start_or_end 1 v2 [- back_and_forth 4 n0 (nmul (nofZ 2) 5)] 4 W2 Dv2 eq_refl) as (w & Ew & Ww & Dw & Gw & _). rewrite Ew. cbn [obind].
  eexists. split; [reflexivity|]. cbn [app map]. unfold pos_of. rewrite Gf, G1, Gw. cbn [Z.eq_dec kPosition].
  destruct (Z.eq_dec 0 kPosition) as [_|C]; [|now destruct C]. unfold p1. rnum. unfold back_and_forth. repeat match goal with |- _ :: _ = _ :: _ => f_equal end; lra.
Qed.

(** The steps of the path are not the drawn distances: with an average distance
    of 5 (at most 10) two consecutive vertices can be 15 apart. *)
Theorem C92_steps_refuted :
  exists (draw : nat -> R -> R -> R) (fuel dim n : nat) (avg : R) (k : Z) (l : list (vertex R)) (i : nat) (v0 : vertex R),
    (forall n a b, a <= b -> a <= draw n a b <= b) /\ createRandomVerticesPath draw fuel dim n avg k = Ok (Some l) /\
    (i < n)%nat /\ 2 * avg < dist (pos_of (nth i l v0)) (pos_of (nth (S i) l v0)).
Proof.
  destruct back_and_forth_path as (l & E & P). exists back_and_forth, 1%nat, 1%nat, 2%nat, 5, 4%Z, l, 1%nat, (vertex_new 1).
  split; [exact back_and_forth_range|]. split; [exact E|]. split; [lia|].
  destruct l as [|a [|b [|c [|]]]]; try discriminate. cbn [map] in P. injection P as _ Pb Pc. cbn [nth]. rewrite Pb, Pc.
  unfold dist. cbn [combine fold_right fst snd]. rewrite Rplus_0_r.
  replace ((15 / 2 - - (15 / 2)) ^ 2) with (15 * 15) by field. rewrite sqrt_square by lra. lra.
Qed.
Print Assumptions C92_steps_refuted.

Example C92_path_example :
  (forall n a b, a <= b -> a <= back_and_forth n a b <= b) /\
  (exists l, createRandomVerticesPath back_and_forth 1 1 2 5 4 = Ok (Some l)) /\
  (forall m, exists j, (j < 2)%nat /\ 1 / 5 < norm (map (fun i => back_and_forth (m + j * 1 + i)%nat (-1) 1) (seq 0 1))).
Proof.
  split; [exact back_and_forth_range|]. split; [destruct back_and_forth_path as (l & E & _); eauto|].
  intros m. assert (N : forall x, norm [x] = Rabs x) by (intros x; unfold norm; cbn [map lsum]; rewrite Rplus_0_r; replace (x ^ 2) with (x * x) by ring; apply sqrt_Rsqr_abs).
  destruct m as [|m].
  - exists 1%nat. split; [lia|]. cbn [seq map]. rewrite N. cbn. rewrite Rabs_pos_eq; lra.
  - exists 0%nat. split; [lia|]. cbn [seq map]. rewrite N. replace (S m + 0 * 1 + 0)%nat with (S m) by lia. cbn.
    destruct m as [|[|[|m]]]; unfold Rabs; destruct (Rcase_abs _); lra.
Qed.
