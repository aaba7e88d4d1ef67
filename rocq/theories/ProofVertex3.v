From Coq Require Import ZArith Reals List Bool Lia Lra Sorted.
From Verif Require Import Num RSum ModelPolynomial ModelVertex SpecVertex ProofPolynomial ProofVertex ProofVertex2.
Import ListNotations.
Open Scope R_scope.

Lemma update_last_app {A} (f : A -> outcome A) l x :
  update_last f (l ++ [x]) = (y <-- f x ;; Ok (l ++ [y])).
Proof.
  unfold update_last. rewrite rev_app_distr. simpl. destruct (f x); simpl; auto.
  now rewrite rev_involutive.
Qed.

Definition chain (P : vertex R -> vertex R -> Prop) (l : list (vertex R)) :=
  List.Forall (fun p => P (fst p) (snd p)) (pairs l).

Lemma chain_cons P a b l : chain P (a :: b :: l) <-> P a b /\ chain P (b :: l).
Proof. unfold chain. change (pairs (a :: b :: l)) with ((a, b) :: pairs (b :: l)). apply Forall_cons_iff. Qed.

Lemma chain_nth P l d i : chain P l -> (S i < length l)%nat -> P (nth i l d) (nth (S i) l d).
Proof.
  intros H Hi. unfold chain in H. rewrite Forall_forall in H.
  assert (Hin : In (nth i (pairs l) (d, d)) (pairs l)) by (apply nth_In; rewrite pairs_length; lia).
  rewrite pairs_nth in Hin by auto. apply (H _ Hin).
Qed.

Lemma chain_map (Q : list R -> list R -> Prop) l l' :
  map pos_of l = map pos_of l' -> chain (fun a b => Q (pos_of a) (pos_of b)) l ->
  chain (fun a b => Q (pos_of a) (pos_of b)) l'.
Proof.
  revert l'. induction l as [|a l IH]; intros [|a' l'] E H; try discriminate; auto.
  injection E as E1 E2. destruct l as [|b l]; destruct l' as [|b' l']; try discriminate.
  - constructor.
  - apply chain_cons in H as [H1 H2]. apply chain_cons. split.
    + injection E2 as E2 _. rewrite <- E1, <- E2. auto.
    + apply (IH (b' :: l')); auto.
Qed.

Lemma concat_repeat_S {A} (x : list A) n : concat (repeat x (S n)) = concat (repeat x n) ++ x.
Proof.
  induction n as [|n IH]; simpl; [now rewrite app_nil_r|].
  simpl in IH. rewrite <- app_assoc, <- IH. reflexivity.
Qed.

Definition square_list (first v1 v2 v3 v4 : vertex R) n := first :: concat (repeat [v2; v3; v4; v1] n).

Lemma square_dist cx cy cz s :
  let '(p1, p2, p3, p4) := square_corners (cx, cy, cz) s in
  dist p1 p2 = Rabs s /\ dist p2 p3 = Rabs s /\ dist p3 p4 = Rabs s /\ dist p4 p1 = Rabs s.
Proof.
  simpl. unfold dist. cbn [combine fold_right fst snd]. rnum.
  repeat split; rewrite <- (sqrt_Rsqr_abs s); f_equal; unfold Rsqr; field.
Qed.

Lemma createSquareVertices_spec k cx cy cz s rounds : (0 <= rounds)%Z ->
  exists l, createSquareVertices k (cx, cy, cz) s rounds = Ok l /\
    length l = (4 * Z.to_nat rounds + 1)%nat /\ has_positions 3 l /\
    (forall i d, (S i < length l)%nat -> dist (pos_of (nth i l d)) (pos_of (nth (S i) l d)) = Rabs s) /\
    (forall d, exists p, pos_of (nth 0 l d) = p /\ pos_of (last l d) = p /\
       at_rest 3 k (nth 0 l d) /\ at_rest 3 k (last l d)) /\
    (forall v, In v l -> exists x y, pos_of v = [x; y; cz] /\ Rabs (x - cx) = Rabs s / 2 /\ Rabs (y - cy) = Rabs s / 2).
Proof.
  intro Hr. unfold createSquareVertices.
  pose proof (square_dist cx cy cz s) as Hd.
  destruct (square_corners (cx, cy, cz) s) as [[[p1 p2] p3] p4] eqn:Ec.
  assert (Hl : length p1 = 3%nat /\ length p2 = 3%nat /\ length p3 = 3%nat /\ length p4 = 3%nat).
  { simpl in Ec. injection Ec as <- <- <- <-. auto. }
  destruct Hl as (L1 & L2 & L3 & L4). destruct Hd as (D1 & D2 & D3 & D4).
  assert (Hadd : forall p, length p = 3%nat -> exists v, vertex_add (vertex_new 3) kPosition p = Ok v /\
             vertex_wf v /\ v_D v = 3%nat /\ pos_of v = p /\ vertex_get v 0 = Some p).
  { intros p Hp. destruct (vertex_add_ok (vertex_new 3) kPosition p Hp) as [v E]. exists v.
    destruct (vertex_add_wf _ _ _ _ (vertex_new_wf 3) E) as (W & DD & _ & G).
    assert (G0 : vertex_get v 0 = Some p) by (rewrite G; reflexivity).
    repeat split; auto; try apply W. unfold pos_of. now rewrite G0. }
  destruct (Hadd p1 L1) as (v1 & E1 & W1 & DD1 & P1 & G1).
  destruct (Hadd p2 L2) as (v2 & E2 & W2 & DD2 & P2 & G2).
  destruct (Hadd p3 L3) as (v3 & E3 & W3 & DD3 & P3 & G3).
  destruct (Hadd p4 L4) as (v4 & E4 & W4 & DD4 & P4 & G4).
  rewrite E1, E2, E3, E4. cbn [obind].
  destruct (Z.ltb_spec rounds 0); try lia.
  assert (Hend : forall v, vertex_wf v -> v_D v = 3%nat -> exists w, vertex_makeStartOrEnd v p1 k = Ok w /\
                   vertex_wf w /\ v_D w = 3%nat /\ pos_of w = p1 /\ vertex_get w 0 = Some p1 /\ at_rest 3 k w).
  { intros v Wv Dv. destruct (vertex_makeStartOrEnd_spec v p1 k Wv) as [H1 _].
    destruct H1 as (w & Ew & Ww & Dw & Gw); [congruence|]. exists w.
    assert (G0 : vertex_get w 0 = Some p1) by (rewrite Gw; reflexivity).
    split; [auto|]. split; [auto|]. split; [congruence|]. split; [unfold pos_of; now rewrite G0|].
    split; [auto|]. intros j Hj. rewrite Gw. destruct Z.eq_dec; try lia.
    do 2 (destruct Z_le_dec; try lia). rewrite Dv. reflexivity. }
  destruct (Hend v1 W1 DD1) as (first & Ef & Wf & Df & Pf & Gf & Rf). rewrite Ef. cbn [obind].
  set (n := Z.to_nat rounds).
  (* facts about the list before the final update, for any first/last vertices at p1 *)
  assert (Hpos : forall m, chain (fun a b => dist (pos_of a) (pos_of b) = Rabs s)
                    (first :: concat (repeat [v2; v3; v4; v1] m))).
  { intro m. assert (H0 : forall f, pos_of f = p1 ->
      chain (fun a b => dist (pos_of a) (pos_of b) = Rabs s) (f :: concat (repeat [v2; v3; v4; v1] m))).
    { induction m as [|m IH]; intros f Hf; [constructor|].
      simpl concat. rewrite !chain_cons, Hf, P2, P3, P4, P1. repeat split; auto. }
    apply H0; auto. }
  assert (Hgood : forall m, Forall (fun v => exists x, vertex_get v 0 = Some x /\
       (x = p1 \/ x = p2 \/ x = p3 \/ x = p4)) (first :: concat (repeat [v2; v3; v4; v1] m))).
  { intro m. constructor; [eauto|]. induction m as [|m IH]; simpl; auto.
    repeat constructor; eauto 7. }
  assert (Hlen : forall m, length (concat (repeat [v2; v3; v4; v1] m)) = (4 * m)%nat).
  { induction m as [|m IH]; simpl; auto. rewrite IH. lia. }
  assert (Hsplit : exists front lastv, first :: concat (repeat [v2; v3; v4; v1] n) = front ++ [lastv] /\
             vertex_wf lastv /\ v_D lastv = 3%nat /\ pos_of lastv = p1 /\
             (front = [] \/ exists fr, front = first :: fr)).
  { destruct n as [|m].
    - exists [], first. simpl. repeat split; auto; apply Wf.
    - exists (first :: concat (repeat [v2; v3; v4; v1] m) ++ [v2; v3; v4]), v1.
      rewrite concat_repeat_S. split; [simpl; rewrite <- app_assoc; reflexivity|].
      repeat split; eauto; apply W1. }
  destruct Hsplit as (front & lastv & Es & Wl & Dl & Pl & Hf).
  rewrite Es, update_last_app.
  destruct (Hend lastv Wl Dl) as (w & Ew & Ww & Dw & Pw & Gw & Rw). rewrite Ew. cbn [obind].
  exists (front ++ [w]). split; [reflexivity|].
  assert (Hmap : map pos_of (first :: concat (repeat [v2; v3; v4; v1] n)) = map pos_of (front ++ [w])).
  { rewrite Es, !map_app. simpl. now rewrite Pl, Pw. }
  assert (Hg2 : Forall (fun v => exists x, vertex_get v 0 = Some x /\
       (x = p1 \/ x = p2 \/ x = p3 \/ x = p4)) (front ++ [w])).
  { specialize (Hgood n). rewrite Es in Hgood. apply Forall_app in Hgood as [Hg _].
    apply Forall_app. split; auto. constructor; eauto. }
  split; [|split; [|split; [|split]]].
  - apply (f_equal (@length _)) in Hmap. rewrite !map_length in Hmap. rewrite <- Hmap.
    cbn [length]. rewrite Hlen. unfold n. lia.
  - eapply Forall_impl; [|exact Hg2]. intros v (x & Ex & Hx). exists x. split; auto.
    destruct Hx as [->|[->|[->| ->]]]; auto.
  - intros i d Hi. apply (chain_nth (fun a b => dist (pos_of a) (pos_of b) = Rabs s)); auto.
    apply (chain_map (fun p q => dist p q = Rabs s) _ _ Hmap). apply Hpos.
  - intro d. exists p1. rewrite last_last. split; [|split; [auto|split; [|auto]]];
      destruct Hf as [->|[fr ->]]; simpl; auto.
  - intros v Hv. rewrite Forall_forall in Hg2. destruct (Hg2 v Hv) as (x & Ex & Hx).
    unfold pos_of. rewrite Ex. simpl in Ec. rnum. injection Ec as <- <- <- <-.
    assert (Hs : Rabs (- (s / 2)) = Rabs s / 2 /\ Rabs (s / 2) = Rabs s / 2).
    { rewrite Rabs_Ropp. unfold Rdiv. rewrite Rabs_mult, (Rabs_pos_eq (/ 2)) by lra. auto. }
    destruct Hs as [S1 S2].
    destruct Hx as [->|[->|[->| ->]]]; do 2 eexists; (split; [reflexivity|]); split.
    all: first [rewrite <- S1; f_equal; ring | rewrite <- S2; f_equal; ring].
Qed.

(** * Random vertices *)
Lemma last_indep {A} (l : list A) d d' : l <> [] -> last l d = last l d'.
Proof.
  induction l as [|x l IH]; [congruence|]. intros _. destruct l; auto.
  change (last (a :: l) d = last (a :: l) d'). apply IH. discriminate.
Qed.
Lemma draw_vector_length draw n lo hi : length (draw_vector draw n lo hi) = length lo.
Proof. unfold draw_vector. now rewrite map_length, seq_length. Qed.

Definition in_range (draw : nat -> R -> R -> R) :=
  forall n a b, a <= b -> a <= draw n a b <= b.

Lemma draw_vector_in_box draw n lo hi : in_range draw ->
  (forall j, (j < length lo)%nat -> nth j lo 0 <= nth j hi 0) -> in_box lo hi (draw_vector draw n lo hi).
Proof.
  intros Hd Hb j Hj. unfold draw_vector.
  rewrite nth_map_seq by auto. cbn [Nat.add].
  apply Hd. apply Hb. auto.
Qed.

Lemma draw_far_spec draw fuel : forall n lo hi last n' pos, in_range draw ->
  (forall j, (j < length lo)%nat -> nth j lo 0 <= nth j hi 0) ->
  draw_far draw fuel n lo hi last = Some (n', pos) ->
  length pos = length lo /\ in_box lo hi pos /\ 1/5 < dist last pos.
Proof.
  induction fuel as [|fuel IH]; intros n lo hi last n' pos Hd Hb E; [discriminate|].
  cbn [draw_far] in E. rewrite vec_norm_dist in E.
  destruct (nltb _ _) eqn:El.
  - injection E as <- <-. split; [apply draw_vector_length|]. split; [now apply draw_vector_in_box|].
    unfold nlit in El. rnum. apply Rltb_true in El. rewrite dist_sym. lra.
  - eapply IH; eauto.
Qed.

Lemma random_loop_spec draw fuel k : forall n lo hi last vs last', in_range draw ->
  (forall j, (j < length lo)%nat -> nth j lo 0 <= nth j hi 0) ->
  random_loop draw fuel n k lo hi last = Ok (Some (vs, last')) ->
  length vs = k /\
  Forall (fun v => vertex_wf v /\ v_D v = length lo /\
          exists x, vertex_get v 0 = Some x /\ length x = length lo /\ in_box lo hi x) vs /\
  (forall a, pos_of a = last -> chain (fun a b => 1/5 < dist (pos_of a) (pos_of b)) (a :: vs)) /\
  (forall a, pos_of a = last -> pos_of (List.last (a :: vs) a) = last').
Proof.
  induction k as [|k IH]; intros n lo hi last vs last' Hd Hb E; cbn [random_loop] in E.
  - apply Ok_inj in E. injection E as <- <-. repeat split; auto. constructor.
  - destruct (draw_far draw fuel n lo hi last) as [[n' pos]|] eqn:Ef; [|discriminate].
    destruct (draw_far_spec _ _ _ _ _ _ _ _ Hd Hb Ef) as (Lp & Bp & Dp).
    destruct (vertex_add_ok (vertex_new (length lo)) kPosition pos Lp) as [v Ev].
    rewrite Ev in E. cbn [obind] in E.
    destruct (random_loop draw fuel n' k lo hi pos) as [[[vs1 l1]|]| | |] eqn:Er; try discriminate.
    cbn [obind] in E. apply Ok_inj in E. injection E as <- <-.
    destruct (IH _ _ _ _ _ _ Hd Hb Er) as (H1 & H2 & H3 & H4).
    destruct (vertex_add_wf _ _ _ _ (vertex_new_wf (length lo)) Ev) as (W & DD & _ & G).
    assert (G0 : vertex_get v 0 = Some pos) by (rewrite G; reflexivity).
    assert (Pv : pos_of v = pos) by (unfold pos_of; now rewrite G0).
    split; [simpl; auto|]. split; [|split].
    + constructor; eauto 10.
    + intros a Ha. apply chain_cons. split; [now rewrite Ha, Pv|]. apply H3; auto.
    + intros a Ha. specialize (H4 v Pv). rewrite <- H4. f_equal.
      change (List.last (v :: vs1) a = List.last (v :: vs1) v). apply last_indep. discriminate.
Qed.

Lemma createRandomVertices_spec draw fuel k n lo hi l : in_range draw ->
  createRandomVertices draw fuel k n lo hi = Ok (Some l) ->
  length l = S n /\ has_positions (length lo) l /\
  (forall v, In v l -> in_box lo hi (pos_of v)) /\
  (forall i d, (S i < length l)%nat -> 1/5 < dist (pos_of (nth i l d)) (pos_of (nth (S i) l d))) /\
  (forall d, at_rest (length lo) k (nth 0 l d) /\ at_rest (length lo) k (last l d)).
Proof.
  intros Hd E. unfold createRandomVertices in E.
  destruct (Nat.ltb_spec n 1) as [|Hn]; [discriminate|].
  destruct (Nat.eqb_spec (length lo) (length hi)) as [Hlen|]; [|discriminate].
  destruct (negb (nleb _ _)); [discriminate|]. simpl negb in E. cbv iota in E.
  destruct (k <=? 0)%Z; [discriminate|].
  destruct (existsb _ _) eqn:Eb; [discriminate|].
  assert (Hb : forall j, (j < length lo)%nat -> nth j lo 0 <= nth j hi 0).
  { intros j Hj. apply Rnot_lt_le. intro Hc.
    assert (Ht : existsb (fun p => nltb (snd p) (fst p)) (combine lo hi) = true).
    { apply existsb_exists. exists (nth j lo 0, nth j hi 0). split.
      - rewrite <- combine_nth by auto. apply nth_In. rewrite combine_length. lia.
      - simpl. now apply Rltb_true. }
    rewrite Ht in Eb. discriminate. }
  set (p0 := draw_vector draw 0 lo hi) in *.
  assert (L0 : length p0 = length lo) by apply draw_vector_length.
  assert (B0 : in_box lo hi p0) by now apply draw_vector_in_box.
  assert (Hend : forall v p, vertex_wf v -> v_D v = length lo -> length p = length lo ->
                   exists w, vertex_makeStartOrEnd v p k = Ok w /\
                   vertex_wf w /\ v_D w = length lo /\ vertex_get w 0 = Some p /\ at_rest (length lo) k w).
  { intros v p Wv Dv Lp. destruct (vertex_makeStartOrEnd_spec v p k Wv) as [H1 _].
    destruct H1 as (w & Ew & Ww & Dw & Gw); [congruence|]. exists w.
    split; [auto|]. split; [auto|]. split; [congruence|]. split; [rewrite Gw; reflexivity|].
    intros j Hj. rewrite Gw. destruct Z.eq_dec; try lia.
    do 2 (destruct Z_le_dec; try lia). rewrite Dv. reflexivity. }
  destruct (Hend (vertex_new (length lo)) p0 (vertex_new_wf _) eq_refl L0) as (first & Ef & Wf & Df & Gf & Rf).
  rewrite Ef in E. cbn [obind] in E.
  assert (Pf : pos_of first = p0) by (unfold pos_of; now rewrite Gf).
  destruct (random_loop draw fuel (length lo) n lo hi p0) as [[[vs lastp]|]| | |] eqn:Er; try discriminate.
  cbn [obind] in E.
  destruct (random_loop_spec _ _ _ _ _ _ _ _ _ Hd Hb Er) as (H1 & H2 & H3 & H4).
  specialize (H3 first Pf). specialize (H4 first Pf).
  assert (Hne : vs <> []) by (destruct vs; [simpl in H1; lia|discriminate]).
  destruct (exists_last Hne) as (fr & v & ->).
  replace (List.last (first :: fr ++ [v]) first) with v in H4
    by (change (first :: fr ++ [v]) with ((first :: fr) ++ [v]); now rewrite last_last).
  change (first :: fr ++ [v]) with ((first :: fr) ++ [v]) in E. rewrite update_last_app in E.
  apply Forall_app in H2 as [H2 H2v]. apply Forall_inv in H2v. destruct H2v as (Wv & Dv & x & Gx & Lx & Bx).
  assert (Pv : pos_of v = x) by (unfold pos_of; now rewrite Gx). rewrite Pv in H4. subst lastp.
  destruct (Hend v x Wv Dv Lx) as (w & Ew & Ww & Dw & Gw & Rw). rewrite Ew in E. cbn [obind] in E.
  apply Ok_inj in E. apply Some_inj in E. subst l.
  assert (Pw : pos_of w = x) by (unfold pos_of; now rewrite Gw).
  assert (Hg : Forall (fun v => exists x, vertex_get v 0 = Some x /\ length x = length lo /\ in_box lo hi x)
                 ((first :: fr) ++ [w])).
  { apply Forall_app. split; [constructor; [eauto|]|constructor; [eauto|constructor]].
    eapply Forall_impl; [|exact H2]. simpl; tauto. }
  split; [|split; [|split; [|split]]].
  - rewrite app_length in *. simpl in *. lia.
  - eapply Forall_impl; [|exact Hg]. intros v' (y & ? & ? & ?); eauto.
  - intros v' Hv'. rewrite Forall_forall in Hg. destruct (Hg v' Hv') as (y & Gy & _ & By).
    unfold pos_of. now rewrite Gy.
  - intros i d Hi. apply (chain_nth (fun a b => 1/5 < dist (pos_of a) (pos_of b))); auto.
    apply (chain_map (fun p q => 1/5 < dist p q) (first :: fr ++ [v])); auto.
    change (first :: fr ++ [v]) with ((first :: fr) ++ [v]). rewrite !map_app. simpl. now rewrite Pv, Pw.
  - intro d. rewrite last_last. auto.
Qed.

(** No point of [0, 0.3] is further than 0.2 from its midpoint. *)
Lemma draw_far_stuck draw lo hi last : in_range draw -> lo <= hi ->
  (forall x, lo <= x <= hi -> Rabs (x - last) <= 1/5) ->
  forall fuel n, draw_far draw fuel n [lo] [hi] [last] = None.
Proof.
  intros Hd Hb Hx. induction fuel as [|fuel IH]; intro n; [reflexivity|].
  cbn [draw_far]. rewrite vec_norm_dist.
  assert (El : nltb (nlit 2 10) (dist (draw_vector draw n [lo] [hi]) [last]) = false).
  { unfold nlit. rnum. apply Rltb_false. unfold dist, draw_vector. simpl.
    rewrite Rmult_1_r, Rplus_0_r. rewrite Nat.add_0_r.
    change ((draw n lo hi - last) * (draw n lo hi - last)) with (Rsqr (draw n lo hi - last)).
    rewrite sqrt_Rsqr_abs. specialize (Hx (draw n lo hi) (Hd n lo hi Hb)). lra. }
  rewrite El. apply IH.
Qed.

Lemma createRandomVertices_stuck draw fuel k n lo hi : in_range draw -> (0 < k)%Z -> (1 <= n)%nat ->
  1/5 <= hi - lo ->
  (forall x, lo <= x <= hi -> Rabs (x - draw 0%nat lo hi) <= 1/5) ->
  createRandomVertices draw fuel k n [lo] [hi] = Ok None.
Proof.
  intros Hd Hk Hn Hb Hx. unfold createRandomVertices.
  destruct (Nat.ltb_spec n 1); try lia. simpl length. cbn [Nat.eqb negb].
  rewrite vec_norm_dist.
  assert (E1 : nleb (nlit 2 10) (dist [hi] [lo]) = true).
  { unfold nlit. rnum. apply Rleb_true. unfold dist. simpl. rewrite Rmult_1_r, Rplus_0_r.
    change ((hi - lo) * (hi - lo)) with (Rsqr (hi - lo)). rewrite sqrt_Rsqr by lra. lra. }
  rewrite E1. cbn [negb]. destruct (Z.leb_spec k 0); try lia.
  assert (E2 : existsb (fun p => nltb (snd p) (fst p)) (combine [lo] [hi]) = false).
  { simpl. rewrite orb_false_r. apply Rltb_false. lra. }
  rewrite E2.
  set (p0 := draw_vector draw 0 [lo] [hi]).
  destruct (vertex_makeStartOrEnd_spec (vertex_new 1) p0 k (vertex_new_wf 1)) as [H1 _].
  destruct H1 as (w & Ew & _); [reflexivity|]. rewrite Ew. cbn [obind].
  destruct n as [|n]; [lia|]. cbn [random_loop].
  change p0 with [draw 0%nat lo hi]. rewrite draw_far_stuck; auto. lra.
Qed.
