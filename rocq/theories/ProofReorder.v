(** The constraint lists and the reordering matrix of the linear optimiser, for
    every number type. *)
From Coq Require Import ZArith List Bool Lia Arith Sorted Permutation.
From Verif Require Import Num ModelPolynomial ModelSegment ModelVertex ModelLinear.
Import ListNotations.

Section Sets.
  Context {T : Type} {ops : NumOps T}.
  Notation con := (constraint T).
  Implicit Types a b c : con.

  Definition key c := (con_vertex c, con_idx c).

  Lemma con_eqb_key a b : con_eqb a b = true <-> key a = key b.
  Proof.
    unfold con_eqb, key. rewrite andb_true_iff, !Nat.eqb_eq. split.
    - intros (-> & ->). reflexivity.
    - intros H. injection H. auto.
  Qed.

  Definition con_lt a b : Prop :=
    con_vertex a < con_vertex b \/ (con_vertex a = con_vertex b /\ con_idx a < con_idx b).

  Lemma con_ltb_lt a b : con_ltb a b = true <-> con_lt a b.
  Proof.
    unfold con_ltb, con_lt. destruct (Nat.ltb_spec (con_vertex a) (con_vertex b)); [split; auto|].
    destruct (Nat.ltb_spec (con_vertex b) (con_vertex a)).
    - split; [discriminate|lia].
    - rewrite Nat.ltb_lt. lia.
  Qed.
  Lemma con_ltb_nlt a b : con_ltb a b = false <-> ~ con_lt a b.
  Proof. rewrite <- con_ltb_lt. destruct (con_ltb a b); split; congruence. Qed.

  Lemma con_lt_trans a b c : con_lt a b -> con_lt b c -> con_lt a c.
  Proof. unfold con_lt. lia. Qed.
  Lemma con_lt_key a b : con_lt a b -> key a <> key b.
  Proof. unfold con_lt, key. intros H E. injection E. lia. Qed.
  Lemma con_tricho a b : ~ con_lt a b -> ~ con_lt b a -> key a = key b.
  Proof. unfold con_lt, key. intros. f_equal; lia. Qed.

  (** A set of constraints in which the key determines the constraint. *)
  Context (P : con -> Prop) (Pkey : forall a b, P a -> P b -> key a = key b -> a = b).

  Lemma set_insert_In l c : List.Forall P l -> P c -> forall x, In x (set_insert l c) <-> x = c \/ In x l.
  Proof.
    induction l as [|y l IH]; intros Hl Hc x; cbn [set_insert]; [cbn; intuition|].
    inversion Hl; subst. destruct (con_ltb c y) eqn:E1; [cbn; intuition|].
    destruct (con_ltb y c) eqn:E2.
    - cbn [In]. rewrite IH by assumption. intuition.
    - apply con_ltb_nlt in E1. apply con_ltb_nlt in E2.
      assert (c = y) by (apply Pkey; auto using con_tricho). subst. cbn. intuition.
  Qed.
  Lemma set_insert_P l c : List.Forall P l -> P c -> List.Forall P (set_insert l c).
  Proof.
    intros Hl Hc. apply Forall_forall. intros x Hx. apply set_insert_In in Hx; auto.
    destruct Hx as [->|Hx]; [auto|]. rewrite Forall_forall in Hl. auto.
  Qed.
  Lemma set_insert_sorted l c : List.Forall P l -> P c ->
    StronglySorted con_lt l -> StronglySorted con_lt (set_insert l c).
  Proof.
    induction l as [|y l IH]; intros Hl Hc Hs; cbn [set_insert]; [repeat constructor|].
    inversion Hl; inversion Hs; subst. destruct (con_ltb c y) eqn:E1.
    - apply con_ltb_lt in E1. constructor; [assumption|]. constructor; [assumption|].
      eapply Forall_impl; [|eassumption]. intros z. apply con_lt_trans. exact E1.
    - destruct (con_ltb y c) eqn:E2; [|assumption]. apply con_ltb_lt in E2.
      constructor; [auto|]. apply Forall_forall. intros x Hx. apply set_insert_In in Hx; auto.
      destruct Hx as [->|Hx]; [exact E2|]. rewrite Forall_forall in *. auto.
  Qed.
  Lemma set_fold_gen l : forall s, List.Forall P l -> List.Forall P s -> StronglySorted con_lt s ->
    List.Forall P (fold_left set_insert l s) /\
    StronglySorted con_lt (fold_left set_insert l s) /\
    forall x, In x (fold_left set_insert l s) <-> In x l \/ In x s.
  Proof.
    induction l as [|c l IH]; intros s Hl Hs Hss; cbn [fold_left]; [cbn; intuition|].
    inversion Hl; subst.
    destruct (IH (set_insert s c)) as (H1' & H2' & H3'); auto using set_insert_P, set_insert_sorted.
    split; [exact H1'|]. split; [exact H2'|]. intros x. rewrite H3', set_insert_In by assumption.
    cbn. intuition.
  Qed.
  Lemma set_fold l : List.Forall P l ->
    StronglySorted con_lt (fold_left set_insert l []) /\
    forall x, In x (fold_left set_insert l []) <-> In x l.
  Proof.
    intros Hl. destruct (set_fold_gen l [] Hl) as (_ & H1 & H2); [constructor|constructor|].
    split; [exact H1|]. intros x. rewrite H2. cbn. intuition.
  Qed.
End Sets.

Lemma sorted_NoDup_key {T} (l : list (constraint T)) : StronglySorted con_lt l -> NoDup (map key l).
Proof.
  induction 1 as [|a l Hs IH Hf]; cbn [map]; constructor; [|exact IH].
  intros Hin. apply in_map_iff in Hin. destruct Hin as (b & E & Hb).
  rewrite Forall_forall in Hf. apply (con_lt_key a b (Hf b Hb)). auto.
Qed.

Section Reorder.
  Context {T : Type} {ops : NumOps T} (h dim : nat).
  Notation con := (constraint T).
  Implicit Types vs : list (vertex T).

  Definition dvert : vertex T := mkVertex 0 [].
  (** Constraint k of vertex i of the list, with its flag. *)
  Definition con_at vs (i k : nat) : bool * con :=
    match vertex_get (nth i vs dvert) (Z.of_nat k) with
    | Some x => (true, mkCon i k x)
    | None => (false, mkCon i k (repeat n0 dim))
    end.
  Lemma con_at_key vs i k : key (snd (con_at vs i k)) = (i, k).
  Proof. unfold con_at. destruct (vertex_get _ _); reflexivity. Qed.

  Definition block vs i := map (con_at vs i) (seq 0 h).
  Lemma block_length vs i : length (block vs i) = h.
  Proof. unfold block. rewrite map_length, seq_length. reflexivity. Qed.

  (** all_constraints in terms of positions in the full list. *)
  Lemma all_from vs0 : forall vs pre nseg, vs0 = pre ++ vs -> nseg + 1 = length vs0 ->
    all_constraints h dim nseg (length pre) vs =
    concat (map (fun i => if Nat.eqb i 0 || Nat.eqb i nseg then block vs0 i else block vs0 i ++ block vs0 i)
                (seq (length pre) (length vs))).
  Proof.
    induction vs as [|v vs IH]; intros pre nseg E L; cbn [all_constraints length seq map concat]; [reflexivity|].
    assert (Eb : vertex_constraints h dim (length pre) v = block vs0 (length pre)).
    { unfold vertex_constraints, block. apply map_ext. intros k. unfold con_at. rewrite E.
      rewrite app_nth2, Nat.sub_diag by lia. reflexivity. }
    rewrite Eb. f_equal.
    specialize (IH (pre ++ [v]) nseg). rewrite app_length in IH. cbn [length] in IH. rewrite (Nat.add_1_r (length pre)) in IH. apply IH; [|exact L].
    rewrite <- app_assoc. exact E.
  Qed.
  Lemma all_eq vs nseg : nseg + 1 = length vs ->
    all_constraints h dim nseg 0 vs =
    concat (map (fun i => if Nat.eqb i 0 || Nat.eqb i nseg then block vs i else block vs i ++ block vs i)
                (seq 0 (length vs))).
  Proof. intros H. exact (all_from vs vs [] nseg eq_refl H). Qed.

  (** Grouped by segments: the constraints of both ends of every segment. *)
  Lemma all_segments_from vs nseg n : forall a, 0 < a -> a + n = nseg ->
    concat (map (fun i => if Nat.eqb i 0 || Nat.eqb i nseg then block vs i else block vs i ++ block vs i)
                (seq a (S n))) =
    block vs a ++ concat (map (fun i => block vs i ++ block vs (S i)) (seq a n)).
  Proof.
    induction n as [|n IH]; intros a Ha Hn.
    - cbn [seq map concat]. destruct (Nat.eqb_spec a nseg); [|lia]. rewrite orb_true_r. reflexivity.
    - change (seq a (S (S n))) with (a :: seq (S a) (S n)). cbn [map concat]. rewrite IH by lia.
      destruct (Nat.eqb_spec a nseg); [lia|]. destruct (Nat.eqb_spec a 0); [lia|]. cbn [orb].
      cbn [seq map concat]. rewrite <- !app_assoc. reflexivity.
  Qed.
  Lemma all_segments vs nseg : nseg + 1 = length vs -> 0 < nseg ->
    all_constraints h dim nseg 0 vs =
    concat (map (fun i => block vs i ++ block vs (S i)) (seq 0 nseg)).
  Proof.
    intros H Hn. rewrite all_eq by exact H. rewrite <- H, Nat.add_1_r. destruct nseg as [|n]; [lia|].
    change (seq 0 (S (S n))) with (0 :: seq 1 (S n)). cbn [map concat Nat.eqb orb].
    rewrite (all_segments_from vs (S n) n 1) by lia.
    cbn [seq map concat]. rewrite <- app_assoc. reflexivity.
  Qed.

  Lemma concat_nth {A} (l : list (list A)) n dflt : (forall x, In x l -> length x = n) ->
    forall i r, i < length l -> r < n -> nth (i * n + r) (concat l) dflt = nth r (nth i l []) dflt.
  Proof.
    induction l as [|x l IH]; intros H i r Hi Hr; [cbn in Hi; lia|].
    assert (Lx : length x = n) by (apply H; left; reflexivity).
    destruct i as [|i]; cbn [concat nth Nat.mul Nat.add].
    - rewrite app_nth1 by lia. reflexivity.
    - rewrite app_nth2 by lia. rewrite Lx. replace (n + i * n + r - n) with (i * n + r) by lia.
      apply IH; [intros y Hy; apply H; right; exact Hy| |exact Hr]. cbn in Hi. lia.
  Qed.
  Lemma concat_const_length {A} (l : list (list A)) n : (forall x, In x l -> length x = n) ->
    length (concat l) = length l * n.
  Proof.
    induction l as [|x l IH]; intros H; cbn [concat length Nat.mul]; [reflexivity|].
    rewrite app_length, IH by (intros; apply H; right; assumption).
    rewrite (H x) by (left; reflexivity). lia.
  Qed.

  Lemma all_length vs nseg : nseg + 1 = length vs -> 0 < nseg ->
    length (all_constraints h dim nseg 0 vs) = nseg * (2 * h).
  Proof.
    intros H Hn. rewrite all_segments by assumption. rewrite (concat_const_length _ (2 * h)).
    - rewrite map_length, seq_length. reflexivity.
    - intros x Hx. apply in_map_iff in Hx. destruct Hx as (i & <- & _).
      rewrite app_length, !block_length. lia.
  Qed.
  Lemma all_nth vs nseg i r dflt : nseg + 1 = length vs -> i < nseg -> r < 2 * h ->
    nth (i * (2 * h) + r) (all_constraints h dim nseg 0 vs) dflt =
    if Nat.ltb r h then con_at vs i r else con_at vs (S i) (r - h).
  Proof.
    intros H Hi Hr. rewrite all_segments by (try assumption; lia).
    rewrite (concat_nth _ (2 * h)).
    2:{ intros x Hx. apply in_map_iff in Hx. destruct Hx as (j & <- & _).
        rewrite app_length, !block_length. lia. }
    2:{ rewrite map_length, seq_length. exact Hi. }
    2:{ exact Hr. }
    rewrite (nth_indep _ [] (block vs 0 ++ block vs 1)) by (rewrite map_length, seq_length; exact Hi).
    rewrite (map_nth (fun i => block vs i ++ block vs (S i)) (seq 0 nseg) 0), seq_nth by exact Hi. cbn [Nat.add].
    assert (Hb : forall j k, k < h -> nth k (block vs j) dflt = con_at vs j k).
    { intros j k Hk. unfold block. rewrite (nth_indep _ _ (con_at vs j 0)) by (rewrite map_length, seq_length; exact Hk).
      rewrite (map_nth (con_at vs j)), seq_nth by exact Hk. reflexivity. }
    destruct (Nat.ltb_spec r h).
    - rewrite app_nth1 by (rewrite block_length; lia). apply Hb. lia.
    - rewrite app_nth2 by (rewrite block_length; lia). rewrite block_length. apply Hb. lia.
  Qed.
  (** The elements of all_constraints (also for a single vertex). *)
  Lemma all_In vs nseg x : nseg + 1 = length vs ->
    In x (all_constraints h dim nseg 0 vs) <-> exists i k, i <= nseg /\ k < h /\ x = con_at vs i k.
  Proof.
    intros H. rewrite all_eq by exact H. rewrite in_concat. split.
    - intros (l & Hl & Hx). apply in_map_iff in Hl. destruct Hl as (i & <- & Hi). apply in_seq in Hi.
      assert (Hx' : In x (block vs i)).
      { destruct (Nat.eqb i 0 || Nat.eqb i nseg); [exact Hx|]. apply in_app_iff in Hx. tauto. }
      apply in_map_iff in Hx'. destruct Hx' as (k & <- & Hk). apply in_seq in Hk.
      exists i, k. split; [lia|]. split; [lia|reflexivity].
    - intros (i & k & Hi & Hk & ->). eexists. split.
      { apply in_map_iff. exists i. split; [reflexivity|]. apply in_seq. lia. }
      assert (Hin : In (con_at vs i k) (block vs i)).
      { apply in_map_iff. exists k. split; [reflexivity|]. apply in_seq. lia. }
      cbn beta. destruct (Nat.eqb i 0 || Nat.eqb i nseg); [exact Hin|]. apply in_app_iff. auto.
  Qed.

  (** fixed_constraints and free_constraints. *)
  Definition fixed_set vs nseg := fold_left set_insert (map snd (filter fst (all_constraints h dim nseg 0 vs))) [].
  Definition free_set vs nseg :=
    fold_left set_insert (map snd (filter (fun c => negb (fst c)) (all_constraints h dim nseg 0 vs))) [].

  Definition from_vertices vs (c : con) : Prop := c = snd (con_at vs (con_vertex c) (con_idx c)).
  Lemma from_vertices_key vs a b : from_vertices vs a -> from_vertices vs b -> key a = key b -> a = b.
  Proof. unfold from_vertices, key. intros Ha Hb E. injection E. intros E1 E2. rewrite Ha, Hb, E1, E2. reflexivity. Qed.
  Lemma from_vertices_con_at vs i k : from_vertices vs (snd (con_at vs i k)).
  Proof.
    unfold from_vertices. assert (E := con_at_key vs i k). unfold key in E. injection E. intros -> ->. reflexivity.
  Qed.

  Lemma set_spec vs nseg (p : bool * con -> bool) : nseg + 1 = length vs ->
    let l := fold_left set_insert (map snd (filter p (all_constraints h dim nseg 0 vs))) [] in
    StronglySorted con_lt l /\
    forall x, In x l <-> exists i k, i <= nseg /\ k < h /\ x = snd (con_at vs i k) /\ p (con_at vs i k) = true.
  Proof.
    intros H l.
    destruct (set_fold (from_vertices vs) (from_vertices_key vs) (map snd (filter p (all_constraints h dim nseg 0 vs))))
      as (H1 & H2).
    { apply Forall_forall. intros x Hx. apply in_map_iff in Hx. destruct Hx as (y & <- & Hy).
      apply filter_In in Hy. destruct Hy as (Hy & _). apply all_In in Hy; [|exact H].
      destruct Hy as (i & k & _ & _ & ->). apply from_vertices_con_at. }
    split; [exact H1|]. intros x. unfold l. rewrite H2, in_map_iff. split.
    - intros (y & <- & Hy). apply filter_In in Hy. destruct Hy as (Hy & Hp).
      apply all_In in Hy; [|exact H]. destruct Hy as (i & k & Hi & Hk & ->). exists i, k. auto.
    - intros (i & k & Hi & Hk & -> & Hp). exists (con_at vs i k). split; [reflexivity|].
      apply filter_In. split; [|exact Hp]. apply all_In; [exact H|]. exists i, k. auto.
  Qed.

  Lemma fixed_set_spec vs nseg : nseg + 1 = length vs ->
    StronglySorted con_lt (fixed_set vs nseg) /\
    forall x, In x (fixed_set vs nseg) <->
      exists i k v, i <= nseg /\ k < h /\ vertex_get (nth i vs dvert) (Z.of_nat k) = Some v /\ x = mkCon i k v.
  Proof.
    intros H. destruct (set_spec vs nseg fst H) as (H1 & H2). split; [exact H1|].
    intros x. unfold fixed_set. rewrite H2. unfold con_at. split.
    - intros (i & k & Hi & Hk & Hx & Hp). destruct (vertex_get (nth i vs dvert) (Z.of_nat k)) as [v|] eqn:E; [|discriminate].
      exists i, k, v. auto.
    - intros (i & k & v & Hi & Hk & Hv & Hx). exists i, k. rewrite Hv. auto.
  Qed.
  Lemma free_set_spec vs nseg : nseg + 1 = length vs ->
    StronglySorted con_lt (free_set vs nseg) /\
    forall x, In x (free_set vs nseg) <->
      exists i k, i <= nseg /\ k < h /\ vertex_get (nth i vs dvert) (Z.of_nat k) = None /\ x = mkCon i k (repeat n0 dim).
  Proof.
    intros H. destruct (set_spec vs nseg (fun c => negb (fst c)) H) as (H1 & H2). split; [exact H1|].
    intros x. unfold free_set. rewrite H2. unfold con_at. split.
    - intros (i & k & Hi & Hk & Hx & Hp). destruct (vertex_get (nth i vs dvert) (Z.of_nat k)) as [v|] eqn:E; [discriminate|].
      exists i, k. auto.
    - intros (i & k & Hi & Hk & Hv & Hx). exists i, k. rewrite Hv. auto.
  Qed.

  Definition cols vs nseg := fixed_set vs nseg ++ free_set vs nseg.
  Lemma cols_In vs nseg x : nseg + 1 = length vs ->
    In x (cols vs nseg) <-> exists i k, i <= nseg /\ k < h /\ x = snd (con_at vs i k).
  Proof.
    intros H. unfold cols. rewrite in_app_iff.
    rewrite (proj2 (fixed_set_spec vs nseg H)), (proj2 (free_set_spec vs nseg H)). unfold con_at. split.
    - intros [(i & k & v & Hi & Hk & Hv & ->)|(i & k & Hi & Hk & Hv & ->)]; exists i, k; rewrite Hv; auto.
    - intros (i & k & Hi & Hk & ->). destruct (vertex_get (nth i vs dvert) (Z.of_nat k)) as [v|] eqn:E.
      + left. exists i, k, v. auto.
      + right. exists i, k. auto.
  Qed.
  Lemma cols_NoDup_key vs nseg : nseg + 1 = length vs -> NoDup (map key (cols vs nseg)).
  Proof.
    intros H. unfold cols. rewrite map_app.
    destruct (fixed_set_spec vs nseg H) as (S1 & I1). destruct (free_set_spec vs nseg H) as (S2 & I2).
    apply sorted_NoDup_key in S1. apply sorted_NoDup_key in S2.
    assert (Hd : forall x, In x (map key (fixed_set vs nseg)) -> ~ In x (map key (free_set vs nseg))).
    { intros x Hx Hy. apply in_map_iff in Hx. apply in_map_iff in Hy.
      destruct Hx as (a & <- & Ha). destruct Hy as (b & Eb & Hb).
      apply I1 in Ha. apply I2 in Hb. destruct Ha as (i & k & v & _ & _ & Hv & ->).
      destruct Hb as (i' & k' & _ & _ & Hn & ->). cbv in Eb. injection Eb. intros -> ->. congruence. }
    clear I1 I2. revert S1 Hd. generalize (map key (fixed_set vs nseg)). intros l.
    induction l as [|x l IH]; intros S1 Hd; [exact S2|]. inversion S1; subst. cbn [app]. constructor.
    - rewrite in_app_iff. intros [|]; [auto|]. apply (Hd x); [left; reflexivity|assumption].
    - apply IH; [assumption|]. intros y Hy. apply Hd. right. exact Hy.
  Qed.
  Lemma cols_keys vs nseg x : nseg + 1 = length vs ->
    In x (map key (cols vs nseg)) <-> In x (list_prod (seq 0 (length vs)) (seq 0 h)).
  Proof.
    intros H. rewrite in_map_iff. destruct x as [i k]. rewrite in_prod_iff, !in_seq. split.
    - intros (c & E & Hc). apply cols_In in Hc; [|exact H]. destruct Hc as (i' & k' & Hi & Hk & ->).
      rewrite con_at_key in E. injection E. intros -> ->. lia.
    - intros (Hi & Hk). exists (snd (con_at vs i k)). split; [apply con_at_key|].
      apply cols_In; [exact H|]. exists i, k. split; [lia|]. split; [lia|reflexivity].
  Qed.
  Lemma NoDup_list_prod {A B} (l : list A) (m : list B) : NoDup l -> NoDup m -> NoDup (list_prod l m).
  Proof.
    intros Hl Hm. induction Hl as [|x l Hx Hl IH]; cbn [list_prod]; [constructor|].
    assert (Hmap : NoDup (map (fun y : B => (x, y)) m)).
    { clear -Hm. induction Hm as [|y m Hy Hm IH]; cbn [map]; constructor; [|exact IH].
      intros Hi. apply in_map_iff in Hi. destruct Hi as (z & E & Hz). injection E. intros ->. auto. }
    assert (Hd : forall p, In p (map (fun y : B => (x, y)) m) -> ~ In p (list_prod l m)).
    { intros p Hp Hq. apply in_map_iff in Hp. destruct Hp as (y & <- & _). apply in_prod_iff in Hq. tauto. }
    revert Hmap Hd. generalize (map (fun y : B => (x, y)) m). intros q Hq.
    induction Hq as [|z q Hz Hq IHq]; intros Hd; [exact IH|]. cbn [app]. constructor.
    - rewrite in_app_iff. intros [|]; [auto|]. apply (Hd z); [left; reflexivity|assumption].
    - apply IHq. intros p Hp. apply Hd. right. exact Hp.
  Qed.
  Lemma cols_length vs nseg : nseg + 1 = length vs -> length (cols vs nseg) = length vs * h.
  Proof.
    intros H. rewrite <- (map_length key).
    rewrite (Permutation_length (l' := list_prod (seq 0 (length vs)) (seq 0 h))).
    - rewrite prod_length, !seq_length. reflexivity.
    - apply NoDup_Permutation.
      + apply cols_NoDup_key. exact H.
      + apply NoDup_list_prod; apply seq_NoDup.
      + intros x. apply cols_keys. exact H.
  Qed.
  Lemma cols_inj vs nseg : nseg + 1 = length vs -> forall a b dflt, a < length (cols vs nseg) -> b < length (cols vs nseg) ->
    key (nth a (cols vs nseg) dflt) = key (nth b (cols vs nseg) dflt) -> a = b.
  Proof.
    intros H a b dflt Ha Hb E. apply (proj1 (NoDup_nth (map key (cols vs nseg)) (key dflt)) (cols_NoDup_key vs nseg H)).
    - rewrite map_length. exact Ha.
    - rewrite map_length. exact Hb.
    - rewrite !(map_nth key). exact E.
  Qed.
End Reorder.
