(** The order of the free variables and the bounds put on them. *)
From Coq Require Import ZArith List Bool Lia Arith Sorted.
From Verif Require Import Num RSum ModelPolynomial ModelSegment ModelVertex SpecVertex ModelTrajectory
  ModelLinear SpecLinear ProofTrajectory3 ProofSegment2 ProofMatrix ProofHermite ProofReorder ProofLinear ProofLinear5
  ModelNonlinear SpecNonlinear ProofNonlinear ProofNonlinear2.
Import ListNotations.

Lemma ofold_app {A S} (f : S -> A -> outcome S) l1 l2 : forall s,
  ofold f (l1 ++ l2) s = (r <-- ofold f l1 s ;; ofold f l2 r).
Proof.
  induction l1 as [|a l1 IH]; intros s; cbn [app ofold obind]; [reflexivity|].
  destruct (f s a); cbn [obind]; [apply IH|reflexivity..].
Qed.

(** Two sorted lists with the same members. *)
Lemma key_lt_irrefl a : ~ key_lt a a.
Proof. unfold key_lt. lia. Qed.
Lemma key_lt_trans a b c : key_lt a b -> key_lt b c -> key_lt a c.
Proof. unfold key_lt. lia. Qed.
Lemma sorted_unique : forall l1 l2 : list (nat * nat), StronglySorted key_lt l1 -> StronglySorted key_lt l2 ->
  (forall x, In x l1 <-> In x l2) -> l1 = l2.
Proof.
  induction l1 as [|a l1 IH]; intros l2 S1 S2 H.
  - destruct l2 as [|b l2]; [reflexivity|]. exfalso. apply (proj2 (H b)). left. reflexivity.
  - destruct l2 as [|b l2]; [exfalso; apply (proj1 (H a)); left; reflexivity|].
    inversion S1 as [|? ? S1' F1]; subst. inversion S2 as [|? ? S2' F2]; subst.
    rewrite List.Forall_forall in F1, F2.
    assert (a = b).
    { destruct (proj1 (H a) (or_introl eq_refl)) as [->|Ha]; [reflexivity|].
      destruct (proj2 (H b) (or_introl eq_refl)) as [->|Hb]; [reflexivity|].
      exfalso. apply (key_lt_irrefl a). eapply key_lt_trans; [apply F1, Hb|apply F2, Ha]. }
    subst b. f_equal. apply IH; try assumption. intros x. split; intros Hx.
    + destruct (proj1 (H x) (or_intror Hx)) as [<-|]; [|assumption]. exfalso. apply (key_lt_irrefl a), F1, Hx.
    + destruct (proj2 (H x) (or_intror Hx)) as [<-|]; [|assumption]. exfalso. apply (key_lt_irrefl a), F2, Hx.
Qed.

Lemma sorted_app (l1 l2 : list (nat * nat)) : StronglySorted key_lt l1 -> StronglySorted key_lt l2 ->
  (forall a b, In a l1 -> In b l2 -> key_lt a b) -> StronglySorted key_lt (l1 ++ l2).
Proof.
  induction 1 as [|a l1 S1 IH F]; intros S2 H; cbn [app]; [exact S2|]. constructor.
  - apply IH; [exact S2|]. intros x y Hx Hy. apply H; [right; exact Hx|exact Hy].
  - apply List.Forall_app. split; [exact F|]. apply List.Forall_forall. intros y Hy. apply H; [left; reflexivity|exact Hy].
Qed.

Section Keys.
  Context {T : Type} {ops : NumOps T} (h : nat).
  Implicit Types vs : list (vertex T).
  Definition is_free vs (v k : nat) : bool :=
    match vertex_get (nth v vs (mkVertex 0 [])) (Z.of_nat k) with Some _ => false | None => true end.

  Lemma unconstrained_In m vs v k : In (v, k) (unconstrained m vs) <->
    (v < length vs)%nat /\ (k < m)%nat /\ vertex_get (nth v vs dvert) (Z.of_nat k) = None.
  Proof.
    unfold unconstrained. rewrite in_flat_map. split.
    - intros (i & Hi & H). apply in_seq in Hi. apply in_map_iff in H. destruct H as (k' & E & Hk).
      injection E. intros -> ->. apply filter_In in Hk. destruct Hk as (Hk & Hv). apply in_seq in Hk.
      split; [lia|]. split; [lia|]. unfold dvert. destruct (vertex_get _ _); [discriminate|reflexivity].
    - intros (Hv & Hk & E). exists v. split; [apply in_seq; lia|]. apply in_map. apply filter_In. split; [apply in_seq; lia|].
      unfold dvert in E. rewrite E. reflexivity.
  Qed.

  Lemma filter_seq_sorted (f : nat -> bool) v : forall m s, StronglySorted key_lt (map (pair v) (filter f (seq s m))).
  Proof.
    induction m as [|m IH]; intros s; cbn [seq filter map]; [constructor|].
    destruct (f s); [|apply IH]. cbn [map]. constructor; [apply IH|].
    apply List.Forall_forall. intros x Hx. apply in_map_iff in Hx. destruct Hx as (k & <- & Hk).
    apply filter_In in Hk. destruct Hk as (Hk & _). apply in_seq in Hk. unfold key_lt. cbn. lia.
  Qed.
  Lemma blocks_sorted (f : nat -> nat -> bool) m : forall len s,
    StronglySorted key_lt (flat_map (fun v => map (pair v) (filter (f v) (seq 0 m))) (seq s len)).
  Proof.
    induction len as [|len IH]; intros s; cbn [seq flat_map]; [constructor|].
    apply sorted_app; [apply filter_seq_sorted|apply IH|].
    intros a b Ha Hb. apply in_map_iff in Ha. destruct Ha as (k & <- & _).
    apply in_flat_map in Hb. destruct Hb as (v & Hv & Hb). apply in_seq in Hv. apply in_map_iff in Hb.
    destruct Hb as (k' & <- & _). unfold key_lt. cbn. lia.
  Qed.
  Lemma unconstrained_sorted m vs : StronglySorted key_lt (unconstrained m vs).
  Proof. apply (blocks_sorted (is_free vs)). Qed.

  Lemma keys_sorted_T (l : list (constraint T)) : StronglySorted con_lt l -> StronglySorted key_lt (map key l).
  Proof.
    induction 1 as [|a l Hs IH Hf]; cbn [map]; constructor; [exact IH|].
    apply Forall_map. eapply List.Forall_impl; [|exact Hf]. intros b Hb. exact Hb.
  Qed.

  (** The free columns are the unconstrained pairs, in order. *)
  Lemma free_keys dim vs nseg : nseg + 1 = length vs -> map key (free_set h dim vs nseg) = unconstrained h vs.
  Proof.
    intros Hn. destruct (free_set_spec h dim vs nseg Hn) as (S & I). apply sorted_unique.
    - apply keys_sorted_T, S.
    - apply unconstrained_sorted.
    - intros (v, k). rewrite unconstrained_In, in_map_iff. split.
      + intros (c & Ec & Hc). apply I in Hc. destruct Hc as (i & k' & Hi & Hk & Hx & ->). injection Ec. intros -> ->.
        split; [lia|]. split; assumption.
      + intros (Hv & Hk & Hx). exists (mkCon v k (repeat n0 dim)). split; [reflexivity|]. apply I. exists v, k.
        split; [lia|]. repeat split; assumption.
  Qed.
  Lemma prepared_nfree inv vs o : prepared h inv vs o -> o_nfree o = length (unconstrained h vs).
  Proof.
    intros P. rewrite (pr_nfree _ _ _ _ P), <- (free_keys (o_dim o) vs (o_nseg o) (pr_nseg _ _ _ _ P)), map_length. reflexivity.
  Qed.

  (** Only orders below h matter. *)
  Lemma unconstrained_ext m vs ws : m <= h -> length ws = length vs ->
    (forall i k, k < h -> vertex_get (nth i ws dvert) (Z.of_nat k) = vertex_get (nth i vs dvert) (Z.of_nat k)) ->
    unconstrained m ws = unconstrained m vs.
  Proof.
    intros Hm Hl E. apply sorted_unique; [apply unconstrained_sorted..|].
    intros (v, k). rewrite !unconstrained_In, Hl. split; intros (A & B & C); (split; [exact A|]; split; [exact B|]).
    - rewrite <- E by lia. exact C.
    - rewrite E by lia. exact C.
  Qed.

  (** Orders below m come first among those of one vertex, so there are no more of them. *)
  Lemma unconstrained_le m vs : m <= h -> length (unconstrained m vs) <= length (unconstrained h vs).
  Proof.
    intros Hm. apply NoDup_incl_length.
    - assert (S := unconstrained_sorted m vs). induction S as [|a l Sl IH F]; constructor; [|exact IH].
      intros Ha. rewrite List.Forall_forall in F. apply (key_lt_irrefl a), F, Ha.
    - intros (v, k) H. apply unconstrained_In in H. apply unconstrained_In. destruct H as (A & B & C).
      split; [exact A|]. split; [lia|exact C].
  Qed.
End Keys.

Section Bounds.
  Context {T : Type} {ops : NumOps T}.
  Implicit Types (b : list T * list T) (vs : list (vertex T)).

  Definition pair_at b (i : nat) : T * T := (nth i (fst b) n0, nth i (snd b) n0).
  Definition b_len b (m : nat) : Prop := length (fst b) = m /\ length (snd b) = m.

  Lemma bounds_set_ok b m i v : b_len b m -> i < m ->
    exists b', bounds_set b i v = Ok b' /\ b_len b' m /\
      forall j, pair_at b' j = if Nat.eqb j i then (nopp (nabs v), nabs v) else pair_at b j.
  Proof.
    intros (L1 & L2) Hi. unfold bounds_set. rewrite L1, L2. destruct (Nat.ltb_spec i m); [|lia]. cbn [andb].
    eexists. split; [reflexivity|]. split; [split; cbn [fst snd]; rewrite list_set_length; assumption|].
    intros j. unfold pair_at. cbn [fst snd]. rewrite !list_set_nth by lia. destruct (Nat.eqb j i); reflexivity.
  Qed.

  (** One variable in every dimension. *)
  Lemma bounds_dims nfree cnt v : cnt < nfree -> forall dim s b, b_len b ((s + dim) * nfree) ->
    exists b', ofold (fun b k => bounds_set b (k * nfree + cnt) v) (seq s dim) b = Ok b' /\ b_len b' ((s + dim) * nfree) /\
      forall k j, j < nfree -> pair_at b' (k * nfree + j) =
        if (s <=? k) && (k <? s + dim) && (j =? cnt) then (nopp (nabs v), nabs v) else pair_at b (k * nfree + j).
  Proof.
    intros Hc. induction dim as [|dim IH]; intros s b L; cbn [seq ofold].
    - exists b. split; [reflexivity|]. split; [exact L|]. intros k j Hj.
      destruct (Nat.leb_spec s k), (Nat.ltb_spec k (s + 0)); cbn [andb]; try reflexivity. lia.
    - destruct (bounds_set_ok b _ (s * nfree + cnt) v L ltac:(nia)) as (b1 & E1 & L1 & H1). rewrite E1. cbn [obind].
      replace (s + S dim) with (S s + dim) in * by lia.
      destruct (IH (S s) b1 L1) as (b' & E' & L' & H'). exists b'. split; [exact E'|]. split; [exact L'|].
      intros k j Hj. rewrite H' by exact Hj. rewrite H1.
      assert (Q : Nat.eqb (k * nfree + j) (s * nfree + cnt) = (k =? s) && (j =? cnt)).
      { destruct (Nat.eqb_spec k s) as [->|Hk].
        - cbn [andb]. destruct (Nat.eqb_spec j cnt); [subst; apply Nat.eqb_refl|]. apply Nat.eqb_neq. lia.
        - cbn [andb]. apply Nat.eqb_neq. nia. }
      rewrite Q. destruct (Nat.eqb_spec j cnt); rewrite ?andb_false_r, ?andb_true_r; [|reflexivity].
      destruct (Nat.leb_spec (S s) k), (Nat.ltb_spec k (S s + dim)), (Nat.leb_spec s k), (Nat.eqb_spec k s); cbn [andb]; try reflexivity; lia.
  Qed.

  Definition bstep (dim nfree : nat) (c : Z * T) (st : nat * (list T * list T)) (d : nat) : outcome (nat * (list T * list T)) :=
    b <-- (if (Z.of_nat d =? fst c)%Z
           then ofold (fun b k => bounds_set b (k * nfree + fst st) (snd c)) (seq 0 dim) (snd st)
           else Ok (snd st)) ;;
    Ok (S (fst st), b).

  Lemma bounds_vertex dim nfree c (v : vertex T) : forall l st,
    ofold (bounds_deriv dim nfree c v) l st =
    ofold (bstep dim nfree c) (filter (fun k => negb (vertex_has v (Z.of_nat k))) l) st.
  Proof.
    induction l as [|k l IH]; intros st; cbn [ofold filter]; [reflexivity|].
    unfold bounds_deriv at 1. destruct (vertex_has v (Z.of_nat k)); cbn [negb]; [cbn [obind]; apply IH|].
    cbn [ofold]. unfold bstep at 1.
    destruct (Z.of_nat k =? fst c)%Z; [destruct (ofold _ _ (snd st))|]; cbn [obind]; [apply IH|reflexivity..|apply IH].
  Qed.
  Lemma bounds_vertices dim nfree c m : forall vs st,
    ofold (fun st v => ofold (bounds_deriv dim nfree c v) (seq 0 m) st) vs st =
    ofold (bstep dim nfree c) (flat_map (fun v => filter (fun k => negb (vertex_has v (Z.of_nat k))) (seq 0 m)) vs) st.
  Proof.
    induction vs as [|v vs IH]; intros st; cbn [ofold flat_map]; [reflexivity|].
    rewrite ofold_app, bounds_vertex. destruct (ofold _ _ st); cbn [obind]; [apply IH|reflexivity..].
  Qed.
  Lemma flat_map_nth {A B} (d : A) (f : A -> list B) : forall (l : list A) s (g : nat -> list B),
    (forall i, g (s + i) = f (nth i l d)) -> flat_map g (seq s (length l)) = flat_map f l.
  Proof.
    induction l as [|a l IH]; intros s g H; cbn [length seq flat_map]; [reflexivity|]. f_equal.
    - specialize (H 0). rewrite Nat.add_0_r in H. exact H.
    - apply IH. intros i. specialize (H (S i)). cbn [nth] in H. rewrite <- H. f_equal. lia.
  Qed.
  Lemma unconstrained_orders m vs :
    map snd (unconstrained m vs) = flat_map (fun v => filter (fun k => negb (vertex_has v (Z.of_nat k))) (seq 0 m)) vs.
  Proof.
    unfold unconstrained. rewrite <- (flat_map_nth (mkVertex 0 []) _ vs 0
      (fun v => filter (fun k => negb (vertex_has (nth v vs (mkVertex 0 [])) (Z.of_nat k))) (seq 0 m))) by reflexivity.
    induction (seq 0 (length vs)) as [|i l IH]; cbn [flat_map map]; [reflexivity|].
    rewrite map_app, IH, map_map. cbn [snd]. rewrite map_id. f_equal. apply filter_ext. intros k.
    unfold vertex_has, vertex_get. destruct (map_find _ _); reflexivity.
  Qed.

  (** All variables for one constraint. *)
  Lemma bounds_orders dim nfree c : forall ds cnt b, b_len b (dim * nfree) -> cnt + length ds <= nfree ->
    exists b', ofold (bstep dim nfree c) ds (cnt, b) = Ok (cnt + length ds, b') /\ b_len b' (dim * nfree) /\
      forall k j, k < dim -> j < nfree -> pair_at b' (k * nfree + j) =
        match (if j <? cnt then None else nth_error ds (j - cnt)) with
        | Some d => if (Z.of_nat d =? fst c)%Z then (nopp (nabs (snd c)), nabs (snd c)) else pair_at b (k * nfree + j)
        | None => pair_at b (k * nfree + j)
        end.
  Proof.
    induction ds as [|d ds IH]; intros cnt b L Hc; cbn [ofold length] in *.
    - exists b. rewrite Nat.add_0_r. split; [reflexivity|]. split; [exact L|]. intros k j Hk Hj.
      destruct (j <? cnt); [reflexivity|]. destruct (j - cnt); reflexivity.
    - assert (Q : exists b1, (if (Z.of_nat d =? fst c)%Z
           then ofold (fun b k => bounds_set b (k * nfree + cnt) (snd c)) (seq 0 dim) b else Ok b) = Ok b1 /\
           b_len b1 (dim * nfree) /\ forall k j, k < dim -> j < nfree -> pair_at b1 (k * nfree + j) =
             if (Z.of_nat d =? fst c)%Z && (j =? cnt) then (nopp (nabs (snd c)), nabs (snd c)) else pair_at b (k * nfree + j)).
      { destruct (Z.of_nat d =? fst c)%Z; cbn [andb].
        - destruct (bounds_dims nfree cnt (snd c) ltac:(lia) dim 0 b) as (b1 & E1 & L1 & H1); [exact L|].
          exists b1. split; [exact E1|]. split; [exact L1|]. intros k j Hk Hj. rewrite H1 by exact Hj.
          destruct (Nat.leb_spec 0 k), (Nat.ltb_spec k (0 + dim)); try lia. reflexivity.
        - exists b. split; [reflexivity|]. split; [exact L|]. reflexivity. }
      destruct Q as (b1 & E1 & L1 & H1). unfold bstep at 1. cbn [fst snd]. rewrite E1. cbn [obind].
      destruct (IH (S cnt) b1 L1 ltac:(lia)) as (b' & E' & L' & H'). exists b'.
      split; [rewrite E'; f_equal; f_equal; lia|]. split; [exact L'|].
      intros k j Hk Hj. rewrite H' by assumption. rewrite H1 by assumption.
      destruct (Nat.ltb_spec j (S cnt)), (Nat.ltb_spec j cnt); try lia.
      + destruct (Nat.eqb_spec j cnt); [lia|]. rewrite andb_false_r. reflexivity.
      + assert (j = cnt) by lia. subst j. rewrite Nat.eqb_refl, Nat.sub_diag. cbn [nth_error]. rewrite andb_true_r. reflexivity.
      + destruct (Nat.eqb_spec j cnt); [lia|]. rewrite andb_false_r.
        replace (j - cnt) with (S (j - S cnt)) by lia. reflexivity.
  Qed.

  Lemma bounds_constraint_ok dim nfree r vs b c : b_len b (dim * nfree) ->
    length (unconstrained (Z.to_nat (r + 1)) vs) <= nfree ->
    exists b', bounds_constraint dim nfree r vs b c = Ok b' /\ b_len b' (dim * nfree) /\
      forall k j, k < dim -> j < nfree -> pair_at b' (k * nfree + j) =
        match nth_error (unconstrained (Z.to_nat (r + 1)) vs) j with
        | Some (_, d) => if (Z.of_nat d =? fst c)%Z then (nopp (nabs (snd c)), nabs (snd c)) else pair_at b (k * nfree + j)
        | None => pair_at b (k * nfree + j)
        end.
  Proof.
    intros L Hl. unfold bounds_constraint. rewrite bounds_vertices, <- unconstrained_orders.
    destruct (bounds_orders dim nfree c (map snd (unconstrained (Z.to_nat (r + 1)) vs)) 0 b L) as (b' & E & L' & H).
    { rewrite map_length. exact Hl. }
    rewrite E. cbn [obind snd]. exists b'. split; [reflexivity|]. split; [exact L'|].
    intros k j Hk Hj. rewrite H by assumption. cbn [Nat.ltb Nat.leb]. rewrite Nat.sub_0_r, nth_error_map.
    destruct (nth_error _ j) as [[v d]|]; reflexivity.
  Qed.

  Definition bound_pair (lim : option T) : T * T :=
    match lim with Some x => (nopp (nabs x), nabs x) | None => (dbl_lowest, dbl_max) end.

  Lemma nth_repeat_lt {A} (a d : A) m i : i < m -> nth i (repeat a m) d = a.
  Proof. revert i. induction m as [|m IH]; intros [|i] H; cbn; try lia; [reflexivity|]. apply IH. lia. Qed.

  Lemma endpoint_bounds_ok o con vs :
    length (unconstrained (Z.to_nat (o_deriv o + 1)) vs) <= o_nfree o ->
    exists b, endpoint_bounds o con vs = Ok b /\ b_len b (o_dim o * o_nfree o) /\
      forall k j, k < o_dim o -> j < o_nfree o -> pair_at b (k * o_nfree o + j) =
        bound_pair match nth_error (unconstrained (Z.to_nat (o_deriv o + 1)) vs) j with
                   | Some (_, d) => last_limit con (Z.of_nat d)
                   | None => None
                   end.
  Proof.
    intros Hl. unfold endpoint_bounds.
    assert (G : forall con b, b_len b (o_dim o * o_nfree o) ->
      exists b', ofold (bounds_constraint (o_dim o) (o_nfree o) (o_deriv o) vs) con b = Ok b' /\ b_len b' (o_dim o * o_nfree o) /\
        forall k j, k < o_dim o -> j < o_nfree o -> pair_at b' (k * o_nfree o + j) =
          match nth_error (unconstrained (Z.to_nat (o_deriv o + 1)) vs) j with
          | Some (_, d) => match last_limit con (Z.of_nat d) with
                           | Some x => (nopp (nabs x), nabs x) | None => pair_at b (k * o_nfree o + j) end
          | None => pair_at b (k * o_nfree o + j)
          end).
    { clear con. induction con as [|c con IH]; intros b L; cbn [ofold].
      - exists b. split; [reflexivity|]. split; [exact L|]. intros k j Hk Hj. destruct (nth_error _ j) as [[v d]|]; reflexivity.
      - destruct (bounds_constraint_ok _ _ _ vs b c L Hl) as (b1 & E1 & L1 & H1). rewrite E1. cbn [obind].
        destruct (IH b1 L1) as (b' & E' & L' & H'). exists b'. split; [exact E'|]. split; [exact L'|].
        intros k j Hk Hj. rewrite H' by assumption. rewrite H1 by assumption.
        destruct (nth_error _ j) as [[v d]|]; [|reflexivity]. destruct c as [cd cv]. cbn [last_limit fst snd].
        destruct (last_limit con (Z.of_nat d)); [reflexivity|]. rewrite (Z.eqb_sym cd).
        destruct (Z.of_nat d =? cd)%Z; reflexivity. }
    destruct (G con (repeat dbl_lowest (o_dim o * o_nfree o), repeat dbl_max (o_dim o * o_nfree o))) as (b & E & L & H).
    { split; cbn [fst snd]; apply repeat_length. }
    exists b. split; [exact E|]. split; [exact L|]. intros k j Hk Hj. rewrite H by assumption.
    assert (Q : pair_at (repeat dbl_lowest (o_dim o * o_nfree o), repeat dbl_max (o_dim o * o_nfree o)) (k * o_nfree o + j) =
                (dbl_lowest, dbl_max)).
    { unfold pair_at. cbn [fst snd]. rewrite !nth_repeat_lt by nia. reflexivity. }
    rewrite Q. destruct (nth_error _ j) as [[v d]|]; [|reflexivity]. destruct (last_limit _ _); reflexivity.
  Qed.
End Bounds.
