From Coq Require Import ZArith Reals List Bool Lia Lra Sorted.
From Coquelicot Require Import Coquelicot.
From Verif Require Import Num RSum ModelPolynomial ModelVertex SpecVertex.
Import ListNotations.

Section Map.
  Context {A : Type}.
  Implicit Types m : list (Z * A).
  Definition msorted m := StronglySorted Z.lt (map fst m).

  Lemma map_find_None m k : map_find m k = None <-> ~ In k (map fst m).
  Proof.
    induction m as [|[k' v] m IH]; simpl; [tauto|].
    destruct (Z.eqb_spec k k'); split; intro H.
    - discriminate.
    - exfalso; apply H; auto.
    - rewrite IH in H. intros [E|E]; [congruence|auto].
    - apply IH. intro; apply H; auto.
  Qed.
  Lemma map_find_In m k v : map_find m k = Some v -> In (k, v) m.
  Proof.
    induction m as [|[k' v'] m IH]; simpl; [discriminate|].
    destruct (Z.eqb_spec k k'); intro H.
    - injection H as ->; subst; auto.
    - auto.
  Qed.
  Lemma In_map_find m k v : msorted m -> In (k, v) m -> map_find m k = Some v.
  Proof.
    induction m as [|[k' v'] m IH]; simpl; [tauto|].
    intros Hs H. inversion Hs as [|? ? Hs' Hf]; subst.
    destruct H as [H|H].
    - injection H as -> ->. now rewrite Z.eqb_refl.
    - destruct (Z.eqb_spec k k').
      + subst. rewrite Forall_forall in Hf.
        specialize (Hf k' (in_map fst _ _ H)). lia.
      + auto.
  Qed.
  Lemma map_find_set m k v k' :
    map_find (map_set m k v) k' = if Z.eq_dec k' k then Some v else map_find m k'.
  Proof.
    induction m as [|[k0 v0] m IH]; simpl.
    - destruct (Z.eqb_spec k' k); destruct Z.eq_dec; congruence.
    - destruct (Z.eqb_spec k k0).
      + simpl. destruct (Z.eqb_spec k' k); destruct Z.eq_dec; try congruence.
        destruct (Z.eqb_spec k' k0); congruence.
      + destruct (Z.ltb_spec k k0); simpl.
        * destruct (Z.eqb_spec k' k); destruct Z.eq_dec; congruence.
        * rewrite IH. destruct (Z.eqb_spec k' k0); destruct Z.eq_dec; congruence.
  Qed.
  Lemma map_set_keys m k v x : In x (map fst (map_set m k v)) -> x = k \/ In x (map fst m).
  Proof.
    induction m as [|[k0 v0] m IH]; simpl; [intuition|].
    destruct (Z.eqb_spec k k0); simpl; [intuition|].
    destruct (Z.ltb_spec k k0); simpl; intuition.
  Qed.
  Lemma map_set_sorted m k v : msorted m -> msorted (map_set m k v).
  Proof.
    unfold msorted. induction m as [|[k0 v0] m IH]; simpl; intro Hs.
    - repeat constructor.
    - inversion Hs as [|? ? Hs' Hf]; subst.
      destruct (Z.eqb_spec k k0); simpl.
      + subst. constructor; auto.
      + destruct (Z.ltb_spec k k0); simpl.
        * constructor; auto. constructor; auto.
          eapply Forall_impl; [|exact Hf]. simpl; intros; lia.
        * constructor; auto. rewrite Forall_forall in *. intros x Hx.
          apply map_set_keys in Hx as [->|Hx]; [lia|auto].
  Qed.
  Lemma map_find_erase m k k' : msorted m ->
    map_find (map_erase m k) k' = if Z.eq_dec k' k then None else map_find m k'.
  Proof.
    induction m as [|[k0 v0] m IH]; simpl; intro Hs.
    - destruct Z.eq_dec; auto.
    - inversion Hs as [|? ? Hs' Hf]; subst.
      destruct (Z.eqb_spec k k0); simpl.
      + subst. destruct Z.eq_dec.
        * subst. apply map_find_None. intro H. rewrite Forall_forall in Hf. specialize (Hf _ H). lia.
        * destruct (Z.eqb_spec k' k0); congruence.
      + rewrite IH by auto. destruct (Z.eqb_spec k' k0); destruct Z.eq_dec; congruence.
  Qed.
  Lemma map_erase_keys m k x : In x (map fst (map_erase m k)) -> In x (map fst m).
  Proof.
    induction m as [|[k0 v0] m IH]; simpl; auto.
    destruct (Z.eqb_spec k k0); simpl; intuition.
  Qed.
  Lemma map_erase_sorted m k : msorted m -> msorted (map_erase m k).
  Proof.
    unfold msorted. induction m as [|[k0 v0] m IH]; simpl; intro Hs; auto.
    inversion Hs as [|? ? Hs' Hf]; subst.
    destruct (Z.eqb_spec k k0); simpl; auto.
    constructor; auto. rewrite Forall_forall in *. intros x Hx. apply map_erase_keys in Hx. auto.
  Qed.
  Lemma map_erase_absent m k : map_find m k = None -> map_erase m k = m.
  Proof.
    induction m as [|[k0 v0] m IH]; simpl; auto.
    destruct (Z.eqb_spec k k0); [discriminate|]. intro; f_equal; auto.
  Qed.
  Lemma Forall_map_set (P : Z * A -> Prop) m k v :
    List.Forall P m -> P (k, v) -> List.Forall P (map_set m k v).
  Proof.
    induction m as [|[k0 v0] m IH]; simpl; intros H Hk; auto.
    inversion H; subst. destruct (k =? k0)%Z; auto. destruct (k <? k0)%Z; auto.
  Qed.
  Lemma Forall_map_erase (P : Z * A -> Prop) m k :
    List.Forall P m -> List.Forall P (map_erase m k).
  Proof.
    induction m as [|[k0 v0] m IH]; simpl; intros H; auto.
    inversion H; subst. destruct (k =? k0)%Z; auto.
  Qed.
  Lemma msorted_NoDup m : msorted m -> NoDup (map fst m).
  Proof.
    unfold msorted. induction (map fst m) as [|k l IH]; intro Hs; constructor.
    - inversion Hs as [|? ? Hs' Hf]; subst. intro H. rewrite Forall_forall in Hf.
      specialize (Hf _ H). lia.
    - inversion Hs; auto.
  Qed.
End Map.

Section Vertex.
  Context {T : Type} {ops : NumOps T}.

  Lemma vertex_add_wf (v : vertex T) d x v' : vertex_wf v -> vertex_add v d x = Ok v' ->
    vertex_wf v' /\ v_D v' = v_D v /\ length x = v_D v /\
    forall k, vertex_get v' k = if Z.eq_dec k d then Some x else vertex_get v k.
  Proof.
    unfold vertex_add. destruct (Nat.eqb_spec (length x) (v_D v)); [|discriminate].
    intros [Hs Hf] H. injection H as <-. repeat split; auto; simpl.
    - now apply map_set_sorted.
    - now apply Forall_map_set.
    - intro k. unfold vertex_get; simpl. apply map_find_set.
  Qed.
  Lemma vertex_add_ok (v : vertex T) d x : length x = v_D v -> exists v', vertex_add v d x = Ok v'.
  Proof. intro H. unfold vertex_add. rewrite H, Nat.eqb_refl. eauto. Qed.

  Lemma make_loop n : forall v, vertex_wf v ->
    let v' := fold_left (fun v i => mkVertex (v_D v) (map_set (v_con v) (Z.of_nat i) (repeat n0 (v_D v))))
                  (seq 1 n) v in
    vertex_wf v' /\ v_D v' = v_D v /\
    forall k, vertex_get v' k =
      if Z_le_dec 1 k then (if Z_le_dec k (Z.of_nat n) then Some (repeat n0 (v_D v)) else vertex_get v k)
      else vertex_get v k.
  Proof.
    induction n as [|n IH]; intros v Hv.
    - simpl. split; [auto|]. split; [auto|]. intro k.
      destruct Z_le_dec; auto. destruct Z_le_dec; auto. lia.
    - rewrite seq_S, fold_left_app. specialize (IH v Hv).
      set (w := fold_left _ (seq 1 n) v) in *. cbv zeta in IH. destruct IH as ([Hs Hf] & HD & Hg).
      simpl fold_left. split; [split|split]; simpl.
      + now apply map_set_sorted.
      + apply Forall_map_set; auto. simpl. apply repeat_length.
      + auto.
      + intro k. unfold vertex_get at 1; simpl v_con. rewrite map_find_set.
        specialize (Hg k). unfold vertex_get at 1 in Hg. rewrite Hg, HD.
        destruct Z.eq_dec; repeat destruct Z_le_dec; auto; try lia.
  Qed.

  Lemma vertex_new_wf D : vertex_wf (@vertex_new T D).
  Proof. split; constructor. Qed.

  Lemma vertex_makeStartOrEnd_spec v x up :
    vertex_wf v ->
    (length x = v_D v ->
     exists v', vertex_makeStartOrEnd v x up = Ok v' /\ vertex_wf v' /\ v_D v' = v_D v /\
       forall k, vertex_get v' k =
         if Z.eq_dec k 0 then Some x
         else if Z_le_dec 1 k then (if Z_le_dec k up then Some (repeat n0 (v_D v)) else vertex_get v k)
         else vertex_get v k) /\
    (length x <> v_D v -> vertex_makeStartOrEnd v x up = Abort).
  Proof.
    intro Hv. unfold vertex_makeStartOrEnd. split; intro H.
    - destruct (vertex_add_ok v kPosition x H) as [v1 H1]. rewrite H1. simpl.
      destruct (vertex_add_wf _ _ _ _ Hv H1) as (W1 & D1 & _ & G1).
      destruct (make_loop (Z.to_nat up) v1 W1) as (W2 & D2 & G2).
      eexists; split; [reflexivity|]. split; [exact W2|]. split; [congruence|].
      intro k. rewrite G2, G1, D1.
      unfold kPosition in *.
      destruct (Z.eq_dec k 0); repeat destruct Z_le_dec; auto; try lia.
    - unfold vertex_add. destruct (Nat.eqb_spec (length x) (v_D v)); [contradiction|reflexivity].
  Qed.

  Lemma run_vop_spec (v : vertex T) f o : vertex_wf v -> (forall k, vertex_get v k = f k) ->
    match spec_vop (v_D v) f o with
    | None => run_vop v o = Abort
    | Some g => exists v', run_vop v o = Ok v' /\ vertex_wf v' /\ v_D v' = v_D v /\
                           forall k, vertex_get v' k = g k
    end.
  Proof.
    intros Hv Hf. destruct o as [d x|d x|d|x up|x up]; simpl.
    - destruct (Nat.eq_dec (length x) (v_D v)) as [E|E].
      + destruct (vertex_add_ok v d x E) as [v' H]. exists v'.
        destruct (vertex_add_wf _ _ _ _ Hv H) as (W & D & _ & G). repeat split; auto; try apply W.
        intro k. rewrite G. destruct Z.eq_dec; auto.
      + unfold vertex_add. destruct (Nat.eqb_spec (length x) (v_D v)); [contradiction|reflexivity].
    - eexists; split; [reflexivity|]. destruct Hv as [Hs Hl]. repeat split; simpl.
      + now apply map_set_sorted.
      + apply Forall_map_set; auto. apply repeat_length.
      + intro k. unfold vertex_get; simpl. rewrite map_find_set. destruct Z.eq_dec; auto. apply Hf.
    - eexists; split; [reflexivity|]. unfold vertex_remove. destruct Hv as [Hs Hl].
      destruct (map_find (v_con v) d) eqn:E; simpl.
      + repeat split; simpl.
        * now apply map_erase_sorted.
        * now apply Forall_map_erase.
        * intro k. unfold vertex_get; simpl. rewrite map_find_erase by auto.
          destruct Z.eq_dec; auto. apply Hf.
      + repeat split; auto. intro k. destruct Z.eq_dec; auto. subst. exact E.
    - destruct (vertex_makeStartOrEnd_spec v x up Hv) as [H1 H2].
      destruct (Nat.eq_dec (length x) (v_D v)) as [E|E]; [|auto].
      destruct (H1 E) as (v' & R & W & D & G). exists v'. repeat split; auto; try apply W.
      intro k. rewrite G. repeat (destruct Z.eq_dec || destruct Z_le_dec); auto.
    - destruct (vertex_makeStartOrEnd_spec v (repeat x (v_D v)) up Hv) as [H1 _].
      destruct (H1 (repeat_length _ _)) as (v' & R & W & D & G). exists v'.
      repeat split; auto; try apply W.
      intro k. rewrite G. repeat (destruct Z.eq_dec || destruct Z_le_dec); auto.
  Qed.

  Lemma run_vops_spec l : forall v f, vertex_wf v -> (forall k, vertex_get v k = f k) ->
    match spec_vops (v_D v) f l with
    | None => ofold run_vop l v = Abort
    | Some g => exists v', ofold run_vop l v = Ok v' /\ vertex_wf v' /\ v_D v' = v_D v /\
                           forall k, vertex_get v' k = g k
    end.
  Proof.
    induction l as [|o l IH]; intros v f Hv Hf; simpl.
    - exists v; auto.
    - pose proof (run_vop_spec v f o Hv Hf) as H.
      destruct (spec_vop (v_D v) f o) as [g|].
      + destruct H as (v' & R & W & D & G). rewrite R. simpl.
        specialize (IH v' g W G). rewrite D in IH. exact IH.
      + now rewrite H.
  Qed.

  Lemma vertex_finite_map (D : nat) (l : list (vop T)) :
    match spec_vops D (fun _ => None) l with
    | None => ofold run_vop l (vertex_new D) = Abort
    | Some f =>
        exists v, ofold run_vop l (vertex_new D) = Ok v /\ v_D v = D /\
          (forall k, vertex_get v k = f k) /\
          (forall k, vertex_has v k = true <-> f k <> None) /\
          (exists keys, NoDup keys /\ (forall k, In k keys <-> f k <> None) /\
                        vertex_count v = length keys) /\
          (forall k, fst (vertex_remove v k) = true <-> f k <> None)
    end.
  Proof.
    pose proof (run_vops_spec l (vertex_new D) (fun _ => None) (vertex_new_wf D)
                  (fun _ => eq_refl)) as H.
    simpl in H. destruct (spec_vops D _ l) as [f|]; auto.
    destruct H as (v & R & [Hs Hl] & HD & G). exists v. split; [auto|]. split; [auto|].
    split; [auto|].
    assert (Hh : forall k, map_find (v_con v) k <> None <-> f k <> None).
    { intro k. rewrite <- G. reflexivity. }
    split; [|split].
    - intro k. rewrite <- Hh. unfold vertex_has. destruct map_find; split; congruence.
    - exists (map fst (v_con v)). split; [now apply msorted_NoDup|]. split.
      + intro k. rewrite <- Hh, map_find_None. destruct (in_dec Z.eq_dec k (map fst (v_con v))); tauto.
      + unfold vertex_count. now rewrite map_length.
    - intro k. rewrite <- Hh. unfold vertex_remove. destruct map_find; simpl; split; congruence.
  Qed.

  (** isEqualTol *)
  Lemma equal_tol_loop_spec tol (rhs : list (Z * list T)) D :
    List.Forall (fun c => length (snd c) = D) rhs ->
    forall m, List.Forall (fun c => length (snd c) = D) m ->
    exists b, equal_tol_loop m rhs tol = Ok b /\
      (b = true <-> forall k x, In (k, x) m -> exists y, map_find rhs k = Some y /\
          forall i, (i < D)%nat -> nleb (nabs (nsub (nth i x n0) (nth i y n0))) tol = true).
  Proof.
    intros Hr m. induction m as [|[k x] m IH]; intro Hm; simpl.
    - exists true. split; auto. split; auto. intros _ ? ? [].
    - apply Forall_cons_iff in Hm as [Hx Hm']. simpl in Hx. destruct (IH Hm') as (b & Eb & Hb).
      destruct (map_find rhs k) as [y|] eqn:Ek.
      + assert (Hy : length y = D).
        { apply map_find_In in Ek. rewrite Forall_forall in Hr. apply (Hr _ Ek). }
        unfold diff_isZero. rewrite Hx, Hy, Nat.eqb_refl. cbn [obind].
        assert (Hall : forallb (fun p => nleb (nabs (nsub (fst p) (snd p))) tol) (combine x y) = true <->
                 forall i, (i < D)%nat -> nleb (nabs (nsub (nth i x n0) (nth i y n0))) tol = true).
        { rewrite forallb_forall. split; intros H.
          - intros i Hi. apply (H (nth i x n0, nth i y n0)).
            rewrite <- combine_nth by congruence. apply nth_In. rewrite combine_length. lia.
          - intros p Hp. apply (In_nth _ _ (n0, n0)) in Hp as (i & Hi & <-).
            rewrite combine_nth by congruence. apply H. rewrite combine_length in Hi. lia. }
        destruct (forallb _ _).
        * exists b. split; [auto|]. rewrite Hb. split; intros H k' x'.
          -- intros [E|E]; [injection E as <- <-; exists y; tauto|auto].
          -- intro; apply H; auto.
        * exists false. split; auto. split; [discriminate|]. intro H.
          destruct (H k x) as (y' & E' & Hy'); auto. rewrite Ek in E'. injection E' as <-.
          apply Hall in Hy'. discriminate.
      + exists false. split; auto. split; [discriminate|]. intro H.
        destruct (H k x) as (y' & E' & Hy'); auto. congruence.
  Qed.

  Lemma isEqualTol_spec (v w : vertex T) tol :
    vertex_wf v -> vertex_wf w -> v_D v = v_D w ->
    exists b, vertex_isEqualTol v w tol = Ok b /\
      (b = true <->
       forall k, match vertex_get v k, vertex_get w k with
                 | Some x, Some y =>
                     forall i, (i < v_D v)%nat -> nleb (nabs (nsub (nth i x n0) (nth i y n0))) tol = true
                 | None, None => True
                 | _, _ => False
                 end).
  Proof.
    intros [Hs Hl] [Hs' Hl'] HD. unfold vertex_isEqualTol.
    destruct (Nat.eqb_spec (length (v_con v)) (length (v_con w))) as [E|E]; simpl.
    - rewrite <- HD in Hl'.
      destruct (equal_tol_loop_spec tol (v_con w) (v_D v) Hl' (v_con v) Hl) as (b & Eb & Hb).
      exists b. split; auto. rewrite Hb. split; intros H.
      + intro k. unfold vertex_get. destruct (map_find (v_con v) k) as [x|] eqn:Ev.
        * apply map_find_In in Ev. destruct (H _ _ Ev) as (y & -> & Hy). auto.
        * destruct (map_find (v_con w) k) as [y|] eqn:Ew; auto.
          assert (Hincl : incl (map fst (v_con w)) (map fst (v_con v))).
          { apply NoDup_length_incl.
            - now apply msorted_NoDup.
            - rewrite !map_length; lia.
            - intros k' Hk'. apply in_map_iff in Hk' as ([k1 x1] & E1 & Hin). simpl in E1. subst.
              destruct (H _ _ Hin) as (y1 & Hf1 & _). apply map_find_In in Hf1.
              apply (in_map fst _ _ Hf1). }
          apply map_find_In in Ew. apply (in_map fst) in Ew. apply Hincl in Ew. simpl in Ew.
          apply map_find_None in Ev. contradiction.
      + intros k x Hin. specialize (H k). unfold vertex_get in H.
        rewrite (In_map_find (v_con v) k x) in H by auto.
        destruct (map_find (v_con w) k); [eauto|tauto].
    - exists false. split; auto. split; [discriminate|]. intro H. exfalso. apply E.
      rewrite <- (map_length fst (v_con v)), <- (map_length fst (v_con w)).
      apply Nat.le_antisymm; apply NoDup_incl_length; try now apply msorted_NoDup.
      + intros k Hk. specialize (H k). unfold vertex_get in H.
        destruct (in_dec Z.eq_dec k (map fst (v_con w))); auto. exfalso.
        apply map_find_None in n. rewrite n in H.
        destruct (map_find (v_con v) k) eqn:Ev; auto. apply map_find_None in Ev. auto.
      + intros k Hk. specialize (H k). unfold vertex_get in H.
        destruct (in_dec Z.eq_dec k (map fst (v_con v))); auto. exfalso.
        apply map_find_None in n. rewrite n in H.
        destruct (map_find (v_con w) k) eqn:Ev; auto. apply map_find_None in Ev. auto.
  Qed.

  (** getSubdimension *)
  Lemma omap_oget_nth (x : list T) dims :
    (forall k, In k dims -> (k < length x)%nat) ->
    omap (oget x) dims = Ok (map (fun k => nth k x n0) dims).
  Proof.
    induction dims as [|k dims IH]; intro H; simpl; auto.
    unfold oget at 1. rewrite (nth_error_nth' x n0) by (apply H; simpl; auto). simpl.
    rewrite IH by (intros; apply H; simpl; auto). reflexivity.
  Qed.

  Lemma subdimension_loop D dims max : (forall k, In k dims -> (k < D)%nat) ->
    forall m sv, msorted m -> List.Forall (fun c => length (snd c) = D) m ->
    vertex_wf sv -> v_D sv = length dims ->
    (forall k, In k (map fst m) -> vertex_get sv k = None) ->
    exists r, ofold (fun sv c =>
                     if (max <? fst c)%Z then Ok sv
                     else x <-- omap (oget (snd c)) dims ;;
                          vertex_add sv (fst c) x) m sv = Ok r /\
      vertex_wf r /\ v_D r = length dims /\
      forall k, vertex_get r k =
        match (if (k <=? max)%Z then map_find m k else None) with
        | Some x => Some (map (fun j => nth j x n0) dims)
        | None => vertex_get sv k
        end.
  Proof.
    intros Hd m. induction m as [|[k x] m IH]; intros sv Hm Hl Hw HD Hn; simpl.
    - exists sv. repeat split; auto; try apply Hw. intro k. destruct (k <=? max)%Z; auto.
    - inversion Hm as [|? ? Hm' Hf]; subst. apply Forall_cons_iff in Hl as [Hx Hl']. simpl in Hx.
      destruct (Z.ltb_spec max k) as [Hk|Hk].
      + cbn [obind]. destruct (IH sv) as (r & E & W & DD & G); auto.
        { intros; apply Hn; simpl; auto. }
        exists r. repeat split; auto; try apply W. intro k'. rewrite G.
        destruct (Z.leb_spec k' max) as [Hk'|Hk']; auto.
        destruct (Z.eqb_spec k' k); auto. lia.
      + rewrite omap_oget_nth by (rewrite Hx; auto). cbn [obind].
        destruct (vertex_add_ok sv k (map (fun j => nth j x n0) dims)) as [sv' E].
        { rewrite map_length; auto. }
        rewrite E. destruct (vertex_add_wf _ _ _ _ Hw E) as (W & DD & _ & G).
        destruct (IH sv') as (r & E' & W' & DD' & G'); auto.
        { congruence. }
        { intros k' Hk'. rewrite G. destruct Z.eq_dec.
          - subst. rewrite Forall_forall in Hf. specialize (Hf _ Hk'). lia.
          - apply Hn; simpl; auto. }
        exists r. split; [exact E'|]. split; [auto|]. split; [auto|].
        intro k'. rewrite G', G.
        destruct (Z.eqb_spec k' k).
        * subst. destruct (Z.leb_spec k max); try lia.
          destruct (map_find m k) eqn:Ef.
          { apply map_find_In in Ef. apply (in_map fst) in Ef. rewrite Forall_forall in Hf.
            specialize (Hf _ Ef). simpl in Hf. lia. }
          destruct Z.eq_dec; [auto|contradiction].
        * destruct (k' <=? max)%Z; destruct Z.eq_dec; try contradiction; try (destruct (map_find m k')); auto.
  Qed.

  Lemma getSubdimension_spec (v : vertex T) dims max :
    vertex_wf v ->
    ((forall k, In k dims -> (k < v_D v)%nat) ->
     exists sub, vertex_getSubdimension v dims max = Ok (true, sub) /\ vertex_wf sub /\
       v_D sub = length dims /\
       forall k, vertex_get sub k =
         if (k <=? max)%Z
         then option_map (fun x => map (fun j => nth j x n0) dims) (vertex_get v k)
         else None) /\
    ((exists k, In k dims /\ (v_D v <= k)%nat) ->
     vertex_getSubdimension v dims max = Ok (false, vertex_new (length dims))).
  Proof.
    intros [Hs Hl]. unfold vertex_getSubdimension. split; intro H.
    - destruct (existsb _ dims) eqn:E.
      { apply existsb_exists in E as (k & Hk & E). apply Nat.leb_le in E. specialize (H k Hk). lia. }
      destruct (subdimension_loop (v_D v) dims max H (v_con v) (vertex_new (length dims)))
        as (r & Er & W & D & G); auto.
      { apply vertex_new_wf. }
      rewrite Er. simpl. exists r. repeat split; auto; try apply W.
      intro k. rewrite G. destruct (k <=? max)%Z; simpl; auto.
    - replace (existsb _ dims) with true; auto. symmetry. apply existsb_exists.
      destruct H as (k & Hk & H). exists k. split; auto. now apply Nat.leb_le.
  Qed.
End Vertex.
