(** Property C55 (input constraints). *)
From Coq Require Import ZArith Reals List Bool Lia Lra String.
From Flocq Require Import IEEE754.BinarySingleNaN.
From Verif Require Import Num RSum ModelVertex ProofVertex ModelYaml ModelInput ModelTiming ProofTiming ProofFloat PropLinear2.
Import ListNotations.

(** Laws of comparison on a set of numbers (the reals; the doubles but NaN). *)
Section Laws.
  Context {T : Type} {ops : NumOps T}.
  Variable good : T -> Prop.
  Record order_laws : Prop := mkLaws {
    ol_abs : forall x, good x -> good (nabs x);
    ol_abs2 : forall x, nabs (nabs x) = nabs x;
    ol_abs0 : forall x, good x -> nleb n0 (nabs x) = true;
    ol_total : forall a b, good a -> good b -> nltb a b = false -> nleb b a = true;
    ol_lt : forall a b, nltb a b = true -> nleb a b = true;
    ol_le : forall a b, nleb a b = true -> nltb b a = false
  }.
  Hypothesis L : order_laws.
  Variable cd : codec T.
  Variable pi : T.
  Definition fine (v : T) : Prop := good v /\ nabs v = v /\ nleb n0 v = true.
  Definition defaults_fine : Prop :=
    fine (nmul (nlit 1 2) kGravity) /\ fine (nmul (nlit 3 2) kGravity) /\ fine (nofZ 3) /\ fine (ndiv pi (nofZ 2)) /\ fine (nmul (nofZ 2) pi) /\
    nleb (nmul (nlit 1 2) kGravity) (nmul (nlit 3 2) kGravity) = true.
  Hypothesis HD : defaults_fine.

  Definition consistent (c : constraints) : Prop :=
    msorted c /\ (forall k v, map_find c k = Some v -> fine v) /\
    (forall f F, map_find c kFMin = Some f -> map_find c kFMax = Some F -> nleb f F = true).
  Definition node_good (node : ynode) : Prop :=
    forall type s v, y_get node (getInputConstraintName type) = Ok (Some (YScalar s)) -> parseD cd s = Some v -> good v.
  Definition call_good (call : icall) : Prop :=
    match call with IAdd _ v => good v | IFromYaml node => node_good node | _ => True end.

  Lemma consistent_nil : consistent [].
  Proof. split; [constructor|]. split; discriminate. Qed.

  Lemma fine_abs v : good v -> fine (nabs v).
  Proof. intros H. split; [apply ol_abs; assumption|]. split; [apply ol_abs2; assumption|apply ol_abs0; assumption]. Qed.

  Lemma add_find (c : constraints) type v k :
    map_find (addConstraint c type v) k =
      if Z.eq_dec k type then Some (nabs v)
      else if (type =? kFMin)%Z && (k =? kFMax)%Z then option_map (fun m => if nltb m (nabs v) then nabs v else m) (map_find c k)
      else if (type =? kFMax)%Z && (k =? kFMin)%Z then option_map (fun m => if nltb (nabs v) m then nabs v else m) (map_find c k)
      else map_find c k.
  Proof.
    unfold addConstraint, hasConstraint. rewrite map_find_set. destruct (Z.eq_dec k type) as [|Hk]; [reflexivity|].
    destruct (Z.eqb_spec type kFMin) as [->|H1]; cbn [andb].
    - destruct (map_find c kFMax) as [m|] eqn:E.
      + rewrite map_find_set. destruct (Z.eq_dec k kFMax) as [->|H2].
        * rewrite Z.eqb_refl, E. reflexivity.
        * rewrite (proj2 (Z.eqb_neq _ _) H2). replace (kFMin =? kFMax)%Z with false by reflexivity. reflexivity.
      + replace (kFMin =? kFMax)%Z with false by reflexivity. cbn [andb].
        destruct (Z.eqb_spec k kFMax) as [->|]; [rewrite E|]; reflexivity.
    - destruct (Z.eqb_spec type kFMax) as [->|H2]; cbn [andb]; [|reflexivity].
      destruct (map_find c kFMin) as [m|] eqn:E.
      + rewrite map_find_set. destruct (Z.eq_dec k kFMin) as [->|H3].
        * rewrite Z.eqb_refl, E. reflexivity.
        * rewrite (proj2 (Z.eqb_neq _ _) H3). reflexivity.
      + destruct (Z.eqb_spec k kFMin) as [->|]; [rewrite E|]; reflexivity.
  Qed.
  Lemma add_sorted (c : constraints) type v : msorted c -> msorted (addConstraint c type v).
  Proof.
    intros H. unfold addConstraint. apply map_set_sorted.
    destruct (_ && _)%bool; [destruct (map_find c kFMax); [apply map_set_sorted|]; exact H|].
    destruct (_ && _)%bool; [destruct (map_find c kFMin); [apply map_set_sorted|]; exact H|]. exact H.
  Qed.

  Lemma add_consistent c type v : consistent c -> good v -> consistent (addConstraint c type v).
  Proof.
    intros (S & F & O) Hv. split; [apply add_sorted, S|]. assert (Fv := fine_abs v Hv). split.
    - intros k w. rewrite add_find. destruct (Z.eq_dec k type); [intros E; injection E as <-; exact Fv|].
      destruct (_ && _)%bool; [|destruct (_ && _)%bool; [|apply F]].
      + destruct (map_find c k) as [m|] eqn:E; cbn [option_map]; [|discriminate]. intros Q. injection Q as <-. destruct (nltb m (nabs v)); [exact Fv|eapply F, E].
      + destruct (map_find c k) as [m|] eqn:E; cbn [option_map]; [|discriminate]. intros Q. injection Q as <-. destruct (nltb (nabs v) m); [exact Fv|eapply F, E].
    - intros f G. rewrite !add_find. assert (Hne : kFMin <> kFMax) by discriminate.
      assert (Refl : nleb (nabs v) (nabs v) = true).
      { destruct (nltb (nabs v) (nabs v)) eqn:E; [exact (ol_lt L _ _ E)|]. apply (ol_total L); [apply Fv|apply Fv|exact E]. }
      destruct (Z.eq_dec kFMin type) as [E1|E1]; destruct (Z.eq_dec kFMax type) as [E2|E2]; [congruence| | |].
      + subst type. rewrite !Z.eqb_refl. cbn [andb]. intros Q. injection Q as <-.
        destruct (map_find c kFMax) as [m|] eqn:E; cbn [option_map]; [|discriminate]. intros Q. injection Q as <-.
        destruct (nltb m (nabs v)) eqn:Q; [exact Refl|]. apply (ol_total L); [eapply F, E|apply Fv|exact Q].
      + subst type. rewrite !Z.eqb_refl. replace (kFMax =? kFMin)%Z with false by reflexivity. cbn [andb].
        destruct (map_find c kFMin) as [m|] eqn:E; cbn [option_map]; [|discriminate]. intros Q1 Q2. injection Q1 as <-. injection Q2 as <-.
        destruct (nltb (nabs v) m) eqn:Q; [exact Refl|]. apply (ol_total L); [apply Fv|eapply F, E|exact Q].
      + rewrite (proj2 (Z.eqb_neq type kFMin)) by congruence. rewrite (proj2 (Z.eqb_neq type kFMax)) by congruence. cbn [andb]. apply O.
  Qed.

  Lemma defaults_consistent c : consistent c -> consistent (setDefaultValues pi c).
  Proof.
    intros (S & F & O). destruct HD as (D1 & D2 & D3 & D4 & D5 & D6). unfold setDefaultValues.
    split; [repeat apply map_set_sorted; exact S|]. split.
    - intros k v. rewrite !map_find_set. repeat (destruct (Z.eq_dec _ _); [intros E; injection E as <-; assumption|]). apply F.
    - intros f G. rewrite !map_find_set. cbn. intros Q1 Q2. injection Q1 as <-. injection Q2 as <-. exact D6.
  Qed.
  Lemma remove_consistent c k : consistent c -> consistent (snd (removeConstraint c k)).
  Proof.
    intros (S & F & O). unfold removeConstraint. destruct (map_find c k) as [w|] eqn:E; cbn [snd]; [|split; [exact S|split; [exact F|exact O]]].
    split; [apply map_erase_sorted, S|]. split.
    - intros k' v. rewrite map_find_erase by exact S. destruct (Z.eq_dec k' k); [discriminate|apply F].
    - intros f G. rewrite !map_find_erase by exact S. destruct (Z.eq_dec _ _); [discriminate|]. destruct (Z.eq_dec _ _); [discriminate|apply O].
  Qed.
  Lemma yaml_consistent node c c' : consistent c -> node_good node -> ic_fromYaml cd node c = Ok c' -> consistent c'.
  Proof.
    intros C N. unfold ic_fromYaml.
    assert (G : forall l c0, consistent c0 -> ofold (ic_fromYaml1 cd node) l c0 = Ok c' -> consistent c').
    { induction l as [|k l IH]; intros c0 C0 H; [apply Ok_inj in H; subst; exact C0|]. cbn [ofold] in H.
      unfold ic_fromYaml1 in H at 1. destruct (y_get node (getInputConstraintName k)) as [n| | |] eqn:E; cbn [obind] in H; try discriminate.
      destruct n as [y|]; cbn [y_defined] in H.
      - unfold y_asDouble, y_as in H. destruct y as [|s| |]; cbn [obind] in H; try discriminate. destruct (parseD cd s) as [v|] eqn:Ep; cbn [obind] in H; try discriminate.
        eapply IH; [|exact H]. apply add_consistent; [exact C0|]. eapply N; eassumption.
      - cbn [obind] in H. eapply IH; eassumption. }
    apply G. exact C.
  Qed.
  Lemma run_consistent calls : forall c c', consistent c -> List.Forall call_good calls -> ofold (run_icall cd pi) calls c = Ok c' -> consistent c'.
  Proof.
    induction calls as [|a calls IH]; intros c c' C G H; [apply Ok_inj in H; subst; exact C|]. cbn [ofold] in H.
    inversion G as [|? ? Ga Gr]; subst. destruct (run_icall cd pi c a) as [c1| | |] eqn:E; cbn [obind] in H; try discriminate.
    apply (IH c1 c'); [|exact Gr|exact H]. destruct a; cbn [run_icall] in E; try (apply Ok_inj in E; subst c1).
    - apply add_consistent; assumption.
    - apply defaults_consistent, C.
    - apply remove_consistent, C.
    - eapply yaml_consistent; eassumption.
  Qed.

  (** Reading back. *)
  Definition known (k : Z) : Prop := (0 <= k <= 5)%Z.
  Lemma known_cases k : known k -> In k [kFMin; kFMax; kVMax; kOmegaXYMax; kOmegaZMax; kOmegaZDotMax].
  Proof. unfold known, kFMin, kFMax, kVMax, kOmegaXYMax, kOmegaZMax, kOmegaZDotMax. cbn [In]. lia. Qed.
  Lemma name_inj k k' : known k -> known k' -> getInputConstraintName k = getInputConstraintName k' -> k = k'.
  Proof.
    intros H H'. apply known_cases in H, H'. cbn [In] in H, H'.
    destruct H as [<-|[<-|[<-|[<-|[<-|[<-|[]]]]]]]; destruct H' as [<-|[<-|[<-|[<-|[<-|[<-|[]]]]]]]; cbn; try reflexivity; discriminate.
  Qed.
  Lemma assoc_put l k v k' : assoc (y_put l k v) k' = if String.eqb k' k then Some v else assoc l k'.
  Proof.
    induction l as [|(a & w) l IH]; cbn [y_put assoc].
    - destruct (String.eqb k' k); reflexivity.
    - destruct (String.eqb_spec k a) as [->|Hn]; cbn [assoc].
      + destruct (String.eqb_spec k' a); reflexivity.
      + rewrite IH. destruct (String.eqb_spec k' a) as [->|]; [|reflexivity]. rewrite (proj2 (String.eqb_neq _ _)) by congruence. reflexivity.
  Qed.
  Definition is_tree (y : yaml) : Prop := y = YNull \/ exists l, y = YMap l.
  Lemma set_get y k v k' : is_tree y -> is_tree (y_set y k v) /\
    y_get (Some (y_set y k v)) k' = if String.eqb k' k then Ok (Some v) else y_get (Some y) k'.
  Proof.
    intros [->|(l & ->)]; cbn [y_set y_get]; (split; [right; eauto|]).
    - cbn [assoc]. destruct (String.eqb k' k); reflexivity.
    - rewrite assoc_put. destruct (String.eqb k' k); reflexivity.
  Qed.
  Lemma toYaml_get (c : constraints) : forall y, NoDup (map fst c) -> (forall k, In k (map fst c) -> known k) -> is_tree y ->
    let y' := fold_left (fun node e => y_set node (getInputConstraintName (fst e)) (YScalar (fmtD cd (snd e)))) c y in
    is_tree y' /\ forall k, known k -> y_get (Some y') (getInputConstraintName k) =
      match map_find c k with Some v => Ok (Some (YScalar (fmtD cd v))) | None => y_get (Some y) (getInputConstraintName k) end.
  Proof.
    induction c as [|(a & v) c IH]; intros y N K Y; cbn [fold_left map_find].
    - split; [exact Y|reflexivity].
    - cbn [map fst] in N, K. inversion N as [|? ? N1 N2]; subst.
      destruct (set_get y (getInputConstraintName a) (YScalar (fmtD cd v)) (getInputConstraintName a) Y) as (Y1 & _).
      specialize (IH (y_set y (getInputConstraintName a) (YScalar (fmtD cd v))) N2 ltac:(intros; apply K; right; assumption) Y1). cbn [fst snd]. destruct IH as (T1 & G).
      split; [exact T1|]. intros k Hk. rewrite (G k Hk).
      destruct (set_get y (getInputConstraintName a) (YScalar (fmtD cd v)) (getInputConstraintName k) Y) as (_ & G1). rewrite G1.
      destruct (Z.eqb_spec k a) as [->|Hne].
      + rewrite (proj2 (map_find_None c a)) by exact N1. rewrite String.eqb_refl. reflexivity.
      + rewrite (proj2 (String.eqb_neq _ _)); [reflexivity|]. intros E. apply Hne, name_inj; [exact Hk|apply K; left; reflexivity|exact E].
  Qed.

  Definition read_step (c d : constraints) (k : Z) : constraints := match map_find c k with Some v => addConstraint d k v | None => d end.
  Lemma read_back (c : constraints) (d : constraints) : consistent c -> (forall k v, map_find c k = Some v -> known k /\ parseD cd (fmtD cd v) = Some v) ->
    exists d', ic_fromYaml cd (Some (ic_toYaml cd c)) d = Ok d' /\
      (forall k v, map_find c k = Some v -> map_find d' k = Some v) /\
      (d = [] -> forall k, map_find d' k = map_find c k).
  Proof.
    intros (S & F & O) K.
    assert (N : NoDup (map fst c)) by (apply msorted_NoDup, S).
    assert (Kn : forall k, In k (map fst c) -> known k).
    { intros k H. apply in_map_iff in H. destruct H as ((k' & v) & E & H). cbn [fst] in E. subst k'. apply In_map_find in H; [|exact S]. apply (K k v H). }
    destruct (toYaml_get c YNull N Kn (or_introl eq_refl)) as (_ & G). fold (ic_toYaml cd c) in G.
    assert (St : forall k d0, known k -> ic_fromYaml1 cd (Some (ic_toYaml cd c)) d0 k = Ok (read_step c d0 k)).
    { intros k d0 Hk. unfold ic_fromYaml1, read_step. rewrite (G k Hk). destruct (map_find c k) as [v|] eqn:E; cbn [obind y_get y_defined]; [|reflexivity].
      unfold y_asDouble, y_as. destruct (K k v E) as (_ & ->). reflexivity. }
    assert (Ab : forall k v, map_find c k = Some v -> nabs v = v) by (intros k v H; apply (F k v H)).
    exists (fold_left (read_step c) [kFMin; kFMax; kVMax; kOmegaXYMax; kOmegaZMax; kOmegaZDotMax] d).
    split. { unfold ic_fromYaml. cbn [ofold fold_left]. repeat (rewrite St by (unfold known; cbv; split; discriminate); cbn [obind]). reflexivity. }
    assert (Step : forall k d0 j, map_find (read_step c d0 k) j =
       match map_find c k with
       | None => map_find d0 j
       | Some v => if Z.eq_dec j k then Some v
                   else if (k =? kFMin)%Z && (j =? kFMax)%Z then option_map (fun m => if nltb m v then v else m) (map_find d0 j)
                   else if (k =? kFMax)%Z && (j =? kFMin)%Z then option_map (fun m => if nltb v m then v else m) (map_find d0 j)
                   else map_find d0 j
       end).
    { intros k d0 j. unfold read_step. destruct (map_find c k) as [v|] eqn:E; [|reflexivity]. rewrite add_find, (Ab k v E). reflexivity. }
    assert (other : forall k d0 j, j <> k -> ~ (k = kFMin /\ j = kFMax) -> ~ (k = kFMax /\ j = kFMin) -> map_find (read_step c d0 k) j = map_find d0 j).
    { intros k d0 j H1 H2 H3. rewrite Step. destruct (map_find c k); [|reflexivity]. destruct (Z.eq_dec j k); [congruence|].
      destruct (Z.eqb_spec k kFMin); destruct (Z.eqb_spec j kFMax); cbn [andb]; try tauto;
      destruct (Z.eqb_spec k kFMax); destruct (Z.eqb_spec j kFMin); cbn [andb]; tauto. }
    assert (self : forall k d0 v, map_find c k = Some v -> map_find (read_step c d0 k) k = Some v).
    { intros k d0 v H. rewrite Step, H. destruct (Z.eq_dec k k); congruence. }
    assert (none : forall k d0 j, map_find c j = None -> map_find d0 j = None -> map_find (read_step c d0 k) j = None).
    { intros k d0 j H1 H2. rewrite Step, H2. destruct (map_find c k) eqn:E; [|reflexivity]. destruct (Z.eq_dec j k); [congruence|].
      destruct (_ && _)%bool; [reflexivity|]. destruct (_ && _)%bool; reflexivity. }
    assert (fmin : forall d0 v, map_find c kFMin = Some v -> map_find d0 kFMin = Some v -> map_find (read_step c d0 kFMax) kFMin = Some v).
    { intros d0 v H1 H2. rewrite Step, H2. destruct (map_find c kFMax) as [w|] eqn:E; [|reflexivity]. cbn.
      rewrite (ol_le L v w); [reflexivity|]. exact (O v w H1 eq_refl). }
    assert (Main : forall k v, map_find c k = Some v -> map_find (fold_left (read_step c) [kFMin; kFMax; kVMax; kOmegaXYMax; kOmegaZMax; kOmegaZDotMax] d) k = Some v).
    { intros k v H. destruct (K k v H) as (Hk & _). apply known_cases in Hk. cbn [In] in Hk. cbn [fold_left].
      destruct Hk as [<-|[<-|[<-|[<-|[<-|[<-|[]]]]]]];
        repeat (rewrite other by (unfold kFMin, kFMax, kVMax, kOmegaXYMax, kOmegaZMax, kOmegaZDotMax; lia));
        try (apply self; exact H).
      apply fmin; [exact H|apply self; exact H]. }
    split; [exact Main|].
    intros -> k. destruct (map_find c k) as [v|] eqn:H; [apply Main, H|].
    cbn [fold_left]. repeat (apply none; [exact H|]). reflexivity.
  Qed.
End Laws.

(** The real numbers satisfy the laws. *)
Lemma R_laws : order_laws (T := R) (fun _ => True).
Proof.
  split; cbn; intros.
  - trivial.
  - apply Rabs_Rabsolu.
  - unfold n0. cbn. apply Rleb_true. apply Rabs_pos.
  - apply Rleb_true. apply Rltb_false in H1. lra.
  - apply Rleb_true. apply Rltb_true in H. lra.
  - apply Rltb_false. apply Rleb_true in H. lra.
Qed.
Lemma R_defaults : defaults_fine (T := R) (fun _ => True) PI.
Proof.
  assert (P := PI_RGT_0). unfold defaults_fine, fine, kGravity, nlit, n0. cbn.
  repeat split; try (apply Rabs_pos_eq; lra); try (apply Rleb_true; lra).
Qed.
(** So do the doubles that are not NaN. *)
Definition notnan (x : b64) : Prop := is_nan x = false.
Lemma b64_laws : @order_laws b64 B64_ops notnan.
Proof.
  assert (Tot : forall a b : b64, notnan a -> notnan b -> b64_cmp a b <> None).
  { unfold notnan, b64_cmp. intros [s|s| |s m e B] [s'|s'| |s' m' e' B']; cbn; try discriminate; intros _ _; destruct s; try destruct s'; cbn; discriminate. }
  split.
  - intros [s|s| |s m e B]; cbn; unfold notnan; cbn; auto.
  - intros [s|s| |s m e B]; reflexivity.
  - intros [s|s| |s m e B]; unfold notnan; cbn; try discriminate; reflexivity.
  - intros a b Ha Hb. cbn. assert (Q := Tot a b Ha Hb). unfold b64_cmp in *. rewrite (Bcompare_swap 53 1024 a b).
    destruct (Bcompare a b) as [[]|]; cbn; congruence.
  - intros a b. cbn. destruct (b64_cmp a b) as [[]|]; congruence.
  - intros a b. cbn. unfold b64_cmp. rewrite (Bcompare_swap 53 1024 a b). destruct (Bcompare a b) as [[]|]; cbn; congruence.
Qed.
(** M_PI *)
Definition pi64 : b64 := @ndiv b64 B64_ops (f64 884279719003555) (f64 (2 ^ 48)).
Definition fineb (v : b64) : bool :=
  negb (is_nan v) && @nleb b64 B64_ops (@n0 b64 B64_ops) v && match v with B754_finite s _ _ _ => negb s | _ => false end.
Lemma fineb_fine v : fineb v = true -> @fine b64 B64_ops notnan v.
Proof.
  unfold fineb, fine, notnan. destruct v as [s|s| |s m e B]; rewrite ?andb_false_r; try discriminate. intros H.
  apply andb_prop in H. destruct H as (H & Hs). apply andb_prop in H. destruct H as (H1 & H2).
  split; [reflexivity|]. split; [|exact H2]. destruct s; [discriminate|reflexivity].
Qed.
Lemma b64_defaults : @defaults_fine b64 B64_ops notnan pi64.
Proof.
  unfold defaults_fine. repeat split; try (apply fineb_fine; vm_compute; reflexivity).
Qed.

(** ** C55 *)
(** Real numbers: any sequence of operations on a new object. *)
Theorem C55_consistent (cd : codec R) (calls : list icall) (c : constraints) :
  ofold (run_icall cd PI) calls [] = Ok c ->
  (forall k v, getConstraint c k = Some v -> (0 <= v)%R) /\
  (forall f F, getConstraint c kFMin = Some f -> getConstraint c kFMax = Some F -> (f <= F)%R).
Proof.
  intros H. destruct (run_consistent _ R_laws cd PI R_defaults calls [] c (consistent_nil _)) as (_ & F & O); [|exact H|].
  { apply List.Forall_forall. intros [ | | | ] _; cbn; try exact I. intros type s v _ _. exact I. }
  split.
  - intros k v E. destruct (F k v E) as (_ & _ & Q). apply Rleb_true in Q. exact Q.
  - intros f G E1 E2. assert (Q := O f G E1 E2). apply Rleb_true in Q. exact Q.
Qed.
Print Assumptions C55_consistent.

(** Doubles: any sequence in which no added or parsed number is NaN. *)
Theorem C55_consistent_doubles (cd : codec b64) (calls : list icall) (c : constraints) :
  (forall type v, In (IAdd type v) calls -> is_nan v = false) ->
  (forall s v, parseD cd s = Some v -> is_nan v = false) ->
  ofold (@run_icall b64 B64_ops cd pi64) calls [] = Ok c ->
  (forall k v, getConstraint c k = Some v -> @nleb b64 B64_ops (@n0 b64 B64_ops) v = true) /\
  (forall f F, getConstraint c kFMin = Some f -> getConstraint c kFMax = Some F -> @nleb b64 B64_ops f F = true).
Proof.
  intros Ha Hp H. destruct (run_consistent _ b64_laws cd pi64 b64_defaults calls [] c (consistent_nil _)) as (_ & F & O); [|exact H|].
  { apply List.Forall_forall. intros [type v| | | ] Hin; cbn; try exact I; [exact (Ha _ _ Hin)|]. intros type s v _ E. exact (Hp s v E). }
  split.
  - intros k v E. apply (F k v E).
  - exact O.
Qed.
Print Assumptions C55_consistent_doubles.

(** The last value set for a type is the one returned, unless a thrust limit had
    to follow the other. *)
Theorem C55_add (c : @constraints R) (type k : Z) (v : R) :
  getConstraint (addConstraint c type v) type = Some (Rabs v) /\
  (k <> type -> ~ (type = kFMin /\ k = kFMax) -> ~ (type = kFMax /\ k = kFMin) ->
   getConstraint (addConstraint c type v) k = getConstraint c k) /\
  (forall m, getConstraint c kFMax = Some m -> getConstraint (addConstraint c kFMin v) kFMax = Some (Rmax m (Rabs v))) /\
  (forall m, getConstraint c kFMin = Some m -> getConstraint (addConstraint c kFMax v) kFMin = Some (Rmin m (Rabs v))).
Proof.
  unfold getConstraint. rewrite !add_find. split; [destruct (Z.eq_dec type type); [reflexivity|congruence]|]. split; [|split].
  - intros H1 H2 H3. destruct (Z.eq_dec k type); [congruence|].
    destruct (Z.eqb_spec type kFMin); destruct (Z.eqb_spec k kFMax); cbn [andb]; try tauto;
    destruct (Z.eqb_spec type kFMax); destruct (Z.eqb_spec k kFMin); cbn [andb]; tauto.
  - intros m E. rewrite ?add_find, E. cbn. f_equal. destruct (Rltb_spec m (Rabs v)); [rewrite Rmax_right|rewrite Rmax_left]; lra.
  - intros m E. rewrite ?add_find, E. cbn. f_equal. destruct (Rltb_spec (Rabs v) m); [rewrite Rmin_right|rewrite Rmin_left]; lra.
Qed.
Print Assumptions C55_add.

(** Removing: gone, the others kept, and the result tells whether it was there. *)
Theorem C55_remove {T} {ops : NumOps T} good (c : @constraints T) (type k : Z) :
  consistent good c ->
  getConstraint (snd (removeConstraint c type)) type = None /\
  (k <> type -> getConstraint (snd (removeConstraint c type)) k = getConstraint c k) /\
  fst (removeConstraint c type) = hasConstraint c type.
Proof.
  intros (S & _). unfold removeConstraint, getConstraint, hasConstraint. destruct (map_find c type) as [v|] eqn:E; cbn [fst snd].
  - rewrite !map_find_erase by exact S. destruct (Z.eq_dec type type); [|congruence]. split; [reflexivity|]. split; [|reflexivity].
    intros H. destruct (Z.eq_dec k type); [congruence|reflexivity].
  - split; [exact E|]. split; reflexivity.
Qed.
Print Assumptions C55_remove.

(** Writing and reading: an object holding only the six types is reproduced on a
    new object; on any object its own values are. *)
Theorem C55_roundtrip {T} {ops : NumOps T} (good : T -> Prop) (cd : codec T) (pi : T) (calls : list icall) (c d : constraints) :
  order_laws good -> defaults_fine good pi -> List.Forall (call_good good cd) calls ->
  ofold (run_icall cd pi) calls [] = Ok c ->
  (forall k v, getConstraint c k = Some v -> (0 <= k <= 5)%Z /\ parseD cd (fmtD cd v) = Some v) ->
  exists d', ic_fromYaml cd (Some (ic_toYaml cd c)) d = Ok d' /\
    (forall k v, getConstraint c k = Some v -> getConstraint d' k = Some v) /\
    (d = [] -> forall k, getConstraint d' k = getConstraint c k).
Proof.
  intros L D G H K. apply (read_back good L); [|exact K]. exact (run_consistent good L cd pi D calls [] c (consistent_nil _) G H).
Qed.
Print Assumptions C55_roundtrip.

(** A text format that reads back 0, 1, ... *)
Definition ex_codec : codec R := mkCodec R
  (fun x => if Req_EM_T x 2 then "2" else if Req_EM_T x 3 then "3" else "?")%string
  (fun s => if String.eqb s "2" then Some 2%R else if String.eqb s "3" then Some 3%R else if String.eqb s "-7" then Some (-7)%R else None)
  (fun _ => ""%string) (fun _ => None) (fun _ => None).
Example C55_example : exists c,
  ofold (run_icall ex_codec PI) [IAdd kFMax 2; IAdd kFMin (-3); IAdd kVMax 2; IRemove 4; IFromYaml (Some (YMap [("v_max", YScalar "3")]))]%string [] = Ok c /\
  getConstraint c kFMin = Some (Rabs (-3)) /\ getConstraint c kVMax = Some (Rabs 3) /\
  order_laws (T := R) (fun _ => True) /\ defaults_fine (T := R) (fun _ => True) PI.
Proof.
  eexists. split; [reflexivity|]. split; [reflexivity|]. split; [reflexivity|]. split; [exact R_laws|exact R_defaults].
Qed.
Example C55_roundtrip_example : exists c,
  ofold (run_icall ex_codec PI) [IAdd kFMin 2; IAdd kFMax (-3)] [] = Ok c /\
  (forall k v, getConstraint c k = Some v -> (0 <= k <= 5)%Z /\ parseD ex_codec (fmtD ex_codec v) = Some v).
Proof.
  eexists. split; [reflexivity|]. intros k v. unfold getConstraint. rewrite add_find. cbn [run_icall]. unfold addConstraint, hasConstraint. cbn.
  rewrite (Rabs_pos_eq 2) by lra. rewrite (Rabs_left (-3)) by lra.
  destruct (Z.eq_dec k kFMax) as [->|].
  - intros E. injection E as <-. split; [unfold kFMax; lia|]. cbn. replace (- -3)%R with 3%R by lra.
    destruct (Req_EM_T 3 2); [lra|]. destruct (Req_EM_T 3 3); [reflexivity|lra].
  - destruct (Z.eqb_spec k kFMin) as [->|Hk].
    + cbn. intros E. injection E as <-. split; [unfold kFMin; lia|]. destruct (Rltb_spec (- -3) 2); [lra|]. destruct (Req_EM_T 2 2); [reflexivity|lra].
    + destruct k as [|[]|]; cbn; try discriminate; exfalso; (apply Hk; reflexivity) || congruence.
Qed.

(** NaN is stored. *)
Theorem C55_nan_refuted : exists (v w : b64) (c : constraints),
  ofold (@run_icall b64 B64_ops (mkCodec b64 (fun _ => ""%string) (fun _ => None) (fun _ => ""%string) (fun _ => None) (fun _ => None)) pi64) [IAdd kFMin v; IAdd kFMax w] [] = Ok c /\
  exists f F, getConstraint c kFMin = Some f /\ getConstraint c kFMax = Some F /\ @nleb b64 B64_ops f F = false /\
    @nleb b64 B64_ops (@n0 b64 B64_ops) F = false.
Proof.
  exists (B754_infinity false), B754_nan. eexists. split; [reflexivity|]. eexists _, _. split; [reflexivity|]. split; [reflexivity|]. split; reflexivity.
Qed.
Print Assumptions C55_nan_refuted.

(** Types that are not among the six are accepted and lost when written. *)
Theorem C55_unknown_type_refuted : exists (c d : @constraints R),
  ofold (run_icall ex_codec PI) [IAdd 6 2; IAdd 7 3] [] = Ok c /\
  ic_fromYaml ex_codec (Some (ic_toYaml ex_codec c)) [] = Ok d /\ getConstraint c 6 = Some (Rabs 2) /\ getConstraint d 6 = None /\
  exists v, ic_toYaml ex_codec c = YMap [("Unknown!", v)]%string.
Proof.
  eexists _, _. split; [reflexivity|]. split; [reflexivity|]. split; [reflexivity|]. split; [reflexivity|]. eexists. reflexivity.
Qed.
Print Assumptions C55_unknown_type_refuted.

(** A node that is not a map, or a value that is not a number, throws. *)
Theorem C55_malformed_refuted : exists (n1 n2 : ynode),
  ic_fromYaml ex_codec n1 [] = Throw /\ ic_fromYaml ex_codec n2 [] = Throw.
Proof. exists (Some (YScalar "x")), (Some (YMap [("f_min", YScalar "high")]))%string. split; reflexivity. Qed.
Print Assumptions C55_malformed_refuted.
