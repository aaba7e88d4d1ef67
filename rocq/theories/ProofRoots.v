(** A nonzero polynomial with n coefficients has fewer than n roots, and a
    perfect root finder (over the reals) exists.  Used to show that hypotheses
    on the root finder can be met. *)
From Coq Require Import ZArith Reals List Bool Lia Lra Classical_Prop.
From Verif Require Import RSum SpecPoly ModelPolynomial ProofPolynomial.
Import ListNotations.
Open Scope R_scope.

Lemma poly_fun_cons a c t : poly_fun (a :: c) t = a + t * poly_fun c t.
Proof.
  unfold poly_fun. cbn [length]. rewrite rsum_S_l. cbn [nth pow]. rewrite <- rsum_scal.
  f_equal; [ring|]. apply rsum_ext. intros i _. ring.
Qed.

Lemma poly_fun_nth_seq (f : nat -> R) n t :
  poly_fun (map f (seq 0 n)) t = rsum n (fun i => f i * t ^ i).
Proof.
  unfold poly_fun. rewrite map_length, seq_length. apply rsum_ext. intros i Hi.
  now rewrite nth_map_seq.
Qed.
Lemma poly_fun_ge c n t : (length c <= n)%nat -> poly_fun c t = rsum n (fun i => nth i c 0 * t ^ i).
Proof.
  intro H. unfold poly_fun. symmetry. apply rsum_ge_len; auto.
  intros i Hi. rewrite nth_overflow by auto. ring.
Qed.

Lemma deflate r : forall c, c <> [] -> exists q, length q = (length c - 1)%nat /\
  forall t, poly_fun c t = poly_fun c r + (t - r) * poly_fun q t.
Proof.
  induction c as [|a c IH]; intro Hne; [congruence|].
  destruct c as [|b c].
  - exists []. split; auto. intro t. unfold poly_fun. cbn. ring.
  - destruct IH as (q & Lq & Hq); [discriminate|].
    set (c' := b :: c) in *.
    exists (map (fun i => nth i c' 0 + r * nth i q 0) (seq 0 (length c'))).
    split; [rewrite map_length, seq_length; subst c'; simpl; lia|].
    intro t. rewrite !(poly_fun_cons a c').
    rewrite poly_fun_nth_seq.
    assert (E : rsum (length c') (fun i => (nth i c' 0 + r * nth i q 0) * t ^ i) =
                poly_fun c' t + r * poly_fun q t).
    { rewrite (poly_fun_ge q (length c')) by lia. unfold poly_fun.
      rewrite <- rsum_scal, <- rsum_plus. apply rsum_ext. intros. ring. }
    rewrite E. rewrite (Hq t). ring.
Qed.

Lemma distinct_roots_zero : forall n c l, length c = n -> NoDup l -> length l = n ->
  (forall r, In r l -> poly_fun c r = 0) -> forall t, poly_fun c t = 0.
Proof.
  induction n as [|n IH]; intros c l Lc Nd Ll Hr t.
  - destruct c; [reflexivity|simpl in Lc; lia].
  - destruct l as [|r l]; [simpl in Ll; lia|].
    destruct (deflate r c) as (q & Lq & Hq); [intros ->; simpl in Lc; lia|].
    assert (Hr0 : poly_fun c r = 0) by (apply Hr; now left).
    rewrite Hq, Hr0. rewrite (IH q l); [ring|lia|now inversion Nd|simpl in Ll; lia|].
    intros r' Hr'. assert (r' <> r) by (inversion Nd; subst; intros ->; contradiction).
    specialize (Hq r'). rewrite (Hr r') in Hq by now right. rewrite Hr0 in Hq.
    apply Rmult_eq_reg_l with (r' - r); [lra|lra].
Qed.

Lemma excluded_middle_dec (P : Prop) : {P} + {~ P}.
Proof.
  destruct (ClassicalDedekindReals.sig_not_dec P) as [H|H].
  - left. now apply NNPP.
  - now right.
Qed.

Lemma unique_real (P : R -> Prop) : (exists x, P x) -> (forall x y, P x -> P y -> x = y) -> {x | P x}.
Proof.
  intros He Hu. destruct (completeness (fun t => exists m, P m /\ t <= m)) as [s Hs].
  - destruct He as [m Hm]. exists m. intros t (m' & Hm' & Ht). now rewrite (Hu m m').
  - destruct He as [m Hm]. exists m, m. split; [auto|lra].
  - exists s. destruct He as [m Hm]. assert (s = m) as ->; auto.
    destruct Hs as [Hub Hl]. apply Rle_antisym.
    + apply Hl. intros t (m' & Hm' & Ht). now rewrite (Hu m m').
    + apply Hub. exists m. split; [auto|lra].
Qed.

Section Perfect.
  Variable c : list R.
  Definition below (b : option R) (t : R) : Prop := match b with None => True | Some x => t < x end.
  Definition largest (b : option R) (m : R) : Prop :=
    below b m /\ poly_fun c m = 0 /\ forall t, below b t -> poly_fun c t = 0 -> t <= m.
  Lemma largest_unique b x y : largest b x -> largest b y -> x = y.
  Proof. intros (H1 & H2 & H3) (H4 & H5 & H6). apply Rle_antisym; auto. Qed.

  Fixpoint roots_below (n : nat) (b : option R) : list R :=
    match n with
    | O => []
    | S k =>
        match excluded_middle_dec (exists m, largest b m) with
        | left H => let m := proj1_sig (unique_real _ H (largest_unique b)) in
                    m :: roots_below k (Some m)
        | right _ => []
        end
    end.

  Hypothesis nonzero : exists t, poly_fun c t <> 0.

  Lemma few_roots l : NoDup l -> (forall r, In r l -> poly_fun c r = 0) -> (length l < length c)%nat.
  Proof.
    intros Nd Hr. destruct (Nat.lt_ge_cases (length l) (length c)) as [H|H]; auto. exfalso.
    destruct nonzero as [t Ht]. apply Ht.
    apply (distinct_roots_zero (length c) c (firstn (length c) l)); auto.
    - clear -Nd. revert l Nd. induction (length c) as [|n IH]; intros l Nd; [constructor|].
      destruct l as [|x l]; simpl; [constructor|]. inversion Nd; subst. constructor; auto.
      intro Hin. apply H1. clear -Hin. revert l Hin. induction n as [|n IH]; intros [|y l] Hin; simpl in *; auto; try tauto.
      destruct Hin; auto.
    - rewrite firstn_length. lia.
    - intros r Hin. apply Hr. clear -Hin. revert l Hin.
      induction (length c) as [|n IH]; intros [|y l] Hin; simpl in *; auto; try tauto. destruct Hin; auto.
  Qed.

  (** Roots below b strictly decreasing from the head. *)
  Lemma no_largest_many b : ~ (exists m, largest b m) -> (exists t, below b t /\ poly_fun c t = 0) ->
    forall k, exists h l, length l = k /\ NoDup (h :: l) /\ below b h /\
      (forall r, In r (h :: l) -> poly_fun c r = 0 /\ r <= h).
  Proof.
    intros Hn (t0 & Hb0 & Hr0). induction k as [|k (h & l & Ll & Nd & Hb & Hr)].
    - exists t0, []. split; auto. split; [constructor; [simpl; tauto|constructor]|]. split; auto.
      intros r [<-|[]]. split; [auto|lra].
    - destruct (classic (exists h', below b h' /\ poly_fun c h' = 0 /\ h < h')) as [(h' & Hb' & Hr' & Hlt)|Hno].
      + exists h', (h :: l). split; [simpl; lia|]. split.
        { constructor; auto. intro Hin. destruct (Hr h' Hin). lra. }
        split; auto. intros r [<-|Hin]; [split; [auto|lra]|]. destruct (Hr r Hin). split; [auto|lra].
      + exfalso. apply Hn. exists h. split; auto. split; [apply Hr; now left|].
        intros t Ht Hrt. destruct (Rle_lt_dec t h); auto. exfalso. apply Hno. eauto.
  Qed.
  Lemma largest_exists b : (exists t, below b t /\ poly_fun c t = 0) -> exists m, largest b m.
  Proof.
    intro H. apply NNPP. intro Hn. destruct (no_largest_many b Hn H (length c)) as (h & l & Ll & Nd & _ & Hr).
    pose proof (few_roots (h :: l) Nd (fun r Hin => proj1 (Hr r Hin))). simpl in H0. lia.
  Qed.

  Lemma roots_below_complete : forall n b t, below b t -> poly_fun c t = 0 ->
    In t (roots_below n b) \/
    exists l, length l = n /\ NoDup l /\ forall r, In r l -> poly_fun c r = 0 /\ t < r /\ below b r.
  Proof.
    induction n as [|n IH]; intros b t Hb Ht; cbn [roots_below].
    - right. exists []. split; auto. split; [constructor|]. simpl. tauto.
    - destruct (excluded_middle_dec (exists m, largest b m)) as [H|H].
      2:{ exfalso. apply H. apply largest_exists. eauto. }
      cbv zeta. destruct (unique_real _ H (largest_unique b)) as [m Hm]. cbn [proj1_sig].
      pose proof Hm as (H1 & H2 & H3). specialize (H3 t Hb Ht).
      destruct (Req_dec t m) as [->|Hne]; [left; now left|].
      destruct (IH (Some m) t) as [Hin|(l & Ll & Nd & Hl)]; auto.
      + simpl. lra.
      + left. now right.
      + right. exists (m :: l). split; [simpl; lia|]. split.
        { constructor; auto. intro Hin. destruct (Hl m Hin) as (_ & _ & Hx). simpl in Hx. lra. }
        intros r [<-|Hin]; [split; [auto|split; [lra|auto]]|].
        destruct (Hl r Hin) as (Ha & Hc & Hd). split; auto. split; auto. simpl in Hd.
        destruct b; simpl in *; lra.
  Qed.
  Lemma roots_complete t : poly_fun c t = 0 -> In t (roots_below (length c) None).
  Proof.
    intro Ht. destruct (roots_below_complete (length c) None t) as [H|(l & Ll & Nd & Hl)]; simpl; auto.
    exfalso. pose proof (few_roots l Nd (fun r Hr => proj1 (Hl r Hr))). lia.
  Qed.
End Perfect.


Definition perfect_rf (cs : list R) : bool * list (R * R) :=
  (true, map (fun x => (x, 0)) (roots_below cs (length cs) None)).
Lemma perfect_rf_ok : perfect_root_finder perfect_rf.
Proof.
  intros cs a b. destruct (classic (exists t, poly_fun cs t <> 0)) as [H|H].
  - right. intros t _ Ht. exists 0. split.
    + rewrite Rabs_R0. left. apply Rinv_0_lt_compat. apply pow_lt. lra.
    + simpl. apply (in_map (fun x => (x, 0))). now apply roots_complete.
  - left. intros t _. apply NNPP. intro Hn. apply H. eauto.
Qed.
