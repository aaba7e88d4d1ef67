(** Calculus: extrema of a differentiable function on a closed interval are at
    the end points or at zeros of the derivative. *)
From Coq Require Import Reals Lra Lia List Ranalysis.
From Coquelicot Require Import Coquelicot.
From Verif Require Import RSum SpecPoly.
Import ListNotations.
Open Scope R_scope.

Lemma continuity_pt_of_derive f f' (H : forall t, is_derive f t (f' t)) t : continuity_pt f t.
Proof.
  apply continuity_pt_filterlim. apply (ex_derive_continuous f). exists (f' t). apply H.
Qed.

Lemma max_exists (f f' : R -> R) a b :
  (forall t, is_derive f t (f' t)) -> a <= b ->
  exists x, a <= x <= b /\ (forall t, a <= t <= b -> f t <= f x) /\
            (x = a \/ x = b \/ (a < x < b /\ f' x = 0)).
Proof.
  intros Hd Hab.
  destruct (continuity_ab_maj f a b Hab) as [x [Hx1 Hx2]].
  { intros c _. apply (continuity_pt_of_derive f f' Hd). }
  exists x. split; [exact Hx2|]. split; [exact Hx1|].
  destruct (Req_dec x a) as [E|Na]; [left; exact E|].
  destruct (Req_dec x b) as [E|Nb]; [right; left; exact E|].
  right; right. split; [lra|].
  assert (Hpr : derivable_pt_lim f x (f' x)) by (apply is_derive_Reals, Hd).
  pose (pr := exist (fun l => derivable_pt_lim f x l) (f' x) Hpr : derivable_pt f x).
  pose proof (deriv_maximum f a b x pr) as Hm.
  assert (E : derive_pt f x pr = f' x) by reflexivity.
  rewrite <- E. apply Hm; try lra. intros t Ht1 Ht2. apply Hx1. lra.
Qed.

Lemma min_exists (f f' : R -> R) a b :
  (forall t, is_derive f t (f' t)) -> a <= b ->
  exists x, a <= x <= b /\ (forall t, a <= t <= b -> f x <= f t) /\
            (x = a \/ x = b \/ (a < x < b /\ f' x = 0)).
Proof.
  intros Hd Hab.
  destruct (max_exists (fun t => - f t) (fun t => - f' t) a b) as [x (H1 & H2 & H3)].
  - intros t. apply (is_derive_opp f). apply Hd.
  - exact Hab.
  - exists x. split; [exact H1|]. split.
    + intros t Ht. specialize (H2 t Ht). lra.
    + destruct H3 as [H3|[H3|[H3 H4]]]; [tauto|tauto|]. right; right. split; [exact H3|lra].
Qed.

Lemma constant_of_zero_derive (f f' : R -> R) a b :
  (forall t, is_derive f t (f' t)) -> (forall t, a < t < b -> f' t = 0) ->
  forall t, a <= t <= b -> f t = f a.
Proof.
  intros Hd Hz t Ht.
  destruct (Req_dec t a) as [->|Hne]; [reflexivity|].
  destruct (MVT_cor2 f f' a t) as [c [Hc1 Hc2]].
  - lra.
  - intros c _. apply is_derive_Reals, Hd.
  - rewrite Hz in Hc1 by lra. lra.
Qed.

(** A finite candidate list that contains the end points and all interior zeros
    of the derivative attains maximum and minimum. *)
Definition good_candidates (f' : R -> R) a b (cs : list R) : Prop :=
  In a cs /\ In b cs /\
  ((forall t, a < t < b -> f' t = 0) \/ (forall t, a < t < b -> f' t = 0 -> In t cs)).

Lemma candidates_max (f f' : R -> R) a b cs :
  (forall t, is_derive f t (f' t)) -> a <= b -> good_candidates f' a b cs ->
  exists x, In x cs /\ a <= x <= b /\ forall t, a <= t <= b -> f t <= f x.
Proof.
  intros Hd Hab (Ha & Hb & [Hz|Hz]).
  - exists a. split; [exact Ha|]. split; [lra|]. intros t Ht.
    rewrite (constant_of_zero_derive f f' a b Hd Hz t Ht). lra.
  - destruct (max_exists f f' a b Hd Hab) as [x (H1 & H2 & H3)].
    exists x. split; [|split; assumption].
    destruct H3 as [->|[->|[H3 H4]]]; [exact Ha|exact Hb|]. apply Hz; assumption.
Qed.

Lemma candidates_min (f f' : R -> R) a b cs :
  (forall t, is_derive f t (f' t)) -> a <= b -> good_candidates f' a b cs ->
  exists x, In x cs /\ a <= x <= b /\ forall t, a <= t <= b -> f x <= f t.
Proof.
  intros Hd Hab (Ha & Hb & [Hz|Hz]).
  - exists a. split; [exact Ha|]. split; [lra|]. intros t Ht.
    rewrite (constant_of_zero_derive f f' a b Hd Hz t Ht). lra.
  - destruct (min_exists f f' a b Hd Hab) as [x (H1 & H2 & H3)].
    exists x. split; [|split; assumption].
    destruct H3 as [->|[->|[H3 H4]]]; [exact Ha|exact Hb|]. apply Hz; assumption.
Qed.

Lemma first_argmin_le ev cs t v : first_argmin ev cs t v -> In t cs /\ forall x, In x cs -> v <= ev x.
Proof.
  intros (pre & post & -> & -> & H1 & H2). split.
  - apply in_or_app. right. left. reflexivity.
  - intros x Hx. apply in_app_or in Hx. destruct Hx as [Hx|[<-|Hx]].
    + left. apply H1, Hx.
    + lra.
    + apply H2, Hx.
Qed.

Lemma first_argmax_ge ev cs t v : first_argmax ev cs t v -> In t cs /\ forall x, In x cs -> ev x <= v.
Proof.
  intros (pre & post & -> & -> & H1 & H2). split.
  - apply in_or_app. right. left. reflexivity.
  - intros x Hx. apply in_app_or in Hx. destruct Hx as [Hx|[<-|Hx]].
    + left. apply H1, Hx.
    + lra.
    + apply H2, Hx.
Qed.
