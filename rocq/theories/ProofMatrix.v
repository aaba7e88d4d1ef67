(** Finite-dimensional linear algebra over R on index functions: elimination,
    inverses of injective square matrices, and the Fredholm alternative. *)
From Coq Require Import Reals List Lia Lra Arith Classical.
From Verif Require Import RSum.
Import ListNotations.
Open Scope R_scope.

(** Skipping index p. *)
Definition skip (p k : nat) : nat := if Nat.ltb k p then k else S k.

Lemma rsum_skip m p f : (p <= m)%nat -> rsum (S m) f = f p + rsum m (fun k => f (skip p k)).
Proof.
  intros Hp. replace (S m) with (p + S (m - p))%nat by lia. rewrite rsum_split, rsum_S_l.
  replace m with (p + (m - p))%nat at 2 by lia. rewrite rsum_split.
  rewrite (rsum_ext p (fun k => f (skip p k)) f).
  2:{ intros i Hi. unfold skip. destruct (Nat.ltb_spec i p); [reflexivity|lia]. }
  rewrite (rsum_ext (m - p) (fun i => f (skip p (p + i)%nat)) (fun i => f (p + S i)%nat)).
  2:{ intros i Hi. unfold skip. destruct (Nat.ltb_spec (p + i) p); [lia|]. f_equal. lia. }
  rewrite Nat.add_0_r. lra.
Qed.

Lemma skip_ne p k : skip p k <> p.
Proof. unfold skip. destruct (Nat.ltb_spec k p); lia. Qed.

Lemma skip_lt p m k : (k < m)%nat -> (skip p k < S m)%nat.
Proof. unfold skip. destruct (Nat.ltb_spec k p); lia. Qed.

(** Inverse of skip. *)
Definition unskip (p j : nat) : nat := if Nat.ltb j p then j else (j - 1)%nat.
Lemma unskip_skip p k : unskip p (skip p k) = k.
Proof.
  unfold unskip, skip. destruct (Nat.ltb_spec k p).
  - destruct (Nat.ltb_spec k p); lia.
  - destruct (Nat.ltb_spec (S k) p); lia.
Qed.

(** Extend a vector over the skipped indices by the value v at p. *)
Definition extend (p : nat) (v : R) (x : nat -> R) (j : nat) : R :=
  if Nat.eqb j p then v else x (unskip p j).
Lemma extend_p p v x : extend p v x p = v.
Proof. unfold extend. rewrite Nat.eqb_refl. reflexivity. Qed.
Lemma extend_skip p v x k : extend p v x (skip p k) = x k.
Proof.
  unfold extend. destruct (Nat.eqb_spec (skip p k) p) as [E|_]; [destruct (skip_ne _ _ E)|].
  rewrite unskip_skip. reflexivity.
Qed.

Lemma rsum_extend m p v x a : (p <= m)%nat ->
  rsum (S m) (fun k => a k * extend p v x k) = a p * v + rsum m (fun k => a (skip p k) * x k).
Proof.
  intros Hp. rewrite (rsum_skip m p) by exact Hp. rewrite extend_p. f_equal.
  apply rsum_ext. intros; rewrite extend_skip; reflexivity.
Qed.

Lemma row_zero_or_pivot m (a : nat -> R) :
  (forall k, (k < m)%nat -> a k = 0) \/ exists p, (p < m)%nat /\ a p <> 0.
Proof.
  destruct (classic (exists p, (p < m)%nat /\ a p <> 0)) as [H|H]; [right; exact H|left].
  intros k Hk. destruct (Req_dec (a k) 0) as [E|E]; [exact E|].
  exfalso. apply H. exists k. auto.
Qed.

(** n + 1 or more vectors of length n are linearly dependent. *)
Lemma dependent n : forall m (A : nat -> nat -> R), (n < m)%nat ->
  exists x, (exists j, (j < m)%nat /\ x j <> 0) /\
    forall i, (i < n)%nat -> rsum m (fun k => A i k * x k) = 0.
Proof.
  induction n as [|n IH]; intros m A Hm.
  - exists (fun _ => 1). split; [exists 0%nat; split; [lia|lra]|]. intros; lia.
  - destruct (row_zero_or_pivot m (A n)) as [Hz|(p & Hp & Hpv)].
    + destruct (IH m A) as (x & Hx & E); [lia|]. exists x. split; [exact Hx|].
      intros i Hi. destruct (Nat.eq_dec i n) as [->|]; [|apply E; lia].
      apply rsum_zero. intros k Hk. rewrite Hz by exact Hk. lra.
    + destruct m as [|m]; [lia|].
      destruct (IH m (fun i k => A i (skip p k) - A i p * A n (skip p k) / A n p)) as (x & (j & Hj & Hxj) & E); [lia|].
      exists (extend p (- rsum m (fun k => A n (skip p k) * x k) / A n p) x). split.
      { exists (skip p j). split; [apply skip_lt; exact Hj|]. rewrite extend_skip. exact Hxj. }
      intros i Hi. rewrite (rsum_extend m p _ _ (A i)) by lia.
      destruct (Nat.eq_dec i n) as [->|Hn]; [field; exact Hpv|].
      assert (E' := E i ltac:(lia)). cbn beta in E'.
      rewrite (rsum_ext m _ (fun k => A i (skip p k) * x k - (A i p / A n p) * (A n (skip p k) * x k))) in E'
        by (intros; field; exact Hpv).
      rewrite rsum_minus, rsum_scal in E'.
      replace (A i p * (- rsum m (fun k => A n (skip p k) * x k) / A n p))
        with (- (A i p / A n p * rsum m (fun k => A n (skip p k) * x k))) by (field; exact Hpv).
      lra.
Qed.

Definition delta (i j : nat) : R := if Nat.eqb i j then 1 else 0.

Lemma rsum_delta_l n i f : (i < n)%nat -> rsum n (fun k => delta i k * f k) = f i.
Proof.
  intros Hi. rewrite <- (rsum_delta n i f Hi) at 1. apply rsum_ext. intros k Hk.
  unfold delta. rewrite (Nat.eqb_sym i k). destruct (Nat.eqb_spec k i); lra.
Qed.
Lemma rsum_delta_r n i f : (i < n)%nat -> rsum n (fun k => f k * delta k i) = f i.
Proof.
  intros Hi. rewrite <- (rsum_delta n i f Hi) at 1. apply rsum_ext. intros k Hk.
  unfold delta. destruct (Nat.eqb_spec k i); lra.
Qed.

(** Associativity of products. *)
Lemma rsum_assoc n m (a : nat -> R) (B : nat -> nat -> R) (c : nat -> R) :
  rsum n (fun i => a i * rsum m (fun j => B i j * c j)) =
  rsum m (fun j => rsum n (fun i => a i * B i j) * c j).
Proof.
  rewrite (rsum_ext n _ (fun i => rsum m (fun j => a i * B i j * c j))).
  2:{ intros i _. rewrite <- rsum_scal. apply rsum_ext. intros; ring. }
  rewrite rsum_swap. apply rsum_ext. intros j _. rewrite <- rsum_scal_r. reflexivity.
Qed.

Definition injective (n : nat) (A : nat -> nat -> R) : Prop :=
  forall x, (forall i, (i < n)%nat -> rsum n (fun k => A i k * x k) = 0) ->
            forall i, (i < n)%nat -> x i = 0.

Lemma injective_solve n A (b : nat -> R) : injective n A ->
  exists x, forall i, (i < n)%nat -> rsum n (fun k => A i k * x k) = b i.
Proof.
  intros HA. destruct (dependent n (S n) (fun i k => if Nat.eqb k n then b i else A i k)) as (x & (j & Hj & Hxj) & E); [lia|].
  assert (E' : forall i, (i < n)%nat -> rsum n (fun k => A i k * x k) + b i * x n = 0).
  { intros i Hi. specialize (E i Hi). cbn [rsum] in E. rewrite Nat.eqb_refl in E.
    rewrite <- E. f_equal. apply rsum_ext. intros k Hk. destruct (Nat.eqb_spec k n); [lia|reflexivity]. }
  destruct (Req_dec (x n) 0) as [Hn|Hn].
  - exfalso. apply Hxj. destruct (Nat.eq_dec j n) as [->|]; [exact Hn|].
    apply HA; [|lia]. intros i Hi. specialize (E' i Hi). rewrite Hn in E'. lra.
  - exists (fun k => - x k / x n). intros i Hi. specialize (E' i Hi).
    rewrite (rsum_ext n _ (fun k => (- / x n) * (A i k * x k))) by (intros; field; exact Hn).
    rewrite rsum_scal. apply (Rmult_eq_reg_r (x n)); [|exact Hn].
    replace (- / x n * rsum n (fun k => A i k * x k) * x n) with (- rsum n (fun k => A i k * x k)) by (field; exact Hn).
    lra.
Qed.

Lemma choice_fin {A} (P : nat -> A -> Prop) (dflt : A) n :
  (forall i, (i < n)%nat -> exists x, P i x) -> exists f, forall i, (i < n)%nat -> P i (f i).
Proof.
  induction n as [|n IH]; intros H; [exists (fun _ => dflt); intros; lia|].
  destruct IH as (f & Hf); [intros i Hi; apply H; lia|]. destruct (H n) as (x & Hx); [lia|].
  exists (fun i => if Nat.eqb i n then x else f i). intros i Hi.
  destruct (Nat.eqb_spec i n) as [->|]; [exact Hx|apply Hf; lia].
Qed.

(** An injective square matrix has a two-sided inverse. *)
Lemma injective_inverse n A : injective n A ->
  exists B, (forall i j, (i < n)%nat -> (j < n)%nat -> rsum n (fun k => A i k * B k j) = delta i j) /\
            (forall i j, (i < n)%nat -> (j < n)%nat -> rsum n (fun k => B i k * A k j) = delta i j).
Proof.
  intros HA.
  destruct (choice_fin (fun j x => forall i, (i < n)%nat -> rsum n (fun k => A i k * x k) = delta i j) (fun _ => 0) n)
    as (f & Hf).
  { intros j _. apply injective_solve. exact HA. }
  exists (fun k j => f j k). split; [intros i j Hi Hj; apply Hf; assumption|].
  intros i j Hi Hj.
  assert (E : rsum n (fun k => f k i * A k j) - delta i j = 0); [|lra].
  refine (HA (fun l => rsum n (fun k => f k l * A k j) - delta l j) _ i Hi). intros l Hl.
  rewrite (rsum_ext n _ (fun k => A l k * rsum n (fun k0 => f k0 k * A k0 j) - A l k * delta k j)) by (intros; ring).
  rewrite rsum_minus, rsum_delta_r by exact Hj.
  rewrite (rsum_assoc n n (A l) (fun i j => f j i) (fun k => A k j)).
  rewrite (rsum_ext n _ (fun k => delta l k * A k j)).
  2:{ intros k Hk. f_equal. rewrite <- (Hf k Hk l Hl). reflexivity. }
  rewrite rsum_delta_l by exact Hl. lra.
Qed.

(** Fredholm alternative: A x = b is solvable unless some y with A^T y = 0 has
    y . b <> 0. *)
Lemma fredholm m : forall n (A : nat -> nat -> R) (b : nat -> R),
  (exists x, forall i, (i < m)%nat -> rsum n (fun k => A i k * x k) = b i) \/
  (exists y, (forall k, (k < n)%nat -> rsum m (fun i => y i * A i k) = 0) /\
             rsum m (fun i => y i * b i) <> 0).
Proof.
  induction m as [|m IH]; intros n A b.
  - left. exists (fun _ => 0). intros; lia.
  - destruct (row_zero_or_pivot n (A m)) as [Hz|(p & Hp & Hpv)].
    + destruct (Req_dec (b m) 0) as [Hb|Hb].
      * destruct (IH n A b) as [(x & E)|(y & E & Hy)].
        -- left. exists x. intros i Hi. destruct (Nat.eq_dec i m) as [->|]; [|apply E; lia].
           rewrite Hb. apply rsum_zero. intros k Hk. rewrite Hz by exact Hk. lra.
        -- right. exists (fun i => if Nat.eqb i m then 0 else y i). 
           assert (Hs : forall g, rsum (S m) (fun i => (if Nat.eqb i m then 0 else y i) * g i) = rsum m (fun i => y i * g i)).
           { intros g. cbn [rsum]. rewrite Nat.eqb_refl, Rmult_0_l, Rplus_0_r. apply rsum_ext.
             intros i Hi. destruct (Nat.eqb_spec i m); [lia|reflexivity]. }
           split; [intros k Hk; rewrite (Hs (fun i => A i k)); apply E; exact Hk|rewrite Hs; exact Hy].
      * right. exists (fun i => delta m i). split.
        -- intros k Hk. rewrite (rsum_delta_l (S m) m (fun i => A i k)) by lia. apply Hz. exact Hk.
        -- rewrite (rsum_delta_l (S m) m b) by lia. exact Hb.
    + destruct n as [|n]; [lia|].
      destruct (IH n (fun i k => A i (skip p k) - A i p * A m (skip p k) / A m p)
                     (fun i => b i - A i p * b m / A m p)) as [(x & E)|(y & E & Hy)].
      * left. exists (extend p ((b m - rsum n (fun k => A m (skip p k) * x k)) / A m p) x).
        intros i Hi. rewrite (rsum_extend n p _ _ (A i)) by lia.
        destruct (Nat.eq_dec i m) as [->|Hn]; [field; exact Hpv|].
        assert (E' := E i ltac:(lia)). cbn beta in E'.
        rewrite (rsum_ext n _ (fun k => A i (skip p k) * x k - (A i p / A m p) * (A m (skip p k) * x k))) in E'
          by (intros; field; exact Hpv).
        rewrite rsum_minus, rsum_scal in E'.
        replace (A i p * ((b m - rsum n (fun k => A m (skip p k) * x k)) / A m p))
          with (A i p * b m / A m p - A i p / A m p * rsum n (fun k => A m (skip p k) * x k)) by (field; exact Hpv).
        lra.
      * right. set (s := rsum m (fun i => y i * A i p)).
        exists (fun i => if Nat.eqb i m then - s / A m p else y i).
        assert (Hs : forall g, rsum (S m) (fun i => (if Nat.eqb i m then - s / A m p else y i) * g i)
                               = rsum m (fun i => y i * (g i - A i p * g m / A m p))).
        { intros g. cbn [rsum]. rewrite Nat.eqb_refl.
          rewrite (rsum_ext m _ (fun i => y i * g i)).
          2:{ intros i Hi. destruct (Nat.eqb_spec i m); [lia|reflexivity]. }
          rewrite (rsum_ext m (fun i => y i * (g i - A i p * g m / A m p))
                     (fun i => y i * g i - (g m / A m p) * (y i * A i p))) by (intros; field; exact Hpv).
          rewrite rsum_minus, rsum_scal. fold s. field. exact Hpv. }
        split.
        -- intros j Hj. rewrite (Hs (fun i => A i j)).
           destruct (Nat.eq_dec j p) as [->|Hjp].
           ++ apply rsum_zero. intros i Hi. field. exact Hpv.
           ++ assert (Ej : exists k, (k < n)%nat /\ skip p k = j).
              { exists (unskip p j). unfold unskip, skip. destruct (Nat.ltb_spec j p).
                - destruct (Nat.ltb_spec j p); lia.
                - destruct (Nat.ltb_spec (j - 1) p); lia. }
              destruct Ej as (k & Hk & <-). rewrite <- (E k Hk). apply rsum_ext. intros i Hi. reflexivity.
        -- rewrite Hs. exact Hy.
Qed.
