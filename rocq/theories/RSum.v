(** Finite sums of reals and basic facts used throughout. *)
From Coq Require Import Reals Lra Lia List Arith ZArith.
Import ListNotations.
Open Scope R_scope.

(** sum_{i<n} f i *)
Fixpoint rsum (n : nat) (f : nat -> R) : R :=
  match n with
  | O => 0
  | S k => rsum k f + f k
  end.

Lemma rsum_ext n f g : (forall i, (i < n)%nat -> f i = g i) -> rsum n f = rsum n g.
Proof.
  induction n as [|n IH]; intros H; cbn [rsum]; [reflexivity|].
  rewrite IH by (intros i Hi; apply H; lia). rewrite H by lia. reflexivity.
Qed.

Lemma rsum_plus n f g : rsum n (fun i => f i + g i) = rsum n f + rsum n g.
Proof. induction n as [|n IH]; cbn [rsum]; [lra|]. rewrite IH. lra. Qed.

Lemma rsum_minus n f g : rsum n (fun i => f i - g i) = rsum n f - rsum n g.
Proof. induction n as [|n IH]; cbn [rsum]; [lra|]. rewrite IH. lra. Qed.

Lemma rsum_scal n a f : rsum n (fun i => a * f i) = a * rsum n f.
Proof. induction n as [|n IH]; cbn [rsum]; [lra|]. rewrite IH. lra. Qed.

Lemma rsum_scal_r n a f : rsum n (fun i => f i * a) = rsum n f * a.
Proof. induction n as [|n IH]; cbn [rsum]; [lra|]. rewrite IH. lra. Qed.

Lemma rsum_0 n : rsum n (fun _ => 0) = 0.
Proof. induction n as [|n IH]; cbn [rsum]; [reflexivity|]. rewrite IH. lra. Qed.

Lemma rsum_zero n f : (forall i, (i < n)%nat -> f i = 0) -> rsum n f = 0.
Proof. intros H. rewrite (rsum_ext n f (fun _ => 0) H). apply rsum_0. Qed.

Lemma rsum_opp n f : rsum n (fun i => - f i) = - rsum n f.
Proof. induction n as [|n IH]; cbn [rsum]; [lra|]. rewrite IH. lra. Qed.

Lemma rsum_const n a : rsum n (fun _ => a) = INR n * a.
Proof. induction n as [|n IH]; [cbn; lra|]. cbn [rsum]. rewrite IH, S_INR. lra. Qed.

Lemma rsum_swap n m f :
  rsum n (fun i => rsum m (fun j => f i j)) = rsum m (fun j => rsum n (fun i => f i j)).
Proof.
  induction n as [|n IH]; cbn [rsum].
  - rewrite rsum_0. reflexivity.
  - rewrite IH, <- rsum_plus. apply rsum_ext. reflexivity.
Qed.

Lemma rsum_split n m f : rsum (n + m) f = rsum n f + rsum m (fun i => f (n + i)%nat).
Proof.
  induction m as [|m IH]; cbn [rsum].
  - rewrite Nat.add_0_r. lra.
  - rewrite Nat.add_succ_r. cbn [rsum]. rewrite IH. lra.
Qed.

Lemma rsum_S_l n f : rsum (S n) f = f 0%nat + rsum n (fun i => f (S i)).
Proof.
  change (S n) with (1 + n)%nat. rewrite rsum_split. cbn [rsum]. 
  rewrite Rplus_0_l. reflexivity.
Qed.

Lemma rsum_delta n k f : (k < n)%nat ->
  rsum n (fun i => if Nat.eqb i k then f i else 0) = f k.
Proof.
  induction n as [|n IH]; intros Hk; [lia|]. cbn [rsum].
  destruct (Nat.eq_dec k n) as [->|Hne].
  - rewrite Nat.eqb_refl, rsum_zero; [lra|].
    intros i Hi. replace (Nat.eqb i n) with false; [reflexivity|].
    symmetry. apply Nat.eqb_neq. lia.
  - rewrite IH by lia. replace (Nat.eqb n k) with false; [lra|].
    symmetry. apply Nat.eqb_neq. lia.
Qed.

Lemma rsum_rev n f : rsum n f = rsum n (fun i => f (n - 1 - i)%nat).
Proof.
  induction n as [|n IH]; [reflexivity|].
  rewrite (rsum_S_l n (fun i => f (S n - 1 - i)%nat)). cbn [rsum].
  replace (S n - 1 - 0)%nat with n by lia.
  rewrite IH, Rplus_comm. f_equal. apply rsum_ext. intros i Hi. f_equal. lia.
Qed.

Lemma rsum_le n f g : (forall i, (i < n)%nat -> f i <= g i) -> rsum n f <= rsum n g.
Proof.
  induction n as [|n IH]; intros H; cbn [rsum]; [lra|].
  assert (H1 : rsum n f <= rsum n g) by (apply IH; intros i Hi; apply H; lia).
  assert (H2 : f n <= g n) by (apply H; lia). lra.
Qed.

Lemma rsum_nonneg n f : (forall i, (i < n)%nat -> 0 <= f i) -> 0 <= rsum n f.
Proof. intros H. rewrite <- (rsum_0 n). apply rsum_le. exact H. Qed.

Lemma rsum_sq_zero n f : rsum n (fun i => f i * f i) = 0 ->
  forall i, (i < n)%nat -> f i = 0.
Proof.
  induction n as [|n IH]; intros H i Hi; [lia|]. cbn [rsum] in H.
  assert (H1 : 0 <= rsum n (fun i => f i * f i)).
  { apply rsum_nonneg. intros k _. apply Rle_0_sqr. }
  assert (H2 : 0 <= f n * f n) by apply Rle_0_sqr.
  destruct (Nat.eq_dec i n) as [->|Hne].
  - apply Rsqr_0_uniq. unfold Rsqr. lra.
  - apply IH; [lra|lia].
Qed.

(** Sum over a list, in the order of a fold from the left. *)
Fixpoint lsum (l : list R) : R :=
  match l with
  | [] => 0
  | x :: l' => x + lsum l'
  end.

Lemma lsum_app l1 l2 : lsum (l1 ++ l2) = lsum l1 + lsum l2.
Proof. induction l1 as [|x l1 IH]; cbn [lsum app]; [lra|]. rewrite IH. lra. Qed.

Lemma fold_left_Rplus l a : fold_left Rplus l a = a + lsum l.
Proof.
  revert a. induction l as [|x l IH]; intros a; cbn [fold_left lsum]; [lra|].
  rewrite IH. lra.
Qed.

Lemma lsum_map_scal s l : lsum (map (fun x => x * s) l) = lsum l * s.
Proof. induction l as [|x l IH]; cbn [map lsum]; [lra|]. rewrite IH. lra. Qed.

Lemma lsum_nth l : lsum l = rsum (length l) (fun i => nth i l 0).
Proof.
  induction l as [|x l IH]; [reflexivity|].
  cbn [length lsum]. rewrite rsum_S_l. cbn [nth]. rewrite IH. reflexivity.
Qed.

Lemma fold_left_seq_rsum (f : nat -> R) (a n : nat) (acc : R) :
  fold_left (fun s k => s + f k) (seq a n) acc = acc + rsum n (fun i => f (a + i)%nat).
Proof.
  revert a acc. induction n as [|n IH]; intros a acc; cbn [seq fold_left].
  - cbn. lra.
  - rewrite IH, (rsum_S_l n). rewrite Nat.add_0_r.
    rewrite (rsum_ext n (fun i => f (S a + i)%nat) (fun i => f (a + S i)%nat)).
    + lra.
    + intros i _. f_equal. lia.
Qed.

(** Boolean comparisons of [Num.R_ops]. *)
From Verif Require Import Num.

Lemma Rltb_true x y : Rltb x y = true <-> x < y.
Proof. unfold Rltb. destruct (Rlt_dec x y); split; intros; try discriminate; tauto. Qed.
Lemma Rltb_false x y : Rltb x y = false <-> y <= x.
Proof. unfold Rltb. destruct (Rlt_dec x y); split; intros; try discriminate; try lra; reflexivity. Qed.
Lemma Rleb_true x y : Rleb x y = true <-> x <= y.
Proof. unfold Rleb. destruct (Rle_dec x y); split; intros; try discriminate; tauto. Qed.
Lemma Rleb_false x y : Rleb x y = false <-> y < x.
Proof. unfold Rleb. destruct (Rle_dec x y); split; intros; try discriminate; try lra; reflexivity. Qed.
Lemma Reqb_true x y : Reqb x y = true <-> x = y.
Proof. unfold Reqb. destruct (Req_EM_T x y); split; intros; try discriminate; tauto. Qed.
Lemma Reqb_false x y : Reqb x y = false <-> x <> y.
Proof. unfold Reqb. destruct (Req_EM_T x y); split; intros; try discriminate; tauto. Qed.

Lemma Rltb_spec x y : BoolSpec (x < y) (y <= x) (Rltb x y).
Proof. unfold Rltb. destruct (Rlt_dec x y); constructor; lra. Qed.
Lemma Rleb_spec x y : BoolSpec (x <= y) (y < x) (Rleb x y).
Proof. unfold Rleb. destruct (Rle_dec x y); constructor; lra. Qed.
Lemma Reqb_spec x y : BoolSpec (x = y) (x <> y) (Reqb x y).
Proof. unfold Reqb. destruct (Req_EM_T x y); constructor; assumption. Qed.

Lemma Ok_inj {A} (a b : A) : Ok a = Ok b -> a = b.
Proof. intros H. injection H. trivial. Qed.

Lemma Some_inj {A} (a b : A) : Some a = Some b -> a = b.
Proof. intros H. injection H. trivial. Qed.

(** Unfold the arithmetic interface at the real instance. *)
Ltac rnum := cbn [nadd nsub nmul ndiv nopp nabs nsqrt nltb nleb neqb nofZ ntoZ R_ops] in *;
             unfold n0, n1 in *; cbn [nofZ R_ops] in *.

(** Symbolic execution of the model at concrete real inputs. *)
Ltac rcompute := cbv -[Rmult IZR Rplus Ropp Rminus Rdiv Rinv Rltb Rleb Reqb Rabs R_sqrt.sqrt
                       dbl_epsilon dbl_max dbl_min Rtrunc].

Lemma nsum_rsum n f : @nsum R R_ops n f = rsum n f.
Proof. induction n as [|n IH]; cbn [nsum rsum]; [reflexivity|]. rewrite IH. reflexivity. Qed.

Lemma npow_pow x k : @npow R R_ops x k = x ^ k.
Proof. induction k as [|k IH]; cbn [npow pow]; [reflexivity|]. rewrite IH. rnum. lra. Qed.

Lemma dbl_epsilon_pos : 0 < @dbl_epsilon R R_ops.
Proof.
  unfold dbl_epsilon, nlit. rnum. apply Rdiv_lt_0_compat; [lra|].
  apply IZR_lt. reflexivity.
Qed.

Lemma dbl_max_pos : 0 < @dbl_max R R_ops.
Proof. unfold dbl_max. rnum. apply IZR_lt. reflexivity. Qed.

Lemma dbl_lowest_eq : @dbl_lowest R R_ops = - @dbl_max R R_ops.
Proof. reflexivity. Qed.
