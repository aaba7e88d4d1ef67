(** C93: the reference values of the tests (test_utils.h). *)
From Coq Require Import ZArith Reals List Bool Lia Lra Sorted.
From Coquelicot Require Import Coquelicot.
From Flocq Require Import IEEE754.BinarySingleNaN.
From Verif Require Import Num RSum ModelPolynomial ModelSegment ModelVertex ModelTrajectory ModelLinear ModelExtra
  SpecPoly SpecSegment SpecVertex SpecTrajectory ProofPolynomial ProofSegment ProofTrajectory PropTrajectory PropExtra PropExtra2.
Import ListNotations.
Open Scope R_scope.

(** The value of the d-th derivative at a time in [0, duration): where two
    segments meet it is that of the later one. *)
Definition value_right (tr : trajectory R) (d : nat) (t : R) (v : list R) : Prop :=
  exists i, (i < tr_K tr)%nat /\ start_time tr i <= t < start_time tr (S i) /\
    v = seg_value (seg_at tr i) (t - start_time tr i) d.
(** g describes the scalar F of the d-th derivative at every time of the
    trajectory; where two segments meet they have to agree on it. *)
Definition described (tr : trajectory R) (d : nat) (F : list R -> R) (g : R -> R) : Prop :=
  forall t v, value_at tr d t v -> F v = g t.

Lemma lin_norm_R (v : list R) : ModelLinear.vec_norm v = norm v.
Proof.
  unfold ModelLinear.vec_norm, norm. change (nsqrt : R -> R) with sqrt. f_equal. rewrite nsum_rsum, lsum_nth, map_length.
  apply rsum_ext. intros i Hi. rewrite (nth_map_lt _ _ _ 0) by exact Hi. unfold vget. rnum. ring.
Qed.
Lemma lin_squares_R (v : list R) : nsum (length v) (fun i => nmul (vget v i) (vget v i)) = norm v ^ 2.
Proof.
  unfold norm. rewrite pow2_sqrt by apply lsum_squares. rewrite nsum_rsum, lsum_nth, map_length.
  apply rsum_ext. intros i Hi. rewrite (nth_map_lt _ _ _ 0) by exact Hi. unfold vget. rnum. ring.
Qed.

(** The number of samples 0, dt, 2 dt, ... before T. *)
Lemma sample_count T dt : 0 < dt -> 0 < T -> exists n, (1 <= n)%nat /\ INR (n - 1) * dt < T <= INR n * dt /\ forall k, (k < n)%nat <-> INR k * dt < T.
Proof.
  intros Hdt HT. set (z := up (T / dt)). destruct (archimed (T / dt)) as [A1 A2]. fold z in A1, A2.
  assert (Q : T / dt * dt = T) by (field; lra). assert (P : 0 < T / dt) by now apply Rdiv_lt_0_compat.
  assert (Hz : (1 <= z)%Z) by (assert (IZR 0 < IZR z) by lra; apply lt_IZR in H; lia).
  assert (E : INR (Z.to_nat z) = IZR z) by (rewrite INR_IZR_INZ, Z2Nat.id by lia; reflexivity).
  assert (C : exists n, (1 <= n)%nat /\ INR (n - 1) * dt < T <= INR n * dt).
  { destruct (Req_dec (T / dt) (IZR z - 1)) as [D|D].
    - exists (Z.to_nat z - 1)%nat.
      assert (Hz2 : (2 <= z)%Z) by (assert (IZR 1 < IZR z) by lra; apply lt_IZR in H; lia).
      split; [lia|]. rewrite !minus_INR by lia. rewrite E. cbn [INR]. split; [|right]; nra.
    - exists (Z.to_nat z). split; [lia|]. rewrite minus_INR by lia. rewrite E. cbn [INR]. split; nra. }
  destruct C as (n & Hn & Hb). exists n. split; [exact Hn|]. split; [exact Hb|]. intros k. split; intros Hk.
  - apply Rle_lt_trans with (INR (n - 1) * dt); [|apply Hb]. apply Rmult_le_compat_r; [lra|]. apply le_INR. lia.
  - apply INR_lt. apply Rmult_lt_reg_r with dt; lra.
Qed.

Lemma max_fold (l : list R) : forall m, let r := fold_left (fun m x => if Rltb m x then x else m) l m in
  (r = m \/ In r l) /\ m <= r /\ forall x, In x l -> x <= r.
Proof.
  induction l as [|y l IH]; intros m; cbn zeta; cbn [fold_left].
  - split; [auto|]. split; [lra|intros x []].
  - destruct (IH (if Rltb m y then y else m)) as (I1 & I2 & I3). cbn zeta in *.
    generalize dependent (fold_left (fun m x => if Rltb m x then x else m) l (if Rltb m y then y else m)). intros r I1 I2 I3.
    destruct (Rltb_spec m y) as [L|L].
    + split; [destruct I1 as [->|I1]; cbn; auto|]. split; [lra|]. intros x [<-|Hx]; auto.
    + split; [destruct I1 as [->|I1]; cbn; auto|]. split; [lra|]. intros x [<-|Hx]; [lra|auto].
Qed.

Section Loops.
  Variables (tr : trajectory R) (d : nat) (dt : R) (n : nat) (G : nat -> list R).
  Hypothesis HG : forall k, (k < n)%nat -> traj_evaluate tr (INR k * dt) (Z.of_nat d) = Ok (G k).
  Hypothesis Hn : forall k, (k < n)%nat <-> INR k * dt < tr_max_time tr.

  Lemma magnitude_loop_R j : forall k m fuel, (k + j = n)%nat -> (j < fuel)%nat ->
    magnitude_loop fuel tr (Z.of_nat d) dt (INR k * dt) m =
    Ok (Some (fold_left (fun m x => if Rltb m x then x else m) (map (fun i => norm (G i)) (seq k j)) m)).
  Proof using HG Hn.
    induction j as [|j IH]; intros k m fuel Hk Hf; (destruct fuel as [|fuel]; [lia|]); cbn [magnitude_loop seq map fold_left].
    - replace (nltb (INR k * dt) (tr_max_time tr)) with false; [reflexivity|]. symmetry. rnum. apply Rltb_false.
      apply Rnot_lt_le. intros C. apply Hn in C. lia.
    - replace (nltb (INR k * dt) (tr_max_time tr)) with true by (symmetry; rnum; apply Rltb_true; apply Hn; lia).
      rewrite HG by lia. cbn [obind]. rewrite lin_norm_R. change (nadd (INR k * dt) dt) with (INR k * dt + dt).
      replace (INR k * dt + dt) with (INR (S k) * dt) by (rewrite S_INR; ring). rewrite IH by lia. reflexivity.
  Qed.
  Lemma cost_loop_R j : forall k c fuel, (k + j = n)%nat -> (j < fuel)%nat ->
    cost_loop fuel tr (Z.of_nat d) dt (INR k * dt) c =
    Ok (Some (c + rsum j (fun i => norm (G (k + i)%nat) ^ 2 * dt))).
  Proof using HG Hn.
    induction j as [|j IH]; intros k c fuel Hk Hf; (destruct fuel as [|fuel]; [lia|]); cbn [cost_loop].
    - replace (nltb (INR k * dt) (tr_max_time tr)) with false; [cbn [rsum]; do 2 f_equal; ring|]. symmetry. rnum. apply Rltb_false.
      apply Rnot_lt_le. intros C. apply Hn in C. lia.
    - replace (nltb (INR k * dt) (tr_max_time tr)) with true by (symmetry; rnum; apply Rltb_true; apply Hn; lia).
      rewrite HG by lia. cbn [obind]. rewrite lin_squares_R. change (nadd (INR k * dt) dt) with (INR k * dt + dt).
      replace (INR k * dt + dt) with (INR (S k) * dt) by (rewrite S_INR; ring). rewrite IH by lia.
      do 2 f_equal. rewrite rsum_S_l. rewrite Nat.add_0_r. rnum.
      rewrite (rsum_ext j (fun i => norm (G (S k + i)%nat) ^ 2 * dt) (fun i => norm (G (k + S i)%nat) ^ 2 * dt)).
      + ring.
      + intros i _. replace (S k + i)%nat with (k + S i)%nat by lia. reflexivity.
  Qed.
End Loops.

Lemma consistent_max_time (tr : trajectory R) : traj_consistent tr -> tr_max_time tr = duration tr.
Proof. intros (_ & ->). change (@nadd R R_ops) with Rplus. rewrite fold_left_Rplus. rnum. unfold duration. ring. Qed.

Lemma samples_of (tr : trajectory R) (d : nat) (dt : R) : traj_wf tr -> times_nonneg tr -> traj_consistent tr -> 0 < dt -> 0 < duration tr ->
  exists n (G : nat -> list R), (1 <= n)%nat /\ INR (n - 1) * dt < duration tr <= INR n * dt /\
    (forall k, (k < n)%nat <-> INR k * dt < tr_max_time tr) /\
    (forall k, (k < n)%nat -> traj_evaluate tr (INR k * dt) (Z.of_nat d) = Ok (G k) /\ value_right tr d (INR k * dt) (G k) /\
       forall v, value_right tr d (INR k * dt) v -> v = G k).
Proof.
  intros Hw Hp Hc Hdt HT. destruct (sample_count (duration tr) dt Hdt HT) as (n & H1 & H2 & H3).
  assert (HK : (0 < tr_K tr)%nat).
  { unfold tr_K. destruct (tr_segments tr) eqn:E; [|cbn; lia]. unfold duration in HT. rewrite E in HT. cbn in HT. lra. }
  exists n, (fun k => match traj_evaluate tr (INR k * dt) (Z.of_nat d) with Ok v => v | _ => [] end).
  split; [exact H1|]. split; [exact H2|]. split; [intros k; rewrite consistent_max_time by exact Hc; apply H3|].
  intros k Hk. apply H3 in Hk.
  destruct (C14_evaluate_inside tr (INR k * dt) d Hw Hp HK) as (i & Hi & Hb & Hu & E).
  { split; [apply Rmult_le_pos; [apply pos_INR|lra]|exact Hk]. }
  rewrite E. split; [reflexivity|]. split; [exists i; auto|]. intros v (j & Hj & Hbj & ->). rewrite (Hu j Hj Hbj). reflexivity.
Qed.

(** The sampled maximum is the largest magnitude at the times 0, dt, 2 dt, ...
    before the end of the trajectory. *)
Theorem C93_maximum (tr : trajectory R) (d : nat) (dt : R) :
  traj_wf tr -> times_nonneg tr -> traj_consistent tr -> 0 < dt -> 0 < duration tr ->
  exists (n : nat) (m : R), (forall fuel, (n <= fuel)%nat -> getMaximumMagnitude fuel tr (Z.of_nat d) dt = Ok (Some m)) /\
    (exists k v, INR k * dt < duration tr /\ value_right tr d (INR k * dt) v /\ norm v = m) /\
    forall k v, INR k * dt < duration tr -> value_right tr d (INR k * dt) v -> norm v <= m.
Proof.
  intros Hw Hp Hc Hdt HT. destruct (samples_of tr d dt Hw Hp Hc Hdt HT) as (n & G & H1 & _ & H3 & H4).
  set (m0 := - 1000000000).
  destruct (max_fold (map (fun i => norm (G i)) (seq 0 n)) m0) as (M1 & M2 & M3). cbn zeta in *.
  exists (S n), (fold_left (fun m x => if Rltb m x then x else m) (map (fun i => norm (G i)) (seq 0 n)) m0). split; [|split].
  - intros fuel Hf. unfold getMaximumMagnitude.
    assert (E := magnitude_loop_R tr d dt n G (fun k Hk => proj1 (H4 k Hk)) H3 n 0 m0 fuel ltac:(lia) ltac:(lia)).
    replace (INR 0 * dt) with 0 in E by (cbn [INR]; ring).
    change (n0 : R) with 0. replace (nopp (nofZ 1000000000) : R) with m0 by (unfold m0; rnum; reflexivity). exact E.
  - set (r := fold_left _ _ m0) in *. destruct M1 as [M1|M1].
    + exfalso. assert (Q : norm (G 0%nat) <= r) by (apply M3, in_map_iff; exists 0%nat; split; [reflexivity|apply in_seq; lia]).
      assert (P := norm_nonneg (G 0%nat)). unfold m0 in M1. lra.
    + apply in_map_iff in M1 as (k & E & Hk). apply in_seq in Hk. exists k, (G k). rewrite <- consistent_max_time by exact Hc.
      split; [apply H3; lia|]. split; [apply H4; lia|exact E].
  - intros k v Hk Hv. rewrite <- consistent_max_time in Hk by exact Hc. apply H3 in Hk. rewrite (proj2 (proj2 (H4 k Hk)) v Hv).
    apply M3, in_map_iff. exists k. split; [reflexivity|apply in_seq; lia].
Qed.
Print Assumptions C93_maximum.

Lemma right_value (tr : trajectory R) (d : nat) (t : R) : (0 < tr_K tr)%nat -> 0 <= t < duration tr -> exists v, value_right tr d t v.
Proof. intros HK Ht. destruct (find_index tr t HK Ht) as (i & Hi & Hb). eexists. exists i. eauto. Qed.
Lemma right_at (tr : trajectory R) (d : nat) (t : R) v : value_right tr d t v -> value_at tr d t v.
Proof. intros (i & Hi & Hb & ->). exists i. split; [exact Hi|]. split; [lra|reflexivity]. Qed.

Lemma magnitude_more {T} `{NumOps T} (tr : trajectory T) d dt q : forall fuel ts m r,
  magnitude_loop fuel tr d dt ts m = Ok (Some r) -> magnitude_loop (fuel + q) tr d dt ts m = Ok (Some r).
Proof.
  induction fuel as [|fuel IH]; intros ts m r E; [discriminate|]. cbn [magnitude_loop Nat.add] in *.
  destruct (nltb _ _); [|exact E]. destruct (traj_evaluate _ _ _) as [v| | |]; cbn [obind] in *; try discriminate. apply IH. exact E.
Qed.
Lemma cost_more {T} `{NumOps T} (tr : trajectory T) d dt q : forall fuel ts m r,
  cost_loop fuel tr d dt ts m = Ok (Some r) -> cost_loop (fuel + q) tr d dt ts m = Ok (Some r).
Proof.
  induction fuel as [|fuel IH]; intros ts m r E; [discriminate|]. cbn [cost_loop Nat.add] in *.
  destruct (nltb _ _); [|exact E]. destruct (traj_evaluate _ _ _) as [v| | |]; cbn [obind] in *; try discriminate. apply IH. exact E.
Qed.

(** Accuracy: if the magnitude changes by at most L per second, the sampled
    maximum is attained and below the true one by at most L dt. *)
Theorem C93_maximum_accuracy (tr : trajectory R) (d : nat) (dt L : R) (g : R -> R) (fuel : nat) (m : R) :
  traj_wf tr -> times_nonneg tr -> traj_consistent tr -> 0 < dt -> 0 < duration tr ->
  described tr d norm g ->
  (forall s t, 0 <= s <= duration tr -> 0 <= t <= duration tr -> Rabs (g s - g t) <= L * Rabs (s - t)) ->
  getMaximumMagnitude fuel tr (Z.of_nat d) dt = Ok (Some m) ->
  (exists t, 0 <= t <= duration tr /\ g t = m) /\ forall t, 0 <= t <= duration tr -> g t <= m + L * dt.
Proof.
  intros Hw Hp Hc Hdt HT Hg HL E.
  destruct (C93_maximum tr d dt Hw Hp Hc Hdt HT) as (n & m' & Em & (k & v & Hk & Hv & Nv) & M).
  assert (Hmm : m' = m).
  { assert (Q := magnitude_more tr _ dt n fuel _ _ _ E). assert (Q' := Em (fuel + n)%nat ltac:(lia)).
    unfold getMaximumMagnitude in Q'. rewrite Q in Q'. apply Ok_inj in Q'. apply Some_inj in Q'. symmetry. exact Q'. }
  rewrite Hmm in Nv, M. split.
  - exists (INR k * dt). split; [split; [apply Rmult_le_pos; [apply pos_INR|lra]|lra]|]. rewrite <- Nv. symmetry. apply Hg, right_at, Hv.
  - intros t Ht.
    assert (HK : (0 < tr_K tr)%nat).
    { unfold tr_K. destruct (tr_segments tr) eqn:Es; [|cbn; lia]. unfold duration in HT. rewrite Es in HT. cbn in HT. lra. }
    assert (S : exists j, INR j * dt < duration tr /\ INR j * dt <= t <= INR j * dt + dt).
    { destruct (Rle_lt_or_eq_dec 0 t (proj1 Ht)) as [H0|<-]; [|exists 0%nat; cbn [INR]; lra].
      destruct (sample_count t dt Hdt H0) as (q & Hq & Hb & _). exists (q - 1)%nat. split; [lra|].
      split; [lra|]. replace (INR (q - 1) * dt + dt) with (INR q * dt); [lra|]. rewrite minus_INR by lia. cbn [INR]. ring. }
    destruct S as (j & Hj & Hb). destruct (right_value tr d (INR j * dt) HK) as (w & Hv').
    { split; [apply Rmult_le_pos; [apply pos_INR|lra]|exact Hj]. }
    assert (Q := M j w Hj Hv'). rewrite (Hg _ _ (right_at _ _ _ _ Hv')) in Q.
    assert (Hj0 : 0 <= INR j * dt) by (apply Rmult_le_pos; [apply pos_INR|lra]).
    assert (P := HL t (INR j * dt) Ht ltac:(lra)). assert (P' := Rle_abs (g t - g (INR j * dt))).
    rewrite (Rabs_pos_eq (t - INR j * dt)) in P by lra.
    assert (HL0 : 0 <= L).
    { assert (Z := HL 0 (duration tr) ltac:(lra) ltac:(lra)). assert (Z' := Rabs_pos (g 0 - g (duration tr))).
      rewrite (Rabs_left (0 - duration tr)) in Z by lra. nra. }
    nra.
Qed.
Print Assumptions C93_maximum_accuracy.

Lemma lipschitz_integral (g : R -> R) L a b : a <= b -> (forall s t, Rabs (g s - g t) <= L * Rabs (s - t)) ->
  ex_RInt g a b /\ Rabs (RInt g a b - g a * (b - a)) <= L * (b - a) * (b - a).
Proof.
  intros Hab HL.
  assert (C : forall z, continuous g z).
  { intros z. apply continuity_pt_filterlim. intros eps He. assert (L0 : 0 <= L).
    { assert (Z := HL 0 1). assert (Z' := Rabs_pos (g 0 - g 1)). rewrite (Rabs_left (0 - 1)) in Z by lra. lra. }
    exists (eps / (L + 1)). split; [apply Rdiv_lt_0_compat; lra|]. intros x (_ & Hx). cbn [dist R_met] in *. unfold R_dist in *.
    eapply Rle_lt_trans; [apply HL|]. assert (Q : eps = (L + 1) * (eps / (L + 1))) by (field; lra).
    assert (P := Rabs_pos (x - z)). change (Rabs (x - z) < eps / (L + 1)) in Hx. nra. }
  assert (E : ex_RInt g a b) by (apply (ex_RInt_continuous (V := R_CompleteNormedModule)); intros z _; apply C). split; [exact E|].
  assert (E' : ex_RInt (fun x => minus (g x) (g a)) a b) by (apply (ex_RInt_minus (V := R_NormedModule)); [exact E|apply ex_RInt_const]).
  assert (Q : RInt (fun x => minus (g x) (g a)) a b = RInt g a b - g a * (b - a)).
  { etransitivity; [apply (RInt_minus (V := R_CompleteNormedModule) g (fun _ => g a)); [exact E|apply ex_RInt_const]|].
    rewrite (RInt_const (V := R_CompleteNormedModule)). unfold minus, Hierarchy.plus, opp, scal. cbn. unfold mult. cbn. ring. }
  rewrite <- Q. replace (L * (b - a) * (b - a)) with ((b - a) * (L * (b - a))) by ring.
  apply abs_RInt_le_const; [exact Hab|exact E'|]. intros t Ht. change (Rabs (g t - g a) <= L * (b - a)).
  eapply Rle_trans; [apply HL|]. rewrite Rabs_pos_eq by lra.
  assert (L0 : 0 <= L).
  { assert (Z := HL 0 1). assert (Z' := Rabs_pos (g 0 - g 1)). rewrite (Rabs_left (0 - 1)) in Z by lra. lra. }
  nra.
Qed.

(** The numeric cost is the sum of the squared magnitudes at the samples times dt.
    If the square changes by at most L per second and is at most B, it differs
    from the integral by at most (L duration + B) dt. *)
Theorem C93_cost_accuracy (tr : trajectory R) (d : nat) (dt L B : R) (g : R -> R) :
  traj_wf tr -> times_nonneg tr -> traj_consistent tr -> 0 < dt -> 0 < duration tr ->
  described tr d (fun v => norm v ^ 2) g ->
  (forall s t, Rabs (g s - g t) <= L * Rabs (s - t)) ->
  (forall t, 0 <= t <= duration tr -> g t <= B) ->
  exists (n : nat) (c : R), (forall fuel, (n <= fuel)%nat -> computeCostNumeric fuel tr (Z.of_nat d) dt = Ok (Some c)) /\
    Rabs (c - RInt g 0 (duration tr)) <= (L * duration tr + B) * dt.
Proof.
  intros Hw Hp Hc Hdt HT Hg HL HB. destruct (samples_of tr d dt Hw Hp Hc Hdt HT) as (n & G & H1 & H2 & H3 & H4).
  assert (L0 : 0 <= L).
  { assert (Z := HL 0 1). assert (Z' := Rabs_pos (g 0 - g 1)). rewrite (Rabs_left (0 - 1)) in Z by lra. lra. }
  assert (HGg : forall k, (k < n)%nat -> norm (G k) ^ 2 = g (INR k * dt)).
  { intros k Hk. apply (Hg _ _ (right_at _ _ _ _ (proj1 (proj2 (H4 k Hk))))). }
  exists (S n), (0 + rsum n (fun i => norm (G (0 + i)%nat) ^ 2 * dt)). split.
  - intros fuel Hf. unfold computeCostNumeric.
    assert (E := cost_loop_R tr d dt n G (fun k Hk => proj1 (H4 k Hk)) H3 n 0 0 fuel ltac:(lia) ltac:(lia)).
    replace (INR 0 * dt) with 0 in E by (cbn [INR]; ring). change (n0 : R) with 0. exact E.
  - rewrite Rplus_0_l. rewrite (rsum_ext n _ (fun i => g (INR i * dt) * dt)).
    2:{ intros i Hi. cbn [Nat.add]. now rewrite HGg. }
    assert (P : forall k, Rabs (rsum k (fun i => g (INR i * dt) * dt) - RInt g 0 (INR k * dt)) <= L * (INR k * dt) * dt).
    { induction k as [|k IH].
      - cbn [rsum INR]. rewrite Rmult_0_l, RInt_point. change (@zero R_NormedModule) with 0. rewrite Rminus_0_r, Rabs_R0. lra.
      - cbn [rsum]. assert (Hk : 0 <= INR k * dt) by (apply Rmult_le_pos; [apply pos_INR|lra]).
        assert (ES : INR (S k) * dt = INR k * dt + dt) by (rewrite S_INR; ring). rewrite ES.
        destruct (lipschitz_integral g L 0 (INR k * dt) Hk HL) as (X1 & _).
        destruct (lipschitz_integral g L (INR k * dt) (INR k * dt + dt) ltac:(lra) HL) as (X2 & X3).
        rewrite <- (RInt_Chasles g 0 (INR k * dt) (INR k * dt + dt) X1 X2). match goal with |- context [Hierarchy.plus ?u ?v] => change (Hierarchy.plus u v) with (u + v) end.
        replace (INR k * dt + dt - INR k * dt) with dt in X3 by ring.
        rewrite <- Rabs_Ropp in X3.
        replace (rsum k (fun i => g (INR i * dt) * dt) + g (INR k * dt) * dt - (RInt g 0 (INR k * dt) + RInt g (INR k * dt) (INR k * dt + dt)))
          with ((rsum k (fun i => g (INR i * dt) * dt) - RInt g 0 (INR k * dt)) + - (RInt g (INR k * dt) (INR k * dt + dt) - g (INR k * dt) * dt)) by ring.
        eapply Rle_trans; [apply Rabs_triang|].
        replace (L * (INR k * dt + dt) * dt) with (L * (INR k * dt) * dt + L * dt * dt) by ring. apply Rplus_le_compat; [exact IH|exact X3]. }
    set (a := INR (n - 1) * dt) in *. assert (Ha : 0 <= a) by (apply Rmult_le_pos; [apply pos_INR|lra]).
    replace n with (S (n - 1)) at 1 by lia. cbn [rsum]. fold a.
    destruct (lipschitz_integral g L 0 a Ha HL) as (X1 & _).
    destruct (lipschitz_integral g L a (duration tr) ltac:(lra) HL) as (X2 & X3).
    rewrite <- (RInt_Chasles g 0 a (duration tr) X1 X2). match goal with |- context [Hierarchy.plus ?u ?v] => change (Hierarchy.plus u v) with (u + v) end.
    assert (P1 := P (n - 1)%nat). fold a in P1.
    assert (En : INR n * dt = a + dt) by (unfold a; rewrite minus_INR by lia; cbn [INR]; ring).
    assert (Bg : 0 <= g a <= B).
    { split; [|apply HB; lra]. unfold a. rewrite <- HGg by lia. apply pow2_ge_0. }
    replace (rsum (n - 1) (fun i => g (INR i * dt) * dt) + g a * dt - (RInt g 0 a + RInt g a (duration tr)))
      with ((rsum (n - 1) (fun i => g (INR i * dt) * dt) - RInt g 0 a) + (- (RInt g a (duration tr) - g a * (duration tr - a)) + g a * (dt - (duration tr - a)))) by ring.
    eapply Rle_trans; [apply Rabs_triang|]. eapply Rle_trans; [apply Rplus_le_compat_l, Rabs_triang|]. rewrite Rabs_Ropp.
    rewrite (Rabs_pos_eq (g a * _)) by (apply Rmult_le_pos; lra).
    assert (Y1 : L * (duration tr - a) * (duration tr - a) <= L * (duration tr - a) * dt).
    { apply Rmult_le_compat_l; [|lra]. apply Rmult_le_pos; lra. }
    assert (Y2 : g a * (dt - (duration tr - a)) <= B * dt) by (apply Rmult_le_compat; lra).
    replace ((L * duration tr + B) * dt) with (L * a * dt + (L * (duration tr - a) * dt + B * dt)) by ring. lra.
Qed.
Print Assumptions C93_cost_accuracy.

(** A trajectory without duration: the initial value of the maximum is returned. *)
Theorem C93_no_duration (tr : trajectory R) (d : Z) (dt : R) (fuel : nat) :
  tr_max_time tr <= 0 -> (1 <= fuel)%nat ->
  getMaximumMagnitude fuel tr d dt = Ok (Some (- 10 ^ 9)) /\ computeCostNumeric fuel tr d dt = Ok (Some 0).
Proof.
  intros H Hf. destruct fuel as [|fuel]; [lia|]. unfold getMaximumMagnitude, computeCostNumeric. cbn [magnitude_loop cost_loop].
  replace (nltb n0 (tr_max_time tr)) with false by (symmetry; rnum; apply Rltb_false; exact H).
  split; do 2 f_equal. rnum. lra.
Qed.
Print Assumptions C93_no_duration.
(** An interval that is not positive: the loops do not end. *)
Theorem C93_positive_interval_needed (tr : trajectory R) (d : nat) (dt : R) (fuel : nat) :
  traj_wf tr -> times_nonneg tr -> traj_consistent tr -> dt <= 0 -> 0 < duration tr ->
  getMaximumMagnitude fuel tr (Z.of_nat d) dt = Ok None /\ computeCostNumeric fuel tr (Z.of_nat d) dt = Ok None.
Proof.
  intros Hw Hp Hc Hdt HT.
  assert (HK : (0 < tr_K tr)%nat).
  { unfold tr_K. destruct (tr_segments tr) eqn:Es; [|cbn; lia]. unfold duration in HT. rewrite Es in HT. cbn in HT. lra. }
  assert (EV : forall t, t <= 0 -> exists v, traj_evaluate tr t (Z.of_nat d) = Ok v).
  { intros t Ht. destruct (Rle_lt_or_eq_dec t 0 Ht) as [H0| ->].
    - eexists. apply (proj1 (proj2 (proj2 (C14_evaluate_elsewhere tr t d Hw Hp))) H0 HK).
    - destruct (C14_evaluate_inside tr 0 d Hw Hp HK ltac:(lra)) as (i & _ & _ & _ & E). eauto. }
  assert (B : forall t, t <= 0 -> nltb t (tr_max_time tr) = true) by (intros t Ht; rewrite consistent_max_time by exact Hc; rnum; apply Rltb_true; lra).
  assert (L : forall f t m, t <= 0 -> magnitude_loop f tr (Z.of_nat d) dt t m = Ok None /\ cost_loop f tr (Z.of_nat d) dt t m = Ok None).
  { induction f as [|f IH]; intros t m Ht; [split; reflexivity|]. cbn [magnitude_loop cost_loop]. rewrite B by exact Ht.
    destruct (EV t Ht) as (v & ->). cbn [obind]. split; apply IH; rnum; lra. }
  unfold getMaximumMagnitude, computeCostNumeric. split; apply L; rnum; lra.
Qed.
Print Assumptions C93_positive_interval_needed.

(** The random number lies between the bounds, and both are attained. *)
Theorem C93_random_double (RAND_MAX r : Z) (lo hi : R) : (0 < RAND_MAX)%Z -> (0 <= r <= RAND_MAX)%Z -> lo <= hi ->
  lo <= createRandomDouble RAND_MAX r lo hi <= hi /\
  createRandomDouble RAND_MAX 0 lo hi = lo /\ createRandomDouble RAND_MAX RAND_MAX lo hi = hi.
Proof.
  intros HM Hr Hlo. unfold createRandomDouble. rnum. apply IZR_lt in HM.
  assert (Q : 0 <= IZR r / IZR RAND_MAX <= 1).
  { destruct Hr as [H1 H2]. apply IZR_le in H1, H2. split; [apply Rmult_le_pos; [lra|left; now apply Rinv_0_lt_compat]|].
    apply Rmult_le_reg_r with (IZR RAND_MAX); [lra|]. unfold Rdiv. rewrite Rmult_assoc, Rinv_l by lra. lra. }
  split; [nra|]. split; field; lra.
Qed.
Print Assumptions C93_random_double.
Example C93_random_double_example : (0 < 2147483647)%Z /\ (0 <= 5 <= 2147483647)%Z /\ -1 <= 3. Proof. split; [lia|]. split; [lia|lra]. Qed.

(** For matrices of the same size the check accepts exactly when all
    coefficients differ by less than the tolerance. *)
Theorem C93_check_matrices (rows cols : nat) (m1 m2 : list R) (tol : R) :
  length m1 = (rows * cols)%nat -> length m2 = (rows * cols)%nat -> (0 < rows * cols)%nat ->
  exists b, checkMatrices rows cols m1 m2 tol = Ok b /\
    (b = true <-> forall i, (i < rows * cols)%nat -> Rabs (nth i m1 0 - nth i m2 0) < tol).
Proof.
  intros H1 H2 H0. unfold checkMatrices. rewrite H1, H2, Nat.eqb_refl. cbn [negb orb].
  set (l := map _ (combine m1 m2)).
  assert (Ll : length l = (rows * cols)%nat) by (unfold l; rewrite map_length, combine_length; lia).
  assert (Nl : forall i, (i < rows * cols)%nat -> nth i l 0 = Rabs (nth i m1 0 - nth i m2 0)).
  { intros i Hi. unfold l. rewrite (nth_map_lt _ _ _ (0, 0)) by (rewrite combine_length; lia). rewrite combine_nth by lia. reflexivity. }
  clearbody l. destruct l as [|x l]; [cbn in Ll; lia|]. eexists. split; [reflexivity|].
  change (@nltb R R_ops) with Rltb. destruct (max_fold l x) as (M1 & M2 & M3). cbn zeta in *. rewrite Rltb_true. split.
  - intros Hlt i Hi. rewrite <- Nl by exact Hi. eapply Rle_lt_trans; [|exact Hlt].
    destruct i as [|i]; [exact M2|]. cbn [nth]. apply M3, nth_In. cbn [length] in Ll. lia.
  - intros Hall. destruct M1 as [->|M1].
    + specialize (Hall 0%nat H0). rewrite <- (Nl 0%nat H0) in Hall. exact Hall.
    + apply (In_nth _ _ 0) in M1 as (i & Hi & <-). specialize (Hall (S i)). cbn [length] in Ll. specialize (Hall ltac:(lia)).
      rewrite <- (Nl (S i)) in Hall by lia. exact Hall.
Qed.
Print Assumptions C93_check_matrices.
Example C93_check_matrices_example : length [1; 2] = (1 * 2)%nat /\ length [1; 3] = (1 * 2)%nat /\ (0 < 1 * 2)%nat /\
  Rabs (nth 1 [1; 2] 0 - nth 1 [1; 3] 0) = 1.
Proof. split; [reflexivity|]. split; [reflexivity|]. split; [lia|]. cbn [nth]. rewrite Rabs_left; lra. Qed.

(** In doubles a coefficient that is not a number goes unnoticed unless it is the
    first one (for the order of comparisons of the model; Eigen leaves the result
    of maxCoeff with NaN open). *)
Theorem C93_check_matrices_nan (x y z tol : b64) :
  @checkMatrices b64 B64_ops 1 2 [x; B754_nan] [y; z] tol = Ok (@nltb b64 B64_ops (@nabs b64 B64_ops (@nsub b64 B64_ops x y)) tol).
Proof.
  unfold checkMatrices. cbn [length Nat.mul Nat.add Nat.eqb negb orb combine map fst snd fold_left].
  assert (E : @nltb b64 B64_ops (@nabs b64 B64_ops (@nsub b64 B64_ops x y)) (@nabs b64 B64_ops (@nsub b64 B64_ops B754_nan z)) = false).
  { replace (@nsub b64 B64_ops B754_nan z) with (B754_nan : b64) by (destruct z; reflexivity).
    destruct (@nabs b64 B64_ops (@nsub b64 B64_ops x y)) as [[]|[]| |[]]; reflexivity. }
  rewrite E. reflexivity.
Qed.
Print Assumptions C93_check_matrices_nan.
Example C93_check_matrices_nan_example :
  @checkMatrices b64 B64_ops 1 2 [@nofZ b64 B64_ops 1; B754_nan] [@nofZ b64 B64_ops 1; @nofZ b64 B64_ops 1] (@nofZ b64 B64_ops 1) = Ok true.
Proof. vm_compute. reflexivity. Qed.

(** Concrete cases: one parabola. *)
Definition hill_tr : trajectory R := mkTraj 1 3 [hill] (0 + 2).
Lemma hill_tr_ok : traj_wf hill_tr /\ times_nonneg hill_tr /\ traj_consistent hill_tr /\ duration hill_tr = 2.
Proof.
  split; [split; [repeat constructor|cbn; lia]|]. split; [repeat constructor; cbn; lra|].
  split; [split; [repeat constructor|reflexivity]|]. unfold duration. cbn. lra.
Qed.
Lemma hill_derivatives t : seg_value hill t 1 = [2 - 2 * t] /\ seg_value hill t 2 = [-2].
Proof.
  unfold seg_value. cbn [seg_D hill seg_polys length seq map].
  rewrite !seg_fun_dpoly. cbn [seg_polys hill nth]. split; f_equal; unfold dpoly; cbn; unfold bc; cbn; ring.
Qed.
Lemma hill_value_at d t v : value_at hill_tr d t v -> v = seg_value hill t d.
Proof.
  intros (i & Hi & _ & ->). unfold tr_K in Hi. cbn in Hi. assert (i = 0)%nat as -> by lia.
  unfold seg_at, start_time. cbn [nth tr_segments hill_tr firstn map fold_left lsum rsum]. f_equal. cbn. ring.
Qed.
Lemma norm_1 x : norm [x] = Rabs x.
Proof. unfold norm. cbn. rewrite Rplus_0_r. rewrite <- sqrt_Rsqr_abs. f_equal. unfold Rsqr. ring. Qed.
Example C93_maximum_accuracy_example : traj_wf hill_tr /\ times_nonneg hill_tr /\ traj_consistent hill_tr /\ 0 < duration hill_tr /\
  described hill_tr 1 norm (fun t => Rabs (2 - 2 * t)) /\
  (forall s t, 0 <= s <= duration hill_tr -> 0 <= t <= duration hill_tr -> Rabs (Rabs (2 - 2 * s) - Rabs (2 - 2 * t)) <= 2 * Rabs (s - t)) /\
  exists fuel m, getMaximumMagnitude fuel hill_tr (Z.of_nat 1) (1 / 2) = Ok (Some m).
Proof.
  destruct hill_tr_ok as (A & B & C & D). split; [exact A|]. split; [exact B|]. split; [exact C|]. split; [lra|]. split; [|split].
  - intros t v Hv. rewrite (hill_value_at _ _ _ Hv), (proj1 (hill_derivatives t)). apply norm_1.
  - intros s t _ _. eapply Rle_trans; [apply Rabs_triang_inv2|]. replace (2 - 2 * s - (2 - 2 * t)) with (2 * (t - s)) by ring.
    rewrite Rabs_mult, (Rabs_pos_eq 2) by lra. rewrite (Rabs_minus_sym t s). lra.
  - destruct (C93_maximum hill_tr 1 (1 / 2) A B C ltac:(lra) ltac:(lra)) as (n & m & E & _). exists n, m. apply E. lia.
Qed.
Example C93_cost_accuracy_example : traj_wf hill_tr /\ times_nonneg hill_tr /\ traj_consistent hill_tr /\ 0 < duration hill_tr /\
  described hill_tr 2 (fun v => norm v ^ 2) (fun _ => 4) /\ RInt (fun _ => 4) 0 (duration hill_tr) = 8.
Proof.
  destruct hill_tr_ok as (A & B & C & D). split; [exact A|]. split; [exact B|]. split; [exact C|]. split; [lra|]. split.
  - intros t v Hv. rewrite (hill_value_at _ _ _ Hv), (proj2 (hill_derivatives t)), norm_1, Rabs_left by lra. lra.
  - rewrite (RInt_const (V := R_CompleteNormedModule)), D. change ((2 - 0) * 4 = 8). lra.
Qed.
Example C93_no_duration_example : tr_max_time (mkTraj 1 3 [] 0) <= 0. Proof. cbn. lra. Qed.
Example C93_positive_interval_needed_example : traj_wf hill_tr /\ times_nonneg hill_tr /\ traj_consistent hill_tr /\ 0 <= 0 /\ 0 < duration hill_tr.
Proof. destruct hill_tr_ok as (A & B & C & D). repeat (split; [assumption||lra|]). lra. Qed.

(** The end of the trajectory is not sampled: on a motion that speeds up the value
    returned stays below the maximum. *)
Definition rising_tr : trajectory R := mkTraj 1 3 [mkSegment 3 [[0; 0; 1]] 1] (0 + 1).
Theorem C93_end_not_sampled_finding : exists tr dt fuel m t v, traj_wf tr /\ times_nonneg tr /\ traj_consistent tr /\ 0 < dt /\
  getMaximumMagnitude fuel tr 1 dt = Ok (Some m) /\ 0 <= t <= duration tr /\ value_at tr 1 t v /\ m < norm v.
Proof.
  assert (D : duration rising_tr = 1) by (unfold duration; cbn; lra).
  assert (A : traj_wf rising_tr) by (split; [repeat constructor|cbn; lia]).
  assert (B : times_nonneg rising_tr) by (repeat constructor; cbn; lra).
  assert (C : traj_consistent rising_tr) by (split; [repeat constructor|reflexivity]).
  destruct (C93_maximum rising_tr 1 1 A B C ltac:(lra) ltac:(lra)) as (n & m & E & (k & v & Hk & Hv & Nv) & _).
  exists rising_tr, 1, n, m, 1, [2]. split; [exact A|]. split; [exact B|]. split; [exact C|]. split; [lra|].
  split; [apply E; lia|]. split; [lra|].
  assert (V : forall t, seg_value (mkSegment 3 [[0; 0; 1]] 1) t 1 = [2 * t]).
  { intros t. unfold seg_value. cbn [seg_D seg_polys length seq map]. rewrite !seg_fun_dpoly. cbn [seg_polys nth]. f_equal.
    unfold dpoly; cbn; unfold bc; cbn; ring. }
  assert (S0 : start_time rising_tr 0 = 0) by (unfold start_time; cbn; ring).
  assert (S1 : start_time rising_tr 1 = 1) by (unfold start_time; cbn; ring).
  split.
  - exists 0%nat. split; [cbn; lia|]. rewrite S0, S1. split; [lra|]. unfold seg_at. cbn [nth tr_segments rising_tr]. rewrite V. f_equal. ring.
  - assert (K : k = 0%nat) by (rewrite D in Hk; destruct k; [reflexivity|]; rewrite S_INR in Hk; assert (P := pos_INR k); lra).
    subst k. destruct Hv as (i & Hi & _ & ->). unfold tr_K in Hi. cbn in Hi. assert (i = 0)%nat as -> by lia.
    rewrite <- Nv, S0. unfold seg_at. cbn [nth tr_segments rising_tr]. rewrite V, !norm_1. cbn [INR].
    rewrite !Rabs_pos_eq; lra.
Qed.
Print Assumptions C93_end_not_sampled_finding.
