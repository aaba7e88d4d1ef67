(** Combining and stretching chains of segments; the parallelogram law of the cost. *)
From Coq Require Import ZArith Reals List Bool Lia Lra Arith.
From Coquelicot Require Import Coquelicot.
From Verif Require Import Num RSum SpecPoly ModelPolynomial ModelSegment ModelVertex ModelTrajectory ModelLinear
  SpecSegment SpecVertex SpecLinear ProofPolynomial ProofPolynomial2 ProofSegment ProofSegment2 ProofRoots ProofHermite ProofLinear3.
Import ListNotations.
Open Scope R_scope.

(** a s + b t as a motion. *)
Definition combo (a b : R) (N D : nat) (T : R) (s t : segment R) : segment R :=
  mkSegment N (map (fun k => map (fun i => a * nth i (nth k (seg_polys s) []) 0 + b * nth i (nth k (seg_polys t) []) 0) (seq 0 N)) (seq 0 D)) T.
Definition combo_chain (a b : R) (N D : nat) (times : list R) (A B : list (segment R)) : list (segment R) :=
  map (fun i => combo a b N D (nth i times 0) (nth i A no_seg) (nth i B no_seg)) (seq 0 (length times)).

Lemma nth_map_seq0 {A} (f : nat -> A) n i d : (i < n)%nat -> nth i (map f (seq 0 n)) d = f i.
Proof.
  intros H. rewrite (nth_indep _ d (f 0%nat)) by (rewrite map_length, seq_length; exact H). rewrite map_nth, seq_nth by exact H. reflexivity.
Qed.

Lemma combo_fun a b N D T s t k d x : (k < D)%nat -> seg_wf s -> seg_wf t -> seg_N s = N -> seg_N t = N -> seg_D s = D -> seg_D t = D ->
  seg_fun (combo a b N D T s t) k d x = a * seg_fun s k d x + b * seg_fun t k d x.
Proof.
  intros Hk Ws Wt Ns Nt Ds Dt. rewrite !seg_fun_dpoly. cbn [combo seg_polys]. rewrite nth_map_seq0 by exact Hk.
  assert (Ls : length (nth k (seg_polys s) []) = N) by (rewrite <- Ns; apply (proj1 (Forall_nth _ _) Ws); unfold seg_D in Ds; lia).
  assert (Lt : length (nth k (seg_polys t) []) = N) by (rewrite <- Nt; apply (proj1 (Forall_nth _ _) Wt); unfold seg_D in Dt; lia).
  unfold dpoly. rewrite map_length, seq_length, Ls, Lt, <- !rsum_scal, <- rsum_plus. apply rsum_ext. intros i Hi.
  rewrite nth_map_seq0 by exact Hi. ring.
Qed.

Lemma combo_nth a b N D times A B i : (i < length times)%nat ->
  nth i (combo_chain a b N D times A B) no_seg = combo a b N D (nth i times 0) (nth i A no_seg) (nth i B no_seg).
Proof. intros H. unfold combo_chain. now rewrite nth_map_seq0. Qed.

Section Chains.
  Context (N dim : nat) (times : list R) (A B : list (segment R)).
  Hypothesis HA : chain_shape N dim times A.
  Hypothesis HB : chain_shape N dim times B.

  Lemma combo_chain_fun a b i k d x : (i < length times)%nat -> (k < dim)%nat ->
    seg_fun (nth i (combo_chain a b N dim times A B) no_seg) k d x = a * seg_fun (nth i A no_seg) k d x + b * seg_fun (nth i B no_seg) k d x.
  Proof.
    intros Hi Hk. rewrite combo_nth by exact Hi. destruct (proj2 HA i Hi) as (_ & A1 & A2 & A3). destruct (proj2 HB i Hi) as (_ & B1 & B2 & B3).
    now apply combo_fun.
  Qed.
  Lemma combo_chain_shape a b : chain_shape N dim times (combo_chain a b N dim times A B).
  Proof.
    split; [unfold combo_chain; now rewrite map_length, seq_length|]. intros i Hi. rewrite combo_nth by exact Hi. cbn.
    split; [reflexivity|]. split; [reflexivity|]. split; [unfold seg_D; cbn; now rewrite map_length, seq_length|].
    unfold seg_wf. cbn. apply Forall_map, Forall_forall. intros k _. now rewrite map_length, seq_length.
  Qed.
  Lemma combo_chain_length a b : length (combo_chain a b N dim times A B) = length times.
  Proof. exact (proj1 (combo_chain_shape a b)). Qed.
  Lemma combo_chain_time a b i : (i < length times)%nat -> seg_time (nth i (combo_chain a b N dim times A B) no_seg) = nth i times 0.
  Proof. intros Hi. now rewrite combo_nth. Qed.
  Lemma A_time i : (i < length times)%nat -> seg_time (nth i A no_seg) = nth i times 0. Proof. intros Hi. apply HA, Hi. Qed.
  Lemma B_time i : (i < length times)%nat -> seg_time (nth i B no_seg) = nth i times 0. Proof. intros Hi. apply HB, Hi. Qed.

  Lemma combo_smooth h a b : smooth_chain h dim A -> smooth_chain h dim B -> smooth_chain h dim (combo_chain a b N dim times A B).
  Proof.
    intros SA SB i k d Hi Hk Hd. rewrite combo_chain_length in Hi. rewrite combo_chain_time, !combo_chain_fun by lia.
    assert (LA := proj1 HA). assert (LB := proj1 HB).
    assert (XA := SA i k d ltac:(lia) Hk Hd). assert (XB := SB i k d ltac:(lia) Hk Hd). rewrite A_time in XA by lia. rewrite B_time in XB by lia. rewrite XA, XB. reflexivity.
  Qed.
  Lemma combo_meets h vs a : (length vs <= S (length times))%nat -> meets_constraints h dim vs A -> meets_constraints h dim vs B -> meets_constraints h dim vs (combo_chain a (1 - a) N dim times A B).
  Proof.
    intros HV MA MB i k x d Hi Hk Hd G. assert (LA := proj1 HA). assert (LB := proj1 HB).
    destruct (MA i k x d Hi Hk Hd G) as (A1 & A2). destruct (MB i k x d Hi Hk Hd G) as (B1 & B2). rewrite combo_chain_length. split; intros Q.
    - rewrite combo_chain_fun, A1, B1 by lia. ring.
    - rewrite combo_chain_time, combo_chain_fun by lia. specialize (A2 Q). specialize (B2 Q). rewrite A_time in A2 by lia. rewrite B_time in B2 by lia. rewrite A2, B2. ring.
  Qed.
End Chains.

(** Squares of derivatives are integrable. *)
Lemma seg_fun_continuous s k d t : continuous (seg_fun s k d) t.
Proof.
  apply (continuous_ext (dpoly (nth k (seg_polys s) []) d)); [intros x; symmetry; apply seg_fun_dpoly|].
  apply (ex_derive_continuous (dpoly (nth k (seg_polys s) []) d)). eexists. apply is_derive_dpoly.
Qed.
Lemma seg_sq_continuous s k d t : continuous (fun x => seg_fun s k d x ^ 2) t.
Proof.
  apply (continuous_ext (fun x => seg_fun s k d x * seg_fun s k d x)); [intros x; match goal with |- ?a = ?b => change (@eq R a b) end; ring|].
  apply (continuous_mult (seg_fun s k d) (seg_fun s k d)); apply seg_fun_continuous.
Qed.
Lemma seg_sq_int s k d a b : ex_RInt (fun x => seg_fun s k d x ^ 2) a b.
Proof. apply (ex_RInt_continuous (V := R_CompleteNormedModule)). intros; apply seg_sq_continuous. Qed.

Lemma half_int (f g m e : R -> R) a b :
  (forall x, m x = f x / 2 + g x / 2) -> (forall x, e x = f x - g x) ->
  ex_RInt (fun x => f x ^ 2) a b -> ex_RInt (fun x => g x ^ 2) a b -> ex_RInt (fun x => e x ^ 2) a b ->
  RInt (fun x => m x ^ 2) a b = RInt (fun x => f x ^ 2) a b / 2 + RInt (fun x => g x ^ 2) a b / 2 - RInt (fun x => e x ^ 2) a b / 4.
Proof.
  intros Hm He If Ig Ie. apply is_RInt_unique.
  assert (X := RInt_correct _ _ _ If). assert (Y := RInt_correct _ _ _ Ig). assert (Z := RInt_correct _ _ _ Ie).
  apply (is_RInt_scal _ _ _ (/ 2)) in X. apply (is_RInt_scal _ _ _ (/ 2)) in Y. apply (is_RInt_scal _ _ _ (- / 4)) in Z.
  assert (W := is_RInt_plus _ _ _ _ _ _ (is_RInt_plus _ _ _ _ _ _ X Y) Z). unfold scal, plus in W. cbn in W. unfold mult in W. cbn in W.
  replace (RInt (fun x => f x ^ 2) a b / 2 + RInt (fun x => g x ^ 2) a b / 2 - RInt (fun x => e x ^ 2) a b / 4) with
    (/ 2 * RInt (fun x => f x * (f x * 1)) a b + / 2 * RInt (fun x => g x * (g x * 1)) a b + - / 4 * RInt (fun x => e x * (e x * 1)) a b).
  - eapply is_RInt_ext; [|exact W]. intros x _. cbn. rewrite Hm, He. field.
  - cbn [pow]. field.
Qed.

Section Parallelogram.
  Context (N dim r : nat) (times : list R) (A B : list (segment R)).
  Hypothesis HA : chain_shape N dim times A.
  Hypothesis HB : chain_shape N dim times B.
  Lemma parallelogram :
    integral_cost r dim (combo_chain (1 / 2) (1 - 1 / 2) N dim times A B) =
    integral_cost r dim A / 2 + integral_cost r dim B / 2 - integral_cost r dim (combo_chain 1 (-1) N dim times A B) / 4.
  Proof.
    rewrite !integral_cost_rsum, !combo_chain_length by assumption. rewrite (proj1 HA), (proj1 HB).
    unfold Rdiv, Rminus. rewrite !Ropp_mult_distr_l, <- !rsum_scal_r.
    match goal with |- _ = _ + _ + - ?X * ?c => replace (- X * c) with (X * - c) by ring end.
    rewrite <- rsum_scal_r, <- !rsum_plus. apply rsum_ext. intros i Hi.
    match goal with |- _ = ?X * _ + ?Y * _ + ?Z * _ => replace (X * / 2 + Y * / 2 + Z * - / 4) with (rsum dim (fun d => 
       RInt (fun t => seg_fun (nth i A no_seg) d r t ^ 2) 0 (seg_time (nth i A no_seg)) / 2 +
       RInt (fun t => seg_fun (nth i B no_seg) d r t ^ 2) 0 (seg_time (nth i B no_seg)) / 2 -
       RInt (fun t => seg_fun (nth i (combo_chain 1 (-1) N dim times A B) no_seg) d r t ^ 2) 0 (seg_time (nth i (combo_chain 1 (-1) N dim times A B) no_seg)) / 4)) end.
    2: { rewrite <- !rsum_scal_r, <- !rsum_plus. apply rsum_ext. intros d Hd. cbv beta. field. }
    apply rsum_ext. intros d Hd. rewrite (A_time N dim times A HA), (B_time N dim times B HB), !combo_chain_time by assumption.
    apply half_int; try apply seg_sq_int; intros x; rewrite (combo_chain_fun N dim times A B HA HB) by assumption; field.
  Qed.
End Parallelogram.

(** A motion with zero cost has a vanishing derivative. *)
Lemma zero_integral (f : R -> R) T : 0 < T -> (forall t, continuous f t) -> (forall t, 0 <= f t) -> RInt f 0 T = 0 -> forall t, 0 < t < T -> f t = 0.
Proof.
  intros HT Hc Hp HI t Ht.
  assert (EX : forall a b, ex_RInt f a b) by (intros; apply (ex_RInt_continuous (V := R_CompleteNormedModule)); intros; apply Hc).
  assert (Z : forall x, 0 <= x <= T -> RInt f 0 x = 0).
  { intros x Hx. assert (C := RInt_Chasles f 0 x T (EX _ _) (EX _ _)). rewrite HI in C. change (RInt f 0 x + RInt f x T = 0) in C.
    assert (0 <= RInt f 0 x) by (apply RInt_ge_0; [lra|apply EX|auto]). assert (0 <= RInt f x T) by (apply RInt_ge_0; [lra|apply EX|auto]). lra. }
  assert (D : is_derive (fun x => RInt f 0 x) t (f t)).
  { apply (is_derive_RInt f (fun x => RInt f 0 x) 0 t); [exists (mkposreal 1 Rlt_0_1); intros y _; exact (RInt_correct f 0 y (EX 0 y))|apply Hc]. }
  assert (D0 : is_derive (fun x => RInt f 0 x) t 0).
  { apply (is_derive_ext_loc (fun _ => 0)); [|apply (is_derive_const 0 t)].
    assert (P : 0 < Rmin t (T - t)) by (apply Rmin_glb_lt; lra). exists (mkposreal _ P). intros y Hy. symmetry. apply Z.
    unfold ball in Hy. cbn in Hy. unfold AbsRing_ball, abs, minus, plus, opp in Hy. cbn in Hy.
    assert (M1 := Rmin_l t (T - t)). assert (M2 := Rmin_r t (T - t)). apply Rabs_def2 in Hy. lra. }
  rewrite <- (is_derive_unique _ _ _ D), (is_derive_unique _ _ _ D0). reflexivity.
Qed.

Lemma dpoly_zero_up c d : (forall t, dpoly c d t = 0) -> forall k t, (d <= k)%nat -> dpoly c k t = 0.
Proof.
  intros H k t Hk. revert t. induction Hk as [|k Hk IH]; [exact H|]. intros t.
  assert (D0 : is_derive (dpoly c k) t 0) by (apply (is_derive_ext (fun _ => 0)); [intros; symmetry; apply IH|apply (is_derive_const 0 t)]).
  rewrite <- (is_derive_unique _ _ _ (is_derive_dpoly c k t)). exact (is_derive_unique _ _ _ D0).
Qed.


Lemma poly_zero_on c d T : 0 < T -> (forall t, 0 < t < T -> dpoly c d t = 0) -> forall t, dpoly c d t = 0.
Proof.
  intros HT H.
  destruct (Nat.le_gt_cases (length c) d) as [L|L]; [intros t; now apply dpoly_ge|].
  set (e := map (fun i => bc d (i + d) * nth (i + d) c 0) (seq 0 (length c - d))).
  assert (E : forall t, poly_fun e t = dpoly c d t).
  { intros t. unfold poly_fun, e, dpoly. rewrite map_length, seq_length. replace (length c) with (d + (length c - d))%nat at 2 by lia.
    rewrite rsum_split, (rsum_zero d), Rplus_0_l by (intros i Hi; rewrite bc_lt by exact Hi; ring). apply rsum_ext. intros i Hi.
    rewrite nth_map_seq0 by exact Hi. rewrite (Nat.add_comm i d). replace (d + i - d)%nat with i by lia. reflexivity. }
  intros t. rewrite <- E.
  apply (distinct_roots_zero (length e) e (map (fun i => T * / INR (S (S i))) (seq 0 (length e))) eq_refl).
  - apply FinFun.Injective_map_NoDup; [|apply seq_NoDup]. intros i j Q. apply Rmult_eq_reg_l in Q; [|lra].
    apply (f_equal Rinv) in Q. rewrite !Rinv_inv in Q. apply INR_eq in Q. lia.
  - now rewrite map_length, seq_length.
  - intros x Hx. apply in_map_iff in Hx as (i & <- & _). rewrite E. apply H.
    assert (2 <= INR (S (S i))) by (rewrite !S_INR; assert (X := pos_INR i); lra).
    split; [apply Rmult_lt_0_compat; [exact HT|apply Rinv_0_lt_compat; lra]|].
    assert (/ INR (S (S i)) <= / 2) by (apply Rinv_le_contravar; lra). assert (T * / INR (S (S i)) <= T * / 2) by (apply Rmult_le_compat_l; lra). lra.
Qed.

Lemma poly_all_zero c d T : 0 < T -> (forall t, 0 < t < T -> dpoly c d t = 0) -> (forall k, (k < d)%nat -> dpoly c k 0 = 0) ->
  forall k t, dpoly c k t = 0.
Proof.
  intros HT H H0. assert (Z := poly_zero_on c d T HT H).
  assert (C : forall i, nth i c 0 = 0).
  { apply (taylor_zero c 0). intros k _. destruct (Nat.lt_ge_cases k d) as [L|L]; [now apply H0|]. now apply (dpoly_zero_up c d). }
  intros k t. unfold dpoly. apply rsum_zero. intros i _. rewrite C. ring.
Qed.
