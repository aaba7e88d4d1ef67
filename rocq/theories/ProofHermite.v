(** The map from coefficients to derivatives at 0 and T is injective, and the
    modelled inverse inverts it. *)
From Coq Require Import ZArith Reals List Lra Lia Arith Bool.
From Coquelicot Require Import Coquelicot.
From Verif Require Import Num RSum SpecPoly ModelPolynomial ModelSegment ModelVertex ModelLinear
  SpecSegment SpecLinear ProofPolynomial ProofPolynomial2 ProofSegment ProofRoots ProofMatrix.
Import ListNotations.
Open Scope R_scope.

Lemma dpoly_cons0 c k : forall t,
  dpoly (0 :: c) k t = t * dpoly c k t + INR k * dpoly c (k - 1) t.
Proof.
  induction k as [|k IH]; intros t.
  - rewrite !dpoly_0, poly_fun_cons. cbn [INR]. ring.
  - assert (H1 := is_derive_dpoly (0 :: c) k t).
    assert (H2 : is_derive (dpoly (0 :: c) k) t
                   (t * dpoly c (S k) t + 1 * dpoly c k t + INR k * (if Nat.eqb k 0 then 0 else dpoly c k t))).
    { apply (is_derive_ext (fun t => t * dpoly c k t + INR k * dpoly c (k - 1) t)).
      { intros s. symmetry. apply IH. }
      apply (is_derive_plus (fun t => t * dpoly c k t) (fun t => INR k * dpoly c (k - 1) t)).
      - replace (t * dpoly c (S k) t + 1 * dpoly c k t) with (plus (mult 1 (dpoly c k t)) (mult t (dpoly c (S k) t)))
          by (unfold plus, mult; cbn; ring).
        apply (is_derive_mult (fun t => t) (dpoly c k)).
        + exact (@is_derive_id R_AbsRing t).
        + apply is_derive_dpoly.
        + intros; apply Rmult_comm.
      - destruct k as [|k]; cbn [Nat.eqb].
        + cbn [INR]. apply (is_derive_ext (fun _ => 0)). { intros; cbn; ring. }
          replace (0 * 0) with 0 by ring. apply (is_derive_const 0 t).
        + replace (S k - 1)%nat with k by lia.
          apply (is_derive_scal (dpoly c k)). apply is_derive_dpoly. }
    apply is_derive_unique in H1. apply is_derive_unique in H2.
    rewrite H1 in H2. rewrite H2. replace (S k - 1)%nat with k by lia. rewrite S_INR.
    destruct (Nat.eqb_spec k 0) as [->|]; [cbn [INR]; ring|ring].
Qed.

Lemma dpoly_zeros_cons0 c T n : T <> 0 ->
  (forall k, (k < n)%nat -> dpoly (0 :: c) k T = 0) -> forall k, (k < n)%nat -> dpoly c k T = 0.
Proof.
  intros HT H k. induction k as [|k IH]; intros Hk; assert (E := H _ Hk); rewrite dpoly_cons0 in E.
  - cbn [INR] in E. apply (Rmult_eq_reg_l T); [lra|exact HT].
  - replace (S k - 1)%nat with k in E by lia. rewrite IH in E by lia.
    apply (Rmult_eq_reg_l T); [lra|exact HT].
Qed.

Lemma dpoly_zeros_shift m : forall c T n, T <> 0 ->
  (forall k, (k < n)%nat -> dpoly (repeat 0 m ++ c) k T = 0) -> forall k, (k < n)%nat -> dpoly c k T = 0.
Proof.
  induction m as [|m IH]; intros c T n HT H; [exact H|].
  apply IH; [exact HT|]. apply dpoly_zeros_cons0; [exact HT|]. exact H.
Qed.

(** All derivatives vanish at one point: the polynomial is zero. *)
Lemma taylor_zero c T : (forall k, (k < length c)%nat -> dpoly c k T = 0) -> forall i, nth i c 0 = 0.
Proof.
  induction c as [|a c IH] using rev_ind; intros H i; [destruct i; reflexivity|].
  assert (Ha : a = 0).
  { assert (E := H (length c)). rewrite app_length in E. cbn [length] in E. specialize (E ltac:(lia)).
    unfold dpoly in E. rewrite app_length in E. cbn [length] in E. rewrite Nat.add_1_r in E. cbn [rsum] in E.
    rewrite rsum_zero in E by (intros j Hj; rewrite bc_lt by exact Hj; ring).
    rewrite app_nth2, Nat.sub_diag in E by lia. cbn [nth pow] in E.
    assert (Hb := bc_pos (length c) (length c) (Nat.le_refl _)).
    apply (Rmult_eq_reg_l (bc (length c) (length c))); [lra|lra]. }
  subst a. destruct (Nat.lt_ge_cases i (length c)) as [Hi|Hi].
  - rewrite app_nth1 by exact Hi. apply IH. intros k Hk.
    rewrite <- (dpoly_pad c 1 k T). apply H. rewrite app_length. cbn [length]. lia.
  - rewrite app_nth2 by exact Hi. destruct (i - length c)%nat as [|[|]]; reflexivity.
Qed.

Lemma nth_repeat0 m i : nth i (repeat 0 m) 0 = 0.
Proof. rewrite nth_repeat_any. destruct (Nat.ltb i m); reflexivity. Qed.

(** Column block of the derivatives at T of the monomials t^h .. t^(2h-1). *)
Definition Dblock (h : nat) (T : R) (i j : nat) : R := bc i (h + j) * T ^ (h + j - i).

Lemma Dblock_injective h T : T <> 0 -> injective h (Dblock h T).
Proof.
  intros HT x H. set (c := map x (seq 0 h)).
  assert (Lc : length c = h) by (unfold c; rewrite map_length, seq_length; reflexivity).
  assert (Hc : forall j, (j < h)%nat -> nth j c 0 = x j).
  { intros j Hj. unfold c. rewrite nth_map_seq by exact Hj. reflexivity. }
  intros i Hi. rewrite <- Hc by exact Hi. apply (taylor_zero c T). rewrite Lc.
  apply (dpoly_zeros_shift h); [exact HT|]. intros k Hk. refine (eq_trans _ (H k Hk)).
  unfold dpoly. rewrite app_length, repeat_length, Lc, rsum_split.
  rewrite rsum_zero.
  2:{ intros j Hj. rewrite app_nth1 by (rewrite repeat_length; exact Hj). rewrite nth_repeat0. ring. }
  rewrite Rplus_0_l. apply rsum_ext. intros j Hj.
  rewrite app_nth2 by (rewrite repeat_length; lia). rewrite repeat_length.
  replace (h + j - h)%nat with j by lia. rewrite Hc by exact Hj. unfold Dblock. ring.
Qed.

(** Matrix access lemmas. *)
Lemma vget_mk {T} {ops : NumOps T} n (f : nat -> T) i : (i < n)%nat -> vget (mk_vec n f) i = f i.
Proof. intros H. unfold vget, mk_vec. rewrite nth_map_seq by exact H. reflexivity. Qed.
Lemma mk_vec_length {T} n (f : nat -> T) : length (mk_vec n f) = n.
Proof. unfold mk_vec. rewrite map_length, seq_length. reflexivity. Qed.
Lemma mk_mat_nth {T} r c (f : nat -> nat -> T) i : (i < r)%nat -> nth i (mk_mat r c f) [] = mk_vec c (f i).
Proof. intros H. unfold mk_mat. rewrite nth_map_seq by exact H. reflexivity. Qed.
Lemma mget_mk {T} {ops : NumOps T} r c (f : nat -> nat -> T) i j : (i < r)%nat -> (j < c)%nat ->
  mget (mk_mat r c f) i j = f i j.
Proof. intros Hi Hj. unfold mget. rewrite mk_mat_nth by exact Hi. apply vget_mk. exact Hj. Qed.
Lemma mk_mat_dims {T} r c (f : nat -> nat -> T) : mat_dims r c (mk_mat r c f).
Proof.
  split; [unfold mk_mat; rewrite map_length, seq_length; reflexivity|].
  apply List.Forall_forall. intros x Hx. unfold mk_mat in Hx. apply in_map_iff in Hx.
  destruct Hx as (i & <- & _). apply mk_vec_length.
Qed.
Lemma mget_mul r n c (A B : mat R) i j : (i < r)%nat -> (j < c)%nat ->
  mget (mat_mul r n c A B) i j = rsum n (fun k => mget A i k * mget B k j).
Proof. intros Hi Hj. unfold mat_mul. rewrite mget_mk by assumption. apply nsum_rsum. Qed.
Lemma vget_mat_vec r n (A : mat R) v i : (i < r)%nat ->
  vget (mat_vec r n A v) i = rsum n (fun k => mget A i k * vget v k).
Proof. intros Hi. unfold mat_vec. rewrite vget_mk by exact Hi. apply nsum_rsum. Qed.
Lemma prod_entry_mget n (A B : mat R) i j :
  prod_entry n A B i j = rsum n (fun k => mget A i k * mget B k j).
Proof. reflexivity. Qed.

(** Effective time of the second half of the mapping matrix. *)
Definition eff_time (t : R) : R := if Rlt_dec (Rabs t) (@dbl_epsilon R R_ops) then 0 else t.

(** Entries of the mapping matrix. *)
Lemma mapping_matrix_ok h t : (0 < h <= 11)%nat ->
  exists A, mapping_matrix h t = Ok A /\ mat_dims (2 * h) (2 * h) A /\
    (forall i j, (i < h)%nat -> (j < 2 * h)%nat -> mget A i j = bc i j * 0 ^ (j - i)) /\
    (forall i j, (i < h)%nat -> (j < 2 * h)%nat -> mget A (h + i) j = bc i j * eff_time t ^ (j - i)).
Proof.
  intros Hh. unfold mapping_matrix, opt_N.
  assert (Hrow : forall s i, (i < h)%nat ->
            baseCoeffsWithTime (Z.of_nat (2 * h)) (Z.of_nat i) s =
            Ok (mk_vec (2 * h) (fun j => bc i j * eff_time s ^ (j - i)))).
  { intros s i Hi.
    destruct (baseCoeffsWithTime_outcomes (Z.of_nat (2 * h)) (Z.of_nat i) s) as (_ & H).
    destruct H as (v & Ev & Lv); [lia|lia|]. rewrite Ev. f_equal.
    destruct (baseCoeffs_ok _ _ _ _ Ev) as (_ & _ & Lv' & Hn). rewrite !Nat2Z.id in *.
    apply (nth_ext _ _ 0 0); [rewrite mk_vec_length; exact Lv'|].
    intros j Hj. rewrite Hn by lia. unfold mk_vec. rewrite nth_map_seq by lia. cbn [Nat.add].
    unfold eff_time. destruct (Rlt_dec (Rabs s) dbl_epsilon); reflexivity. }
  rewrite (omap_ok _ (fun i => mk_vec (2 * h) (fun j => bc i j * eff_time n0 ^ (j - i)))).
  2:{ intros i Hi. apply in_seq in Hi. apply Hrow. lia. }
  cbn [obind].
  rewrite (omap_ok _ (fun i => mk_vec (2 * h) (fun j => bc i j * eff_time t ^ (j - i)))).
  2:{ intros i Hi. apply in_seq in Hi. apply Hrow. lia. }
  cbn [obind]. eexists. split; [reflexivity|].
  assert (H0 : eff_time (@n0 R R_ops) = 0).
  { unfold eff_time. destruct (Rlt_dec _ _); [reflexivity|]. reflexivity. }
  rewrite H0. split.
  - split; [rewrite app_length, !map_length, !seq_length; lia|].
    apply List.Forall_app. split; apply List.Forall_forall; intros x Hx; apply in_map_iff in Hx;
      destruct Hx as (i & <- & _); apply mk_vec_length.
  - assert (L1 : forall s, length (map (fun i => mk_vec (2 * h) (fun j => bc i j * s ^ (j - i))) (seq 0 h)) = h).
    { intros s. rewrite map_length, seq_length. reflexivity. }
    split; intros i j Hi Hj; unfold mget.
    + rewrite app_nth1 by (rewrite L1; exact Hi). rewrite nth_map_seq by exact Hi. apply (vget_mk (2 * h) (fun j => bc i j * 0 ^ (j - i))). exact Hj.
    + rewrite app_nth2 by (rewrite L1; lia). rewrite L1.
      replace (h + i - h)%nat with i by lia. rewrite nth_map_seq by exact Hi.
      apply (vget_mk (2 * h) (fun j => bc i j * eff_time t ^ (j - i))). exact Hj.
Qed.

Lemma eff_time_id t : / 2 ^ 52 <= t -> eff_time t = t.
Proof.
  intros H. unfold eff_time. rewrite dbl_epsilon_val. destruct (Rlt_dec (Rabs t) (/ 2 ^ 52)) as [Hs|]; [|reflexivity].
  assert (0 < / 2 ^ 52) by (apply Rinv_0_lt_compat; apply pow_lt; lra).
  rewrite Rabs_pos_eq in Hs by lra. lra.
Qed.

(** invert_mapping inverts the mapping matrix. *)
Lemma invert_mapping_inverse h inv t A : (0 < h <= 11)%nat -> inverse_ok h inv ->
  / 2 ^ 52 <= t -> mapping_matrix h t = Ok A -> is_inverse (2 * h) A (invert_mapping h inv A).
Proof.
  intros Hh Hinv Ht EA.
  destruct (mapping_matrix_ok h t Hh) as (A' & EA' & _ & Htop & Hbot).
  rewrite EA in EA'. apply Ok_inj in EA'. subst A'. rewrite (eff_time_id t Ht) in Hbot.
  assert (Htp : 0 < t).
  { assert (0 < / 2 ^ 52) by (apply Rinv_0_lt_compat; apply pow_lt; lra). lra. }
  set (D := mk_mat h h (fun i j => mget A (h + i) (h + j))).
  assert (HD : forall i j, (i < h)%nat -> (j < h)%nat -> mget D i j = Dblock h t i j).
  { intros i j Hi Hj. unfold D. rewrite mget_mk by assumption. apply Hbot; lia. }
  destruct (injective_inverse h (Dblock h t)) as (B & HB1 & HB2); [apply Dblock_injective; lra|].
  assert (HI : is_inverse h D (inv D)).
  { apply Hinv; [apply mk_mat_dims|]. exists (mk_mat h h B). intros i j Hi Hj.
    rewrite !prod_entry_mget. split.
    - refine (eq_trans _ (HB1 i j Hi Hj)). apply rsum_ext. intros k Hk. rewrite HD, mget_mk by assumption. reflexivity.
    - refine (eq_trans _ (HB2 i j Hi Hj)). apply rsum_ext. intros k Hk. rewrite HD, mget_mk by assumption. reflexivity. }
  set (Di := inv D) in *.
  set (C := mk_mat h h (fun i j => mget A (h + i) j)).
  set (a := fun i => bc i i).
  assert (Ha : forall i, 0 < a i) by (intros i; apply bc_pos; lia).
  assert (Hdiag : forall i j, (i < h)%nat -> (j < 2 * h)%nat -> mget A i j = if Nat.eqb i j then a i else 0).
  { intros i j Hi Hj. rewrite Htop by assumption. destruct (Nat.eqb_spec i j) as [->|Hne].
    - rewrite Nat.sub_diag. cbn [pow]. unfold a. ring.
    - destruct (Nat.lt_ge_cases j i) as [L|L]; [rewrite bc_lt by exact L; ring|].
      rewrite pow_i by lia. ring. }
  set (L := fun i j => - rsum h (fun k => mget Di i k * mget C k j) * / a j).
  set (I := invert_mapping h inv A).
  assert (I11 : forall i j, (i < h)%nat -> (j < h)%nat -> mget I i j = delta i j * / a j).
  { intros i j Hi Hj. unfold I, invert_mapping, opt_N. rewrite mget_mk by lia.
    destruct (Nat.ltb_spec i h); [|lia]. destruct (Nat.ltb_spec j h); [|lia].
    rewrite mget_mk by assumption. unfold delta. destruct (Nat.eqb_spec i j) as [->|]; [|unfold n0; rnum; ring].
    rewrite Hdiag, Nat.eqb_refl by lia. unfold n1. rnum. unfold Rdiv. reflexivity. }
  assert (I12 : forall i j, (i < h)%nat -> (j < h)%nat -> mget I i (h + j) = 0).
  { intros i j Hi Hj. unfold I, invert_mapping, opt_N. rewrite mget_mk by lia.
    destruct (Nat.ltb_spec i h); [|lia]. destruct (Nat.ltb_spec (h + j) h); [lia|]. reflexivity. }
  assert (I21 : forall i j, (i < h)%nat -> (j < h)%nat -> mget I (h + i) j = L i j).
  { intros i j Hi Hj. unfold I, invert_mapping, opt_N. rewrite mget_mk by lia.
    destruct (Nat.ltb_spec (h + i) h); [lia|]. destruct (Nat.ltb_spec j h); [|lia].
    replace (h + i - h)%nat with i by lia. rewrite mget_mul by assumption. fold D Di C.
    rewrite (rsum_ext h _ (fun k => (- rsum h (fun l => mget Di i l * mget C l k) * / a k) * delta k j)).
    2:{ intros k Hk. rewrite mget_mul by assumption. rewrite mget_mk by assumption.
        rewrite (rsum_ext h _ (fun l => - (mget Di i l * mget C l k))).
        2:{ intros l Hl. rewrite mget_mk by assumption. rnum. ring. }
        rewrite rsum_opp. unfold delta. destruct (Nat.eqb_spec k j) as [->|]; [|unfold n0; rnum; ring].
        rewrite Hdiag, Nat.eqb_refl by lia. unfold n1. rnum. unfold Rdiv. ring. }
    rewrite rsum_delta_r by exact Hj. reflexivity. }
  assert (I22 : forall i j, (i < h)%nat -> (j < h)%nat -> mget I (h + i) (h + j) = mget Di i j).
  { intros i j Hi Hj. unfold I, invert_mapping, opt_N. rewrite mget_mk by lia.
    destruct (Nat.ltb_spec (h + i) h); [lia|]. destruct (Nat.ltb_spec (h + j) h); [lia|].
    replace (h + i - h)%nat with i by lia. replace (h + j - h)%nat with j by lia. reflexivity. }
  assert (HC : forall i j, (i < h)%nat -> (j < h)%nat -> mget A (h + i) j = mget C i j).
  { intros i j Hi Hj. unfold C. rewrite mget_mk by assumption. reflexivity. }
  assert (HD' : forall i j, (i < h)%nat -> (j < h)%nat -> mget A (h + i) (h + j) = mget D i j).
  { intros i j Hi Hj. unfold D. rewrite mget_mk by assumption. reflexivity. }
  assert (A12 : forall i j, (i < h)%nat -> (j < h)%nat -> mget A i (h + j) = 0).
  { intros i j Hi Hj. rewrite Hdiag by lia. destruct (Nat.eqb_spec i (h + j)); [lia|reflexivity]. }
  assert (A11 : forall i j, (i < h)%nat -> (j < h)%nat -> mget A i j = a i * delta i j).
  { intros i j Hi Hj. rewrite Hdiag by lia. unfold delta. destruct (Nat.eqb_spec i j); ring. }
  assert (Hne : forall i j, (i < h)%nat -> delta i (h + j) = 0).
  { intros i j Hi. unfold delta. destruct (Nat.eqb_spec i (h + j)); [lia|reflexivity]. }
  assert (Hne' : forall i j, (j < h)%nat -> delta (h + i) j = 0).
  { intros i j Hi. unfold delta. destruct (Nat.eqb_spec (h + i) j); [lia|reflexivity]. }
  assert (Hss : forall i j, delta (h + i) (h + j) = delta i j).
  { intros i j. unfold delta. destruct (Nat.eqb_spec (h + i) (h + j)), (Nat.eqb_spec i j); try lia; reflexivity. }
  assert (HI1 : forall i j, (i < h)%nat -> (j < h)%nat -> rsum h (fun k => mget D i k * mget Di k j) = delta i j).
  { intros i j Hi Hj. exact (proj1 (HI i j Hi Hj)). }
  assert (HI2 : forall i j, (i < h)%nat -> (j < h)%nat -> rsum h (fun k => mget Di i k * mget D k j) = delta i j).
  { intros i j Hi Hj. exact (proj2 (HI i j Hi Hj)). }
  assert (Hsplit : forall M1 M2 i j, rsum (2 * h) (fun k => mget M1 i k * mget M2 k j) =
            rsum h (fun k => mget M1 i k * mget M2 k j) + rsum h (fun k => mget M1 i (h + k) * mget M2 (h + k) j)).
  { intros. replace (2 * h)%nat with (h + h)%nat by lia. apply rsum_split. }
  intros i j Hi Hj. rewrite !prod_entry_mget. fold I. fold (delta i j). rewrite !Hsplit.
  destruct (Nat.lt_ge_cases i h) as [Li|Li].
  - destruct (Nat.lt_ge_cases j h) as [Lj|Lj].
    + split.
      * rewrite (rsum_ext h _ (fun k => delta i k * (a i * (delta k j * / a j)))).
        2:{ intros k Hk. rewrite A11, I11 by assumption. ring. }
        rewrite rsum_delta_l by exact Li. rewrite rsum_zero.
        2:{ intros k Hk. rewrite A12 by assumption. ring. }
        unfold delta. specialize (Ha j). destruct (Nat.eqb_spec i j) as [->|]; [field; lra|ring].
      * rewrite (rsum_ext h _ (fun k => delta i k * (/ a k * (a k * delta k j)))).
        2:{ intros k Hk. rewrite A11, I11 by assumption. ring. }
        rewrite rsum_delta_l by exact Li. rewrite rsum_zero.
        2:{ intros k Hk. rewrite I12 by assumption. ring. }
        specialize (Ha i). field. lra.
    + replace j with (h + (j - h))%nat by lia. set (j' := (j - h)%nat). assert (Hj' : (j' < h)%nat) by (unfold j'; lia).
      rewrite Hne by exact Li. split.
      * rewrite rsum_zero; [rewrite rsum_zero; [ring|]|].
        -- intros k Hk. rewrite A12 by assumption. ring.
        -- intros k Hk. rewrite I12 by assumption. ring.
      * rewrite rsum_zero; [rewrite rsum_zero; [ring|]|].
        -- intros k Hk. rewrite I12 by assumption. ring.
        -- intros k Hk. rewrite A12 by assumption. ring.
  - replace i with (h + (i - h))%nat by lia. set (i' := (i - h)%nat). assert (Hi' : (i' < h)%nat) by (unfold i'; lia).
    destruct (Nat.lt_ge_cases j h) as [Lj|Lj].
    + rewrite Hne' by exact Lj. split.
      * rewrite (rsum_ext h _ (fun k => (mget C i' k * / a j) * delta k j)).
        2:{ intros k Hk. rewrite HC, I11 by assumption. ring. }
        rewrite rsum_delta_r by exact Lj.
        rewrite (rsum_ext h _ (fun k => (- / a j) * (mget D i' k * rsum h (fun l => mget Di k l * mget C l j)))).
        2:{ intros k Hk. rewrite HD', I21 by assumption. unfold L. ring. }
        rewrite rsum_scal.
        rewrite (rsum_assoc h h (mget D i') (mget Di) (fun l => mget C l j)).
        rewrite (rsum_ext h _ (fun l => delta i' l * mget C l j)).
        2:{ intros l Hl. rewrite HI1 by assumption. reflexivity. }
        rewrite rsum_delta_l by exact Hi'. ring.
      * rewrite (rsum_ext h _ (fun k => (L i' k * a k) * delta k j)).
        2:{ intros k Hk. rewrite A11, I21 by assumption. ring. }
        rewrite rsum_delta_r by exact Lj.
        rewrite (rsum_ext h (fun k => mget I (h + i') (h + k) * mget A (h + k) j) (fun k => mget Di i' k * mget C k j)).
        2:{ intros k Hk. rewrite HC, I22 by assumption. reflexivity. }
        unfold L. specialize (Ha j). field. lra.
    + replace j with (h + (j - h))%nat by lia. set (j' := (j - h)%nat). assert (Hj' : (j' < h)%nat) by (unfold j'; lia).
      rewrite Hss. split.
      * rewrite rsum_zero. 2:{ intros k Hk. rewrite I12 by assumption. ring. }
        rewrite (rsum_ext h _ (fun k => mget D i' k * mget Di k j')).
        2:{ intros k Hk. rewrite HD', I22 by assumption. reflexivity. }
        rewrite HI1 by assumption. ring.
      * rewrite rsum_zero. 2:{ intros k Hk. rewrite A12 by assumption. ring. }
        rewrite (rsum_ext h _ (fun k => mget Di i' k * mget D k j')).
        2:{ intros k Hk. rewrite HD', I22 by assumption. reflexivity. }
        rewrite HI2 by assumption. ring.
Qed.
