(** Proofs about ModelPolynomial at the real instance. *)
From Coq Require Import Reals Lra Lia List Arith ZArith Bool.
From Coquelicot Require Import Coquelicot.
From Verif Require Import Num RSum SpecPoly ModelPolynomial.
Import ListNotations.
Open Scope R_scope.

Notation bc := (@base_coefficient R R_ops).

Lemma bc_0 i : bc 0 i = 1.
Proof. reflexivity. Qed.

Lemma bc_S n i : bc (S n) i = if Nat.ltb i n then 0 else (INR i - INR n) * bc n i.
Proof.
  cbn [base_coefficient]. destruct (Nat.ltb i n); [reflexivity|].
  rnum. rewrite minus_IZR, <- !INR_IZR_INZ. reflexivity.
Qed.

Lemma bc_lt n i : (i < n)%nat -> bc n i = 0.
Proof.
  destruct n as [|n]; intros H; [lia|]. rewrite bc_S.
  destruct (Nat.ltb_spec i n) as [Hl|Hl]; [reflexivity|].
  replace i with n by lia. lra.
Qed.

Lemma bc_step n i : bc (S n) i = INR (i - n) * bc n i.
Proof.
  rewrite bc_S. destruct (Nat.ltb_spec i n) as [Hl|Hl].
  - rewrite (bc_lt n i Hl). lra.
  - rewrite minus_INR by lia. reflexivity.
Qed.

Lemma bc_fact n i : (n <= i)%nat -> bc n i * INR (fact (i - n)) = INR (fact i).
Proof.
  induction n as [|n IH]; intros H.
  - rewrite bc_0, Nat.sub_0_r. lra.
  - rewrite bc_step, <- IH by lia.
    replace (i - n)%nat with (S (i - S n)) by lia.
    rewrite fact_simpl, mult_INR. lra.
Qed.

Lemma bc_pos n i : (n <= i)%nat -> 0 < bc n i.
Proof.
  intros H. pose proof (bc_fact n i H) as E.
  pose proof (INR_fact_lt_0 (i - n)) as H1. pose proof (INR_fact_lt_0 i) as H2.
  destruct (Rlt_le_dec 0 (bc n i)) as [Hp|Hn]; [exact Hp|].
  assert (bc n i * INR (fact (i - n)) <= 0) by (apply Ropp_le_cancel; rewrite Ropp_0, Ropp_mult_distr_l; apply Rmult_le_pos; lra).
  lra.
Qed.

Lemma bc_shift d e i : bc (d + e) i = bc d i * bc e (i - d).
Proof.
  induction e as [|e IH].
  - rewrite Nat.add_0_r, bc_0. lra.
  - rewrite Nat.add_succ_r, !bc_step, IH.
    replace (i - d - e)%nat with (i - (d + e))%nat by lia. lra.
Qed.

(** The d-th formal derivative as a function. *)
Definition dpoly (c : list R) (d : nat) (t : R) : R :=
  rsum (length c) (fun j => bc d j * nth j c 0 * t ^ (j - d)).

Lemma dpoly_0 c t : dpoly c 0 t = poly_fun c t.
Proof.
  unfold dpoly, poly_fun. apply rsum_ext. intros i _.
  rewrite bc_0, Nat.sub_0_r. lra.
Qed.

Lemma is_derive_rsum n (f : nat -> R -> R) (g : nat -> R) t :
  (forall i, (i < n)%nat -> is_derive (f i) t (g i)) ->
  is_derive (fun x => rsum n (fun i => f i x)) t (rsum n g).
Proof.
  induction n as [|n IH]; intros H; cbn [rsum].
  - apply (is_derive_const 0 t).
  - apply (is_derive_plus (fun x => rsum n (fun i => f i x)) (f n)).
    + apply IH. intros i Hi. apply H. lia.
    + apply H. lia.
Qed.

Lemma is_derive_dpoly c d t : is_derive (dpoly c d) t (dpoly c (S d) t).
Proof.
  unfold dpoly. apply is_derive_rsum. intros j _.
  rewrite bc_step.
  auto_derive; [exact I|].
  replace (j - S d)%nat with (pred (j - d)) by lia.
  ring.
Qed.

Lemma dpoly_ext_derive_n c d t : Derive_n (poly_fun c) d t = dpoly c d t.
Proof.
  revert t. induction d as [|d IH]; intros t; cbn [Derive_n].
  - symmetry. apply dpoly_0.
  - rewrite (Derive_ext _ (dpoly c d)) by exact IH.
    apply is_derive_unique. apply is_derive_dpoly.
Qed.

Lemma is_derive_n_dpoly c d t : is_derive_n (poly_fun c) d t (dpoly c d t).
Proof.
  destruct d as [|d]; cbn [is_derive_n].
  - symmetry. apply dpoly_0.
  - apply (is_derive_ext (dpoly c d)).
    + intros s. symmetry. apply dpoly_ext_derive_n.
    + apply is_derive_dpoly.
Qed.

Lemma dpoly_ge c d t : (length c <= d)%nat -> dpoly c d t = 0.
Proof.
  intros H. unfold dpoly. apply rsum_zero. intros i Hi.
  rewrite bc_lt by lia. ring.
Qed.

(** Horner *)
Lemma horner_spec (f : nat -> R) t d k acc :
  horner f t d k acc = acc * t ^ k + rsum k (fun i => f (d + i)%nat * t ^ i).
Proof.
  revert acc. induction k as [|k IH]; intros acc; cbn [horner rsum pow].
  - lra.
  - rewrite IH. rnum. ring.
Qed.

Lemma eval_row_dpoly c t d : (d < length c)%nat -> eval_row c t d = dpoly c d t.
Proof.
  intros H. unfold eval_row, dpoly.
  rewrite horner_spec. set (N := length c) in *.
  rewrite (rsum_ext N _ (fun j => if Nat.ltb j d then 0 else bc d j * nth j c 0 * t ^ (j - d))).
  2:{ intros i Hi. destruct (Nat.ltb_spec i d) as [Hl|Hl]; [|reflexivity].
      rewrite bc_lt by exact Hl. ring. }
  match goal with |- _ = rsum N ?g => replace (rsum N g) with (rsum (d + S (N - 1 - d)) g) by (f_equal; lia) end.
  rewrite rsum_split. rewrite (rsum_zero d).
  2:{ intros i Hi. destruct (Nat.ltb_spec i d); [reflexivity|lia]. }
  cbn [rsum]. unfold coeff. rnum.
  rewrite Rplus_0_l, Rplus_comm. f_equal.
  - apply rsum_ext. intros i Hi. destruct (Nat.ltb_spec (d + i) d); [lia|].
    replace (d + i - d)%nat with i by lia. ring.
  - destruct (Nat.ltb_spec (d + (N - 1 - d)) d); [lia|].
    replace (d + (N - 1 - d))%nat with (N - 1)%nat by lia. ring.
Qed.

Lemma poly_evaluate_ok c t d :
  (length c <= kMaxConvolutionSize)%nat \/ (length c <= d)%nat ->
  poly_evaluate c t (Z.of_nat d) = Ok (dpoly c d t).
Proof.
  intros H. unfold poly_evaluate.
  destruct (Z.leb_spec (Z.of_nat (length c)) (Z.of_nat d)) as [Hd|Hd].
  - rewrite dpoly_ge by lia. reflexivity.
  - destruct (Z.ltb_spec (Z.of_nat d) 0) as [Hn|Hn]; [lia|].
    destruct (Nat.ltb_spec kMaxConvolutionSize (length c)) as [Hs|Hs]; [lia|].
    cbn [orb]. rewrite Nat2Z.id. rewrite eval_row_dpoly by lia. reflexivity.
Qed.

Lemma poly_evaluate_cases c t d :
  match poly_evaluate c t d with
  | Ok v => (0 <= d)%Z /\ v = dpoly c (Z.to_nat d) t
  | UB => ((d < 0)%Z \/ (kMaxConvolutionSize < length c)%nat) /\ (d < Z.of_nat (length c))%Z
  | _ => False
  end.
Proof.
  unfold poly_evaluate.
  destruct (Z.leb_spec (Z.of_nat (length c)) d) as [Hd|Hd].
  - split; [lia|]. rewrite dpoly_ge by lia. reflexivity.
  - destruct (Z.ltb_spec d 0) as [Hn|Hn]; cbn [orb]; [lia|].
    destruct (Nat.ltb_spec kMaxConvolutionSize (length c)) as [Hs|Hs]; [lia|].
    split; [lia|]. apply eval_row_dpoly. lia.
Qed.

Lemma nth_map_seq {A} (f : nat -> A) a n i dflt :
  (i < n)%nat -> nth i (map f (seq a n)) dflt = f (a + i)%nat.
Proof.
  intros H. rewrite (nth_indep _ dflt (f 0%nat)) by (rewrite map_length, seq_length; exact H).
  rewrite (map_nth f). rewrite seq_nth by exact H. reflexivity.
Qed.

Lemma nth_map_lt {A B} (f : A -> B) l db da i :
  (i < length l)%nat -> nth i (map f l) db = f (nth i l da).
Proof.
  revert i. induction l as [|x l IH]; intros [|i] H; cbn [length map nth] in *; try lia; [reflexivity|].
  apply IH. lia.
Qed.

(** getCoefficients *)
Lemma getCoefficients_ok c d cs :
  poly_getCoefficients c d = Ok cs ->
  (0 <= d <= Z.of_nat (length c))%Z /\ length cs = length c /\
  forall e t, dpoly cs e t = dpoly c (Z.to_nat d + e) t.
Proof.
  unfold poly_getCoefficients.
  destruct (Z.ltb_spec (Z.of_nat (length c)) d) as [H1|H1]; [discriminate|].
  destruct (Z.eqb_spec d 0) as [->|H2].
  - intros E. injection E as <-. split; [lia|]. split; reflexivity.
  - destruct (Z.ltb_spec d 0) as [H3|H3]; [discriminate|].
    destruct (_ || _); [discriminate|].
    intros E. injection E as <-. split; [lia|].
    rewrite map_length, seq_length. split; [reflexivity|].
    intros e t. unfold dpoly. rewrite map_length, seq_length.
    set (N := length c) in *. set (k := Z.to_nat d).
    assert (Hk : (k <= N)%nat) by lia.
    transitivity (rsum (N - k) (fun j => bc (k + e) (k + j) * nth (k + j) c 0 * t ^ (j - e))).
    + replace N with ((N - k) + k)%nat at 1 by lia. rewrite rsum_split.
      rewrite (rsum_zero k).
      2:{ intros i Hi. rewrite nth_map_seq by lia. cbn [Nat.add].
          destruct (Nat.ltb_spec (N - k + i) (N - k)); [lia|]. rnum. ring. }
      rewrite Rplus_0_r. apply rsum_ext. intros i Hi.
      rewrite nth_map_seq by lia. cbn [Nat.add].
      destruct (Nat.ltb_spec i (N - k)); [|lia]. unfold coeff. rnum.
      rewrite bc_shift. replace (k + i - k)%nat with i by lia. ring.
    + symmetry. replace N with (k + (N - k))%nat at 1 by lia. rewrite rsum_split.
      rewrite (rsum_zero k).
      2:{ intros i Hi. rewrite bc_lt by lia. ring. }
      rewrite Rplus_0_l. apply rsum_ext. intros i Hi.
      replace (k + i - (k + e))%nat with (i - e)%nat by lia. reflexivity.
Qed.

Lemma getCoefficients_cases c d :
  match poly_getCoefficients c d with
  | Ok _ => (0 <= d <= Z.of_nat (length c))%Z
  | Abort => (Z.of_nat (length c) < d)%Z
  | UB => (d < 0)%Z \/ (kMaxConvolutionSize < length c)%nat \/ (Z.of_nat kMaxConvolutionSize <= d)%Z
  | Throw => False
  end.
Proof.
  unfold poly_getCoefficients.
  destruct (Z.ltb_spec (Z.of_nat (length c)) d) as [H1|H1]; [lia|].
  destruct (Z.eqb_spec d 0) as [->|H2]; [lia|].
  destruct (Z.ltb_spec d 0) as [H3|H3]; [lia|].
  destruct (Nat.ltb_spec kMaxConvolutionSize (length c)); cbn [orb]; [lia|].
  destruct (Z.leb_spec (Z.of_nat kMaxConvolutionSize) d); lia.
Qed.

Lemma getCoefficients_defined c d :
  (length c <= kMaxConvolutionSize)%nat -> (0 <= d <= Z.of_nat (length c))%Z ->
  (d < Z.of_nat kMaxConvolutionSize)%Z ->
  exists cs, poly_getCoefficients c d = Ok cs.
Proof.
  intros H1 H2 H3. pose proof (getCoefficients_cases c d) as Hc.
  destruct (poly_getCoefficients c d) as [cs| | |]; [exists cs; reflexivity|lia|lia|tauto].
Qed.

(** Sums and scalars *)
Lemma poly_fun_add c d r t :
  poly_add c d = Ok r -> length r = length c /\ poly_fun r t = poly_fun c t + poly_fun d t.
Proof.
  unfold poly_add. destruct (Nat.eqb_spec (length c) (length d)) as [E|E]; [|discriminate].
  intros H. injection H as <-.
  split; [rewrite map_length, combine_length; lia|].
  unfold poly_fun. rewrite map_length, combine_length, <- E, Nat.min_id, <- rsum_plus.
  apply rsum_ext. intros i Hi.
  rewrite (nth_map_lt _ _ 0 (0, 0)) by (rewrite combine_length; lia).
  rewrite combine_nth by exact E.
  rnum. cbn [fst snd]. ring.
Qed.

Lemma dpoly_add c d r e t :
  poly_add c d = Ok r -> dpoly r e t = dpoly c e t + dpoly d e t.
Proof.
  intros H. rewrite <- !dpoly_ext_derive_n.
  assert (Hx : forall s, poly_fun r s = poly_fun c s + poly_fun d s).
  { intros s. apply (poly_fun_add c d r s H). }
  rewrite (Derive_n_ext _ _ _ _ Hx).
  apply Derive_n_plus.
  - exists (mkposreal 1 Rlt_0_1). intros y _ k _.
    destruct k as [|k]; [exact I|]. exists (dpoly c (S k) y). apply (is_derive_n_dpoly c (S k)).
  - exists (mkposreal 1 Rlt_0_1). intros y _ k _.
    destruct k as [|k]; [exact I|]. exists (dpoly d (S k) y). apply (is_derive_n_dpoly d (S k)).
Qed.

Lemma poly_add_defined c d : length c = length d -> exists r, poly_add c d = Ok r.
Proof. intros H. unfold poly_add. rewrite H, Nat.eqb_refl. eexists; reflexivity. Qed.

Lemma scalar_mul_length c (s : R) : length (poly_scalar_mul c s) = length c.
Proof. apply map_length. Qed.

Lemma scalar_mul_nth c (s : R) i : nth i (poly_scalar_mul c s) 0 = nth i c 0 * s.
Proof.
  revert i. induction c as [|x c IH]; intros [|i]; cbn; rnum; try ring. apply IH.
Qed.

Lemma dpoly_scalar_mul c s d t : dpoly (poly_scalar_mul c s) d t = s * dpoly c d t.
Proof.
  unfold dpoly. rewrite scalar_mul_length, <- rsum_scal. apply rsum_ext.
  intros i Hi. rewrite scalar_mul_nth. ring.
Qed.

(** Padding *)
Lemma nth_repeat_any {A} (x dflt : A) n i : nth i (repeat x n) dflt = if Nat.ltb i n then x else dflt.
Proof.
  revert i. induction n as [|n IH]; intros i; cbn [repeat].
  - destruct i; reflexivity.
  - destruct i as [|i]; [reflexivity|]. cbn [nth]. rewrite IH.
    change (Nat.ltb (S i) (S n)) with (Nat.ltb i n). reflexivity.
Qed.

Lemma dpoly_pad c n d t : dpoly (c ++ repeat 0 n) d t = dpoly c d t.
Proof.
  unfold dpoly. rewrite app_length, repeat_length, rsum_split.
  rewrite (rsum_zero n).
  2:{ intros i Hi. rewrite app_nth2 by lia. rewrite nth_repeat_any.
      destruct (Nat.ltb _ _); ring. }
  rewrite Rplus_0_r. apply rsum_ext. intros i Hi. rewrite app_nth1 by exact Hi. reflexivity.
Qed.

Lemma poly_append_spec (c : list R) (n : Z) :
  fst (poly_append c n) = true <-> (Z.of_nat (length c) <= n)%Z.
Proof.
  unfold poly_append. destruct (Z.eqb_spec n (Z.of_nat (length c))) as [E|E]; cbn [fst].
  - split; intros; [lia|reflexivity].
  - destruct (Z.ltb_spec n (Z.of_nat (length c))) as [L|L]; cbn [fst]; split; intros; try lia; try discriminate; reflexivity.
Qed.

Lemma poly_append_false c (n : Z) :
  fst (@poly_append R R_ops c n) = false -> snd (@poly_append R R_ops c n) = c.
Proof.
  unfold poly_append. destruct (Z.eqb_spec n (Z.of_nat (length c))) as [E|E]; cbn [fst snd]; [reflexivity|].
  destruct (Z.ltb_spec n (Z.of_nat (length c))) as [L|L]; cbn [fst snd]; [reflexivity|discriminate].
Qed.

Lemma poly_append_dpoly c n d t : dpoly (snd (poly_append c n)) d t = dpoly c d t.
Proof.
  unfold poly_append. destruct (Z.eqb_spec n (Z.of_nat (length c))) as [E|E]; cbn [fst snd]; [reflexivity|].
  destruct (Z.ltb_spec n (Z.of_nat (length c))) as [L|L]; cbn [fst snd]; [reflexivity|].
  apply dpoly_pad.
Qed.

Lemma poly_append_length (c : list R) n :
  fst (poly_append c n) = true -> Z.of_nat (length (snd (poly_append c n))) = n.
Proof.
  unfold poly_append. destruct (Z.eqb_spec n (Z.of_nat (length c))) as [E|E]; cbn [fst snd]; [lia|].
  destruct (Z.ltb_spec n (Z.of_nat (length c))) as [L|L]; cbn [fst snd]; [discriminate|].
  intros _. rewrite app_length, repeat_length. lia.
Qed.

(** Time scaling *)
Lemma scale_loop_length (c : list R) s f : length (scale_loop c s f) = length c.
Proof. revert s. induction c as [|x c IH]; intros s; cbn [scale_loop length]; [reflexivity|]. rewrite IH. reflexivity. Qed.

Lemma scale_loop_nth (c : list R) s f i : nth i (scale_loop c s f) 0 = nth i c 0 * s * f ^ i.
Proof.
  revert s i. induction c as [|x c IH]; intros s i; cbn [scale_loop].
  - destruct i; cbn [nth]; ring.
  - destruct i as [|i]; cbn [nth pow]; rnum; [ring|]. rewrite IH. ring.
Qed.

Lemma scale_time_length (c : list R) f : length (poly_scale_time c f) = length c.
Proof. apply scale_loop_length. Qed.

Lemma scale_time_nth (c : list R) f i : nth i (poly_scale_time c f) 0 = nth i c 0 * f ^ i.
Proof. unfold poly_scale_time. rewrite scale_loop_nth. rnum. ring. Qed.

Lemma dpoly_scale_time c f d t :
  dpoly (poly_scale_time c f) d t = f ^ d * dpoly c d (f * t).
Proof.
  unfold dpoly. rewrite scale_time_length, <- rsum_scal. apply rsum_ext.
  intros i Hi. rewrite scale_time_nth.
  destruct (Nat.lt_ge_cases i d) as [L|L].
  - rewrite bc_lt by exact L. ring.
  - rewrite Rpow_mult_distr.
    replace (f ^ i) with (f ^ d * f ^ (i - d)).
    + ring.
    + rewrite <- pow_add. f_equal. lia.
Qed.

(** Offset *)
Lemma offset_length (c : list R) o : length (poly_offset c o) = length c.
Proof. destruct c; reflexivity. Qed.

Lemma dpoly_offset_0 x c o t : dpoly (poly_offset (x :: c) o) 0 t = dpoly (x :: c) 0 t + o.
Proof.
  unfold dpoly. cbn [poly_offset length]. rewrite !rsum_S_l. rewrite !bc_0.
  cbn [nth pow Nat.sub]. rnum. ring.
Qed.

Lemma dpoly_offset_S c o d t : dpoly (poly_offset c o) (S d) t = dpoly c (S d) t.
Proof.
  destruct c as [|x c]; [reflexivity|].
  unfold dpoly. cbn [poly_offset length]. rewrite !rsum_S_l. cbn [nth].
  rewrite (bc_lt (S d) 0) by lia. ring.
Qed.

(** baseCoeffsWithTime *)
Lemma t_power_pow (t : R) k : t_power t k = t ^ (S k).
Proof. induction k as [|k IH]; cbn [t_power]; rnum; [ring|]. rewrite IH. cbn [pow]. ring. Qed.

Lemma baseCoeffs_ok N d t v :
  baseCoeffsWithTime N d t = Ok v ->
  (0 <= d < N)%Z /\ (N <= Z.of_nat kMaxConvolutionSize)%Z /\ length v = Z.to_nat N /\
  (forall j, (j < Z.to_nat N)%nat ->
     nth j v 0 = if Rlt_dec (Rabs t) (@dbl_epsilon R R_ops) then bc (Z.to_nat d) j * 0 ^ (j - Z.to_nat d)
                 else bc (Z.to_nat d) j * t ^ (j - Z.to_nat d)).
Proof.
  unfold baseCoeffsWithTime.
  destruct (Z.leb_spec N d) as [H1|H1]; [discriminate|].
  destruct (Z.ltb_spec d 0) as [H2|H2]; [discriminate|].
  destruct (Z.ltb_spec (Z.of_nat kMaxConvolutionSize) N) as [H3|H3]; [discriminate|].
  intros E. apply Ok_inj in E. subst v. split; [lia|]. split; [lia|].
  rewrite map_length, seq_length. split; [reflexivity|].
  intros j Hj. rewrite nth_map_seq by exact Hj. cbn [Nat.add].
  rnum. set (k := Z.to_nat d) in *. unfold Rltb.
  destruct (Nat.ltb_spec j k) as [L|L].
  { rewrite bc_lt by exact L. destruct (Rlt_dec _ _); ring. }
  destruct (Nat.eqb_spec j k) as [->|Hne].
  { rewrite Nat.sub_diag. destruct (Rlt_dec _ _); cbn [pow]; ring. }
  destruct (Rlt_dec (Rabs t) dbl_epsilon) as [Hs|Hs].
  - rewrite pow_i by lia. ring.
  - rewrite t_power_pow. do 2 f_equal. lia.
Qed.

Lemma baseCoeffs_cases N d (t : R) :
  match baseCoeffsWithTime N d t with
  | Ok _ => (0 <= d < N)%Z
  | Abort => (d < 0 \/ N <= d)%Z
  | UB => (Z.of_nat kMaxConvolutionSize < N)%Z
  | Throw => False
  end.
Proof.
  unfold baseCoeffsWithTime.
  destruct (Z.leb_spec N d) as [H1|H1]; [lia|].
  destruct (Z.ltb_spec d 0) as [H2|H2]; [lia|].
  destruct (Z.ltb_spec (Z.of_nat kMaxConvolutionSize) N) as [H3|H3]; lia.
Qed.

Definition dot (u v : list R) : R := rsum (length u) (fun i => nth i u 0 * nth i v 0).

Lemma baseCoeffs_dot N d t v c :
  baseCoeffsWithTime N d t = Ok v -> Z.of_nat (length c) = N ->
  dot v c = dpoly c (Z.to_nat d) (if Rlt_dec (Rabs t) (@dbl_epsilon R R_ops) then 0 else t).
Proof.
  intros H Hl. destruct (baseCoeffs_ok _ _ _ _ H) as (H1 & H2 & H3 & H4).
  unfold dot, dpoly. rewrite H3. replace (Z.to_nat N) with (length c) in * by lia.
  apply rsum_ext. intros i Hi. rewrite H4 by exact Hi.
  destruct (Rlt_dec (Rabs t) dbl_epsilon); ring.
Qed.

(** Convolution *)
Lemma convolve_length (a b r : list R) : convolve a b = Ok r -> Z.of_nat (length r) = (Z.of_nat (length a) + Z.of_nat (length b) - 1)%Z.
Proof.
  unfold convolve, getConvolutionLength. destruct (Z.ltb_spec (Z.of_nat (length a) + Z.of_nat (length b) - 1) 0); [discriminate|].
  intros E. injection E as <-. rewrite map_length, seq_length. lia.
Qed.

(** Every index used by the convolution loop is inside the vectors. *)
Lemma convolve_indices_in_range (a b : list R) (i k : nat) :
  let data_idx := (Z.of_nat i - Z.of_nat (length b) + 1)%Z in
  let lower := Z.max 0 (- data_idx) in
  let upper := Z.min (Z.of_nat (length b)) (Z.of_nat (length a) - data_idx) in
  (lower <= Z.of_nat k < upper)%Z ->
  (k < length (rev b))%nat /\ (0 <= data_idx + Z.of_nat k < Z.of_nat (length a))%Z.
Proof. cbv zeta. rewrite rev_length. lia. Qed.

(** Entry i is the Cauchy product coefficient. *)
Lemma convolve_entry_spec (a b : list R) i :
  convolve_entry a b i = rsum (S i) (fun k => nth k b 0 * nth (i - k) a 0).
Proof.
  unfold convolve_entry. cbv zeta. rnum.
  set (la := length a). set (lb := length b).
  set (di := (Z.of_nat i - Z.of_nat lb + 1)%Z).
  set (lo := Z.to_nat (Z.max 0 (- di))).
  set (up := Z.to_nat (Z.min (Z.of_nat lb) (Z.of_nat la - di))).
  rewrite (fold_left_seq_rsum (fun k => coeff (rev b) k * coeff a (Z.to_nat (di + Z.of_nat k)))).
  rewrite Rplus_0_l.
  (* terms outside the window vanish *)
  transitivity (rsum (S i) (fun k => if andb (Nat.leb (lb - up) k) (Nat.ltb k (lb - lo))
                                    then nth k b 0 * nth (i - k) a 0 else 0)).
  - destruct (Nat.le_gt_cases up lo) as [Hle|Hgt].
    + replace (up - lo)%nat with 0%nat by lia. cbn [rsum]. symmetry.
      change (rsum i ?f + ?f i) with (rsum (S i) f) || idtac.
      apply (rsum_zero (S i)). intros k Hk.
      destruct (Nat.leb_spec (lb - up) k); destruct (Nat.ltb_spec k (lb - lo)); cbn [andb]; try reflexivity. lia.
    + assert (Hlb : (up <= lb)%nat) by lia.
      assert (Hi : (lb - lo <= S i)%nat) by lia.
      replace (S i) with ((lb - up) + ((up - lo) + (S i - (lb - lo))))%nat by lia.
      rewrite !rsum_split.
      rewrite (rsum_zero (lb - up)).
      2:{ intros k Hk. destruct (Nat.leb_spec (lb - up) k); cbn [andb]; [lia|reflexivity]. }
      rewrite (rsum_zero (S i - (lb - lo))).
      2:{ intros k Hk. destruct (Nat.ltb_spec (lb - up + (up - lo + k)) (lb - lo)); [lia|].
          rewrite Bool.andb_false_r. reflexivity. }
      rewrite Rplus_0_l, Rplus_0_r.
      rewrite rsum_rev. apply rsum_ext. intros k Hk.
      destruct (Nat.leb_spec (lb - up) (lb - up + k)); [|lia].
      destruct (Nat.ltb_spec (lb - up + k) (lb - lo)); [|lia]. cbn [andb].
      unfold coeff. rnum.
      rewrite rev_nth by (fold lb; lia). fold lb.
      f_equal; f_equal; lia.
  - apply rsum_ext. intros k Hk.
    destruct (Nat.leb_spec (lb - up) k) as [H1|H1]; destruct (Nat.ltb_spec k (lb - lo)) as [H2|H2]; cbn [andb]; try reflexivity.
    + assert (Hc : (lb <= k)%nat) by lia.
      rewrite (nth_overflow b) by (fold lb; lia). ring.
    + assert (Hc : (la <= i - k)%nat \/ (lb <= k)%nat) by lia.
      destruct Hc as [Hc|Hc].
      * rewrite (nth_overflow a) by (fold la; lia). ring.
      * rewrite (nth_overflow b) by (fold lb; lia). ring.
    + assert (Hc : (la <= i - k)%nat \/ (lb <= k)%nat) by lia.
      destruct Hc as [Hc|Hc].
      * rewrite (nth_overflow a) by (fold la; lia). ring.
      * rewrite (nth_overflow b) by (fold lb; lia). ring.
Qed.

(** Cauchy product: summing over a triangle. *)
Lemma rsum_ge_len n m (f : nat -> R) : (n <= m)%nat -> (forall i, (n <= i)%nat -> f i = 0) ->
  rsum m f = rsum n f.
Proof.
  intros H Hz. replace m with (n + (m - n))%nat by lia. rewrite rsum_split.
  rewrite (rsum_zero (m - n)); [lra|]. intros i Hi. apply Hz. lia.
Qed.

Lemma cauchy_triangle (f g : nat -> R) t n :
  rsum n (fun i => rsum (S i) (fun k => f k * g (i - k)%nat) * t ^ i)
  = rsum n (fun k => f k * t ^ k * rsum (n - k) (fun j => g j * t ^ j)).
Proof.
  induction n as [|n IH]; [reflexivity|].
  set (h := fun i => rsum (S i) (fun k => f k * g (i - k)%nat) * t ^ i) in *.
  change (rsum (S n) h) with (rsum n h + h n). rewrite IH. unfold h. clear IH h.
  transitivity (rsum (S n) (fun k => f k * t ^ k * rsum (n - k) (fun j => g j * t ^ j))
                + rsum (S n) (fun k => f k * t ^ k * (g (n - k)%nat * t ^ (n - k)))).
  - f_equal.
    + set (q := fun k => f k * t ^ k * rsum (n - k) (fun j => g j * t ^ j)).
      change (rsum (S n) q) with (rsum n q + q n).
      unfold q at 3. rewrite Nat.sub_diag. change (rsum 0 (fun j => g j * t ^ j)) with 0. lra.
    + rewrite <- rsum_scal_r. apply rsum_ext. intros k Hk.
      replace (t ^ n) with (t ^ k * t ^ (n - k)).
      * ring.
      * rewrite <- pow_add. f_equal. lia.
  - rewrite <- rsum_plus. apply rsum_ext. intros k Hk.
    replace (S n - k)%nat with (S (n - k)) by lia. cbn [rsum]. ring.
Qed.

Lemma convolve_poly_fun a b r t :
  (1 <= length a)%nat -> (1 <= length b)%nat ->
  convolve a b = Ok r -> poly_fun r t = poly_fun a t * poly_fun b t.
Proof.
  intros Ha Hb H. pose proof (convolve_length a b r H) as Hl.
  unfold poly_fun at 1.
  set (n := length r) in *.
  rewrite (rsum_ext n _ (fun i => rsum (S i) (fun k => nth k b 0 * nth (i - k) a 0) * t ^ i)).
  2:{ intros i Hi. unfold convolve in H.
      destruct (_ <? 0)%Z in H; [discriminate|]. injection H as <-.
      unfold n in Hi. rewrite map_length, seq_length in Hi.
      rewrite nth_map_seq by exact Hi. cbn [Nat.add].
      rewrite convolve_entry_spec. reflexivity. }
  rewrite (cauchy_triangle (fun k => nth k b 0) (fun j => nth j a 0)).
  rewrite (rsum_ge_len (length b) n) by (try lia; intros i Hi; rewrite (nth_overflow b) by lia; ring).
  rewrite Rmult_comm. unfold poly_fun at 1. rewrite <- rsum_scal_r. apply rsum_ext.
  intros k Hk. f_equal. unfold poly_fun.
  apply rsum_ge_len; [lia|]. intros i Hi. rewrite (nth_overflow a) by lia. ring.
Qed.

Lemma convolve_defined (a b : list R) : (1 <= length a \/ 1 <= length b)%nat ->
  exists r, convolve a b = Ok r.
Proof.
  intros H. unfold convolve, getConvolutionLength.
  destruct (Z.ltb_spec (Z.of_nat (length a) + Z.of_nat (length b) - 1) 0); [lia|].
  eexists; reflexivity.
Qed.

Lemma convolve_entry_comm (a b : list R) i : convolve_entry a b i = convolve_entry b a i.
Proof.
  rewrite !convolve_entry_spec. rewrite rsum_rev. apply rsum_ext. intros k Hk.
  replace (S i - 1 - k)%nat with (i - k)%nat by lia.
  replace (i - (i - k))%nat with k by lia. ring.
Qed.

Lemma convolve_comm (a b : list R) : convolve a b = convolve b a.
Proof.
  unfold convolve, getConvolutionLength.
  replace (Z.of_nat (length b) + Z.of_nat (length a) - 1)%Z
    with (Z.of_nat (length a) + Z.of_nat (length b) - 1)%Z by lia.
  destruct (_ <? 0)%Z; [reflexivity|]. f_equal. apply map_ext.
  intros i. apply convolve_entry_comm.
Qed.

Lemma convolve_fixed_eq (a b : list R) :
  (1 <= length a)%nat -> (1 <= length b)%nat ->
  convolve a b = Ok (convolve_fixed a b).
Proof.
  intros Ha Hb. unfold convolve, convolve_fixed, getConvolutionLength.
  destruct (Z.ltb_spec (Z.of_nat (length a) + Z.of_nat (length b) - 1) 0); [lia|].
  replace (Z.to_nat (Z.of_nat (length a) + Z.of_nat (length b) - 1))
    with (length a + length b - 1)%nat by lia.
  reflexivity.
Qed.
