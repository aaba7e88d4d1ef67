(** C94: the rounding error of evaluating polynomials and segments in doubles. *)
From Coq Require Import ZArith Reals List Bool Lia Lra.
From Coquelicot Require Import Coquelicot.
From Flocq Require Import IEEE754.BinarySingleNaN Core.
From Verif Require Import Num RSum ModelPolynomial ModelSegment SpecPoly SpecSegment ProofPolynomial ProofRound.
Import ListNotations.
Open Scope R_scope.
Local Arguments bpow : simpl never.

(** The table of base coefficients is exact in doubles. *)
Fixpoint zbase (n i : nat) : Z :=
  match n with O => 1%Z | S m => if Nat.ltb i m then 0%Z else ((Z.of_nat i - Z.of_nat m) * zbase m i)%Z end.
Lemma zbase_R n i : @base_coefficient R R_ops n i = IZR (zbase n i).
Proof. induction n as [|n IH]; cbn [base_coefficient zbase]; [reflexivity|]. destruct (Nat.ltb i n); [reflexivity|]. rewrite IH. rnum. now rewrite mult_IZR. Qed.
Definition is_Z (x : b64) (z : Z) : bool :=
  match x with
  | B754_zero _ => (z =? 0)%Z
  | B754_finite s m e _ => if (e <? 0)%Z then (cond_Zopp s (Zpos m) =? z * 2 ^ (- e))%Z else (cond_Zopp s (Zpos m) * 2 ^ e =? z)%Z
  | _ => false
  end.
Lemma is_Z_spec x z : is_Z x z = true -> is_finite x = true /\ B2R x = IZR z.
Proof.
  destruct x as [s|s| |s m e H]; cbn [is_Z]; intros E; try discriminate.
  - apply Z.eqb_eq in E. subst z. now split.
  - split; [reflexivity|]. cbn [B2R]. unfold F2R. cbn [Fnum Fexp].
    assert (P : forall k, (0 <= k)%Z -> bpow radix2 k = IZR (2 ^ k)) by (intros k Hk; rewrite <- (IZR_Zpower radix2) by exact Hk; reflexivity).
    destruct (Z.ltb_spec e 0) as [He|He]; apply Z.eqb_eq in E.
    + rewrite E, mult_IZR, <- P by lia. rewrite Rmult_assoc, <- bpow_plus. replace (- e + e)%Z with 0%Z by lia. change (bpow radix2 0) with 1. ring.
    + rewrite <- E, mult_IZR, <- P by lia. reflexivity.
Qed.
Lemma base_table : forallb (fun n => forallb (fun i => is_Z (@base_coefficient b64 B64_ops n i) (zbase n i)) (seq 0 22)) (seq 0 22) = true.
Proof. vm_compute. reflexivity. Qed.
Lemma base_exact n i : (n < 22)%nat -> (i < 22)%nat -> is_finite (@base_coefficient b64 B64_ops n i) = true /\
  B2R (@base_coefficient b64 B64_ops n i) = @base_coefficient R R_ops n i.
Proof.
  intros Hn Hi. assert (T := base_table). rewrite forallb_forall in T. specialize (T n ltac:(apply in_seq; lia)).
  rewrite forallb_forall in T. specialize (T i ltac:(apply in_seq; lia)). apply is_Z_spec in T. rewrite zbase_R. exact T.
Qed.

Lemma base_nonneg n i : 0 <= @base_coefficient R R_ops n i.
Proof.
  rewrite zbase_R. apply IZR_le. induction n as [|n IH]; cbn [zbase]; [lia|]. destruct (Nat.ltb_spec i n); [lia|]. apply Z.mul_nonneg_nonneg; lia.
Qed.
Lemma coeff_map {A B} (oa : NumOps A) (ob : NumOps B) (f : A -> B) c i : (i < length c)%nat -> @coeff B ob (map f c) i = f (@coeff A oa c i).
Proof. intros H. unfold coeff. apply nth_map_lt. exact H. Qed.
(** The bound on the error: relative to the derivative with all coefficients and
    the time replaced by their absolute values, a factor of 2 (N - d) 2^-53; and
    2^-1073 for each power of t because of underflow. *)
Definition rounding_bound (c : list b64) (t : b64) (d : nat) : R :=
  2 * INR (length c - d) * / 2 ^ 53 * Derive_n (poly_fun (map Rabs (map B2R c))) d (Rabs (B2R t))
  + / 2 ^ 1073 * rsum (length c - d) (fun i => Rabs (B2R t) ^ i).
(** The error of evaluate in doubles, whenever the result is finite. *)
Theorem C94_evaluate_error (c : list b64) (t v : b64) (d : nat) :
  (d < length c)%nat -> @poly_evaluate b64 B64_ops c t (Z.of_nat d) = Ok v -> is_finite v = true ->
  Rabs (B2R v - Derive_n (poly_fun (map B2R c)) d (B2R t)) <= rounding_bound c t d.
Proof.
  intros Hd E F. unfold rounding_bound. unfold poly_evaluate in E. destruct (Z.leb_spec (Z.of_nat (length c)) (Z.of_nat d)) as [?|_]; [lia|].
  destruct (Z.ltb_spec (Z.of_nat d) 0) as [?|_]; [lia|]. cbn [orb] in E. destruct (Nat.ltb_spec kMaxConvolutionSize (length c)) as [|HN]; [discriminate|].
  change kMaxConvolutionSize with 22%nat in HN. rewrite Nat2Z.id in E. injection E as E.
  set (N := length c) in *. set (k := (N - 1 - d)%nat). set (x := B2R t) in *.
  set (fb := fun j => @nmul b64 B64_ops (@base_coefficient b64 B64_ops d j) (@coeff b64 B64_ops c j)).
  set (cr := map B2R c). set (ca := map Rabs cr).
  set (g := fun j => @base_coefficient R R_ops d j * @coeff R R_ops cr j).
  set (G := fun j => @base_coefficient R R_ops d j * @coeff R R_ops ca j).
  assert (Lr : length cr = N) by (unfold cr; now rewrite map_length). assert (La : length ca = N) by (unfold ca; now rewrite map_length).
  assert (Ng : forall i, (i < N)%nat -> is_finite (fb i) = true -> near 1 h64 (B2R (fb i)) (g i) (G i)).
  { intros i Hi Fi. destruct (mul_err _ _ Fi) as (_ & _ & Em). rewrite (proj2 (base_exact d i ltac:(lia) ltac:(lia))) in Em.
    unfold g, G, ca. rewrite (coeff_map R_ops R_ops) by lia. unfold cr. rewrite (coeff_map B64_ops R_ops) by exact Hi.
    assert (B := base_nonneg d i). assert (AE : Rabs (@base_coefficient R R_ops d i * B2R (@coeff b64 B64_ops c i)) = @base_coefficient R R_ops d i * Rabs (B2R (@coeff b64 B64_ops c i))).
    { rewrite Rabs_mult, (Rabs_pos_eq (base_coefficient d i)) by exact B. reflexivity. }
    split; [lra|]. rewrite pow_1. rewrite AE in Em. replace (1 + u64 - 1) with u64 by ring. exact Em. }
  assert (Ev : v = @horner b64 B64_ops fb t d k (fb (N - 1)%nat)) by (rewrite <- E; reflexivity).
  assert (F0 : is_finite (fb (N - 1)%nat) = true) by (rewrite Ev in F; exact (horner_finite _ _ _ _ _ F)).
  assert (U := u64_pos). assert (Hh := h64_pos).
  assert (H := horner_near fb g G t d k (fb (N - 1)%nat) (g (N - 1)%nat) (G (N - 1)%nat) 0).
  cbn [Nat.add Nat.mul] in H. rewrite <- Ev in H. destruct H as (_ & H).
  { intros i Hi. apply Ng. unfold k in Hi. lia. }
  { eapply near_weak; [|apply Ng; [lia|exact F0]]. unfold pows. cbn [rsum pow]. lra. }
  { exact F. }
  assert (E1 : @horner R R_ops g x d k (g (N - 1)%nat) = Derive_n (poly_fun cr) d x).
  { rewrite dpoly_ext_derive_n, <- eval_row_dpoly by lia. unfold eval_row. rewrite Lr. reflexivity. }
  assert (E2 : @horner R R_ops G (Rabs x) d k (G (N - 1)%nat) = Derive_n (poly_fun ca) d (Rabs x)).
  { rewrite dpoly_ext_derive_n, <- eval_row_dpoly by lia. unfold eval_row. rewrite La. reflexivity. }
  fold x in H. rewrite E1, E2 in H.
  assert (S0 : 0 <= Derive_n (poly_fun ca) d (Rabs x)).
  { rewrite dpoly_ext_derive_n. unfold dpoly. apply rsum_nonneg. intros i Hi. apply Rmult_le_pos; [apply Rmult_le_pos|].
    - apply base_nonneg.
    - unfold ca. rewrite (nth_map_lt _ _ _ 0) by lia. apply Rabs_pos.
    - apply pow_le, Rabs_pos. }
  assert (P0 : 0 <= rsum (N - d) (fun i => Rabs x ^ i)) by (apply rsum_nonneg; intros; apply pow_le, Rabs_pos).
  eapply Rle_trans; [exact H|]. unfold pows. replace (S k) with (N - d)%nat by (unfold k; lia).
  replace (k + (k + 0) + 1)%nat with (2 * (N - d) - 1)%nat by (unfold k; lia).
  destruct (small_power (2 * (N - d) - 1) ltac:(lia)) as (A1 & _). destruct (small_power (k + (k + 0)) ltac:(unfold k; lia)) as (_ & A2).
  replace (S (2 * (N - d) - 1)) with (2 * (N - d))%nat in A1 by lia. rewrite mult_INR in A1. change (INR 2) with 2 in A1. fold u64.
  apply Rplus_le_compat; [apply Rmult_le_compat_r; assumption|]. apply Rmult_le_compat_r; [exact P0|].
  assert (E4 : / 2 ^ 1073 = 2 * h64 * 2).
  { unfold h64. change 1075%nat with (S 1074). rewrite <- (tech_pow_Rmult 2 1074). change 1074%nat with (S 1073). rewrite <- (tech_pow_Rmult 2 1073). generalize (pow_nonzero 2 1073 ltac:(lra)). generalize (2 ^ 1073). intros. field. assumption. }
  rewrite E4. apply Rmult_le_compat_l; lra.
Qed.
Print Assumptions C94_evaluate_error.

Lemma nth_skipn_b {A} (l : list A) d i x : nth i (skipn d l) x = nth (d + i) l x.
Proof. revert l. induction d as [|d IH]; intros [|y l]; cbn; auto. now destruct i. Qed.
(** No overflow as long as the absolute terms at the larger of 1 and |t| and the
    powers of it sum up to at most 2^1000. *)
Theorem C94_no_overflow (c : list b64) (t : b64) (d : nat) :
  (d < length c <= 22)%nat -> (forall x, In x (skipn d c) -> is_finite x = true) -> is_finite t = true ->
  Derive_n (poly_fun (map Rabs (map B2R c))) d (Rmax 1 (Rabs (B2R t))) <= 2 ^ 1000 ->
  rsum (length c - d) (fun i => Rmax 1 (Rabs (B2R t)) ^ i) <= 2 ^ 1000 ->
  exists v, @poly_evaluate b64 B64_ops c t (Z.of_nat d) = Ok v /\ is_finite v = true.
Proof.
  intros (Hd & HN) Fc Ft HB HP. unfold poly_evaluate. destruct (Z.leb_spec (Z.of_nat (length c)) (Z.of_nat d)) as [?|_]; [lia|].
  destruct (Z.ltb_spec (Z.of_nat d) 0) as [?|_]; [lia|]. cbn [orb]. destruct (Nat.ltb_spec kMaxConvolutionSize (length c)) as [H22|_];
    [change kMaxConvolutionSize with 22%nat in H22; lia|].
  eexists. split; [reflexivity|]. rewrite Nat2Z.id. unfold eval_row.
  set (N := length c) in *. set (M := Rmax 1 (Rabs (B2R t))) in *. set (k := (N - 1 - d)%nat). fold big in HB, HP.
  set (fb := fun j => @nmul b64 B64_ops (@base_coefficient b64 B64_ops d j) (@coeff b64 B64_ops c j)).
  set (cr := map B2R c) in *. set (ca := map Rabs cr) in *.
  set (g := fun j => @base_coefficient R R_ops d j * @coeff R R_ops cr j).
  set (G := fun j => @base_coefficient R R_ops d j * @coeff R R_ops ca j).
  assert (Lr : length cr = N) by (unfold cr; now rewrite map_length). assert (La : length ca = N) by (unfold ca; now rewrite map_length).
  assert (HM : 1 <= M) by apply Rmax_l. assert (HMt : Rabs (B2R t) <= M) by apply Rmax_r.
  assert (U := u64_pos). assert (Hh := h64_pos).
  assert (CA : forall i, 0 <= @coeff R R_ops ca i).
  { intros i. unfold coeff. destruct (Nat.lt_ge_cases i N) as [Hi|Hi]; [|rewrite nth_overflow by lia; rnum; lra].
    unfold ca. rewrite (nth_map_lt _ _ _ 0) by lia. apply Rabs_pos. }
  assert (G0 : forall i, 0 <= G i) by (intros i; unfold G; apply Rmult_le_pos; [apply base_nonneg|apply CA]).
  assert (E2 : @horner R R_ops G M d k (G (N - 1)%nat) = Derive_n (poly_fun ca) d M).
  { rewrite dpoly_ext_derive_n, <- eval_row_dpoly by lia. unfold eval_row. rewrite La. reflexivity. }
  assert (GB : forall i, (d <= i < N)%nat -> G i <= big).
  { intros i Hi. eapply Rle_trans; [|exact HB]. rewrite dpoly_ext_derive_n. unfold dpoly. rewrite La.
    apply Rle_trans with (rsum N (fun j => if Nat.eqb j i then G i else 0)).
    - rewrite (rsum_delta N i (fun _ => G i)) by lia. lra.
    - apply rsum_le. intros j Hj. assert (0 <= bc d j * nth j ca 0 * M ^ (j - d)) by (apply Rmult_le_pos; [apply (G0 j)|apply pow_le; lra]).
      destruct (Nat.eqb_spec j i) as [->|]; [|assumption]. unfold G, coeff. change (n0 : R) with 0.
      assert (1 <= M ^ (i - d)) by (apply pow_R1_Rle; exact HM). assert (Q := G0 i). unfold G, coeff in Q. change (n0 : R) with 0 in Q. nra. }
  assert (Ng : forall i, (d <= i < N)%nat -> is_finite (fb i) = true /\ near 1 h64 (B2R (fb i)) (g i) (G i)).
  { intros i Hi. destruct (base_exact d i ltac:(lia) ltac:(lia)) as (Fb & Eb).
    assert (B := base_nonneg d i).
    assert (Eg : G i = Rabs (g i)).
    { unfold g, G, ca. rewrite (coeff_map R_ops R_ops) by lia. rewrite Rabs_mult, (Rabs_pos_eq (base_coefficient d i)) by exact B. reflexivity. }
    assert (Er : @coeff R R_ops cr i = B2R (@coeff b64 B64_ops c i)) by (unfold cr; apply (coeff_map B64_ops R_ops); lia).
    assert (Fi : is_finite (fb i) = true).
    { apply mul_fin; [exact Fb| |].
      - apply Fc. unfold coeff. replace i with (d + (i - d))%nat by lia. rewrite <- nth_skipn_b. apply nth_In. rewrite skipn_length. unfold N in Hi. lia.
      - rewrite Eb, <- Er. fold (g i). rewrite <- Eg. assert (Q := GB i Hi). destruct big_bpow as (_ & B1 & _). lra. }
    split; [exact Fi|]. destruct (mul_err _ _ Fi) as (_ & _ & Em). rewrite Eb, <- Er in Em. fold (g i) in Em.
    split; [lra|]. rewrite pow_1. rewrite <- Eg in Em. replace (1 + u64 - 1) with u64 by ring. exact Em. }
  destruct (Ng (N - 1)%nat ltac:(lia)) as (F0 & N0).
  apply (horner_fin fb g G t M d k (fb (N - 1)%nat) (g (N - 1)%nat) (G (N - 1)%nat) (G (N - 1)%nat) 0); try assumption.
  - intros i Hi. apply Ng. unfold k in Hi. lia.
  - cbn [Nat.mul Nat.add pow]. eapply near_weak; [|exact N0]. unfold pows. cbn [rsum pow]. lra.
  - lra.
  - unfold k. lia.
  - rewrite E2. exact HB.
  - cbn [Nat.add]. unfold pows. replace (S k) with (N - d)%nat by (unfold k; lia). exact HP.
Qed.
Print Assumptions C94_no_overflow.

(** A derivative of order N or more is exactly zero. *)
Theorem C94_evaluate_zero (c : list b64) (t v : b64) (d : nat) :
  (length c <= d)%nat -> @poly_evaluate b64 B64_ops c t (Z.of_nat d) = Ok v ->
  B2R v = 0 /\ Derive_n (poly_fun (map B2R c)) d (B2R t) = 0.
Proof.
  intros Hd E. unfold poly_evaluate in E. destruct (Z.leb_spec (Z.of_nat (length c)) (Z.of_nat d)) as [_|?]; [|lia]. injection E as <-.
  split; [reflexivity|]. rewrite dpoly_ext_derive_n. apply dpoly_ge. rewrite map_length. exact Hd.
Qed.
Print Assumptions C94_evaluate_zero.

(** All components of a segment. *)
Theorem C94_segment_error (s : segment b64) (t : b64) (d : nat) (vs : list b64) :
  @seg_evaluate b64 B64_ops s t (Z.of_nat d) = Ok vs ->
  length vs = seg_D s /\
  forall k p v, nth_error (seg_polys s) k = Some p -> nth_error vs k = Some v -> (d < length p)%nat -> is_finite v = true ->
    Rabs (B2R v - Derive_n (poly_fun (map B2R p)) d (B2R t)) <= rounding_bound p t d.
Proof.
  unfold seg_evaluate, seg_D. generalize (seg_polys s). intros ps. revert vs. induction ps as [|q ps IH]; intros vs E.
  - injection E as <-. split; [reflexivity|]. intros [|k] p v Hp; discriminate.
  - cbn [omap] in E. destruct (poly_evaluate q t (Z.of_nat d)) as [v0| | |] eqn:E0; try discriminate.
    cbn [obind] in E. destruct (omap _ ps) as [vs'| | |] eqn:E1; try discriminate. cbn [obind] in E. injection E as <-.
    destruct (IH vs' eq_refl) as (L & H). split; [cbn [length]; now rewrite L|]. intros [|k] p v Hp Hv Hd F; cbn [nth_error] in Hp, Hv.
    + injection Hp as ->. injection Hv as ->. now apply C94_evaluate_error.
    + now apply (H k).
Qed.
Print Assumptions C94_segment_error.

(** A concrete case: 1 + 2 t + 3 t^2 at t = 1/3 rounded, first derivative. *)
Definition c123 : list b64 := map (@nofZ b64 B64_ops) [1; 2; 3]%Z.
Definition third : b64 := @ndiv b64 B64_ops (@nofZ b64 B64_ops 1) (@nofZ b64 B64_ops 3).
Example C94_example : exists v, (1 < length c123)%nat /\ @poly_evaluate b64 B64_ops c123 third (Z.of_nat 1) = Ok v /\ is_finite v = true.
Proof. eexists. split; [cbn; lia|]. split; [reflexivity|]. vm_compute. reflexivity. Qed.
Lemma c123_R : map B2R c123 = [1; 2; 3].
Proof.
  unfold c123. cbn [map nofZ B64_ops]. assert (Q : forall z, is_Z (b64_of_Z z) z = true -> B2R (b64_of_Z z) = IZR z) by (intros z H; now apply is_Z_spec).
  rewrite !Q by (vm_compute; reflexivity). reflexivity.
Qed.
Lemma third_small : Rabs (B2R third) <= 1.
Proof.
  assert (H : @nltb b64 B64_ops (@nofZ b64 B64_ops 1) third = false) by (vm_compute; reflexivity).
  assert (F : is_finite third = true) by (vm_compute; reflexivity).
  assert (N : Bsign third = false) by (vm_compute; reflexivity).
  cbn [nltb B64_ops] in H. unfold b64_cmp in H. rewrite Bcompare_correct in H by (assumption || (vm_compute; reflexivity)).
  replace (B2R (@nofZ b64 B64_ops 1)) with 1 in H by (symmetry; apply is_Z_spec; vm_compute; reflexivity).
  assert (P : 0 <= B2R third).
  { destruct third as [s|s| |s m e Hb]; cbn in N |- *; try lra. subst s. apply F2R_ge_0. cbn. lia. }
  rewrite Rabs_pos_eq by exact P. clear F N. revert P H. generalize (B2R third). intros x P H. destruct (Rcompare_spec 1 x) as [?|?|?]; try discriminate; lra.
Qed.
Example C94_no_overflow_example : (1 < length c123 <= 22)%nat /\ (forall x, In x (skipn 1 c123) -> is_finite x = true) /\ is_finite third = true /\
  Derive_n (poly_fun (map Rabs (map B2R c123))) 1 (Rmax 1 (Rabs (B2R third))) <= 2 ^ 1000 /\
  rsum (length c123 - 1) (fun i => Rmax 1 (Rabs (B2R third)) ^ i) <= 2 ^ 1000.
Proof.
  assert (B : 1000 <= 2 ^ 1000) by (apply Rle_trans with (2 ^ 10); [lra|apply Rle_pow; [lra|lia]]).
  split; [cbn; lia|]. split; [intros x [<-|[<-|[]]]; vm_compute; reflexivity|]. split; [vm_compute; reflexivity|].
  rewrite Rmax_left by apply third_small. split.
  - rewrite dpoly_ext_derive_n, c123_R. eapply Rle_trans; [|exact B]. unfold dpoly. cbn [map length rsum nth]. rewrite !Rabs_pos_eq by lra.
    cbn. lra.
  - eapply Rle_trans; [|exact B]. change (length c123) with 3%nat. cbn. lra.
Qed.
