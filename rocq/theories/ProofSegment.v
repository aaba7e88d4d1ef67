(** Proofs about Segment: magnitude extrema (C09-C11). *)
From Coq Require Import Reals Lra Lia List Arith ZArith Bool.
From Coquelicot Require Import Coquelicot.
From Verif Require Import Num RSum SpecPoly ModelPolynomial ProofPolynomial ProofPolynomial2 ExtremaMath ProofExtrema ModelSegment SpecSegment.
Import ListNotations.
Open Scope R_scope.

Lemma oget_nth {A} (l : list A) i dflt : (i < length l)%nat -> oget l i = Ok (nth i l dflt).
Proof.
  intros H. unfold oget. rewrite (nth_error_nth' l dflt H). reflexivity.
Qed.

Lemma oget_UB {A} (l : list A) i : (length l <= i)%nat -> oget l i = UB.
Proof.
  intros H. unfold oget. apply nth_error_None in H. rewrite H. reflexivity.
Qed.

Lemma omap_ok {A B} (f : A -> outcome B) (g : A -> B) l :
  (forall x, In x l -> f x = Ok (g x)) -> omap f l = Ok (map g l).
Proof.
  induction l as [|x l IH]; intros H; cbn [omap map]; [reflexivity|].
  rewrite H by (left; reflexivity). cbn [obind].
  rewrite IH by (intros y Hy; apply H; right; exact Hy). reflexivity.
Qed.

Lemma seg_wf_nth (s : segment R) k : seg_wf s -> (k < seg_D s)%nat -> length (nth k (seg_polys s) []) = seg_N s.
Proof.
  intros Hw Hk. unfold seg_wf in Hw. rewrite Forall_forall in Hw. apply Hw. apply nth_In. exact Hk.
Qed.

Lemma seg_fun_dpoly s k d t : seg_fun s k d t = dpoly (nth k (seg_polys s) []) d t.
Proof. unfold seg_fun. apply dpoly_ext_derive_n. Qed.

(** Truncating trailing zeros does not change the function. *)
Lemma poly_fun_firstn (c : list R) n t :
  (forall i, (n <= i)%nat -> nth i c 0 = 0) -> poly_fun (firstn n c) t = poly_fun c t.
Proof.
  intros H. unfold poly_fun. rewrite firstn_length.
  rewrite (rsum_ext (Nat.min n (length c)) _ (fun i => nth i c 0 * t ^ i)).
  2:{ intros i Hi. f_equal. clear H. revert n Hi. induction c as [|x c IH]; intros n Hi.
      - rewrite firstn_nil. reflexivity.
      - destruct n; [cbn in Hi; lia|]. cbn [firstn]. destruct i; [reflexivity|]. cbn [nth length] in *.
        (* shape of IH depends on i *) clear IH. revert n i Hi. induction c as [|y c IHc]; intros n i Hi.
        + rewrite firstn_nil. reflexivity.
        + destruct n; [cbn in Hi; lia|]. cbn [firstn]. destruct i; [reflexivity|]. cbn [nth]. apply IHc. cbn [length] in *. lia. }
  symmetry. apply rsum_ge_len; [lia|]. intros i Hi.
  destruct (le_lt_dec n i) as [Hn|Hn]; [rewrite H by exact Hn; ring|].
  rewrite nth_overflow by lia. ring.
Qed.

Lemma getCoefficients_tail_zero (c cs : list R) d i :
  poly_getCoefficients c d = Ok cs -> (Z.of_nat (length c) - d <= Z.of_nat i)%Z -> nth i cs 0 = 0.
Proof.
  unfold poly_getCoefficients.
  destruct (Z.ltb_spec (Z.of_nat (length c)) d) as [H1|H1]; [discriminate|].
  destruct (Z.eqb_spec d 0) as [->|H2].
  - intros E Hi. apply Ok_inj in E. subst cs. apply nth_overflow. lia.
  - destruct (Z.ltb_spec d 0) as [H3|H3]; [discriminate|].
    destruct (_ || _); [discriminate|].
    intros E Hi. apply Ok_inj in E. subst cs.
    destruct (le_lt_dec (length c) i) as [Hl|Hl].
    + apply nth_overflow. rewrite map_length, seq_length. exact Hl.
    + rewrite nth_map_seq by exact Hl. cbn [Nat.add].
      destruct (Nat.ltb_spec i (length c - Z.to_nat d)); [lia|]. reflexivity.
Qed.

Lemma vec_head_ok (v : list R) n : (0 <= n <= Z.of_nat (length v))%Z ->
  vec_head v n = Ok (firstn (Z.to_nat n) v).
Proof.
  intros H. unfold vec_head. destruct (Z.ltb_spec n 0); [lia|].
  destruct (Z.ltb_spec (Z.of_nat (length v)) n); [lia|]. reflexivity.
Qed.

(** The head of the coefficients of the d-th derivative. *)
Lemma head_coefficients (p : list R) (d : nat) :
  (length p <= 22)%nat -> (d <= length p)%nat -> (d < 22)%nat ->
  exists cs h, poly_getCoefficients p (Z.of_nat d) = Ok cs /\
    vec_head cs (Z.of_nat (length p) - Z.of_nat d) = Ok h /\
    length h = (length p - d)%nat /\ forall t, poly_fun h t = dpoly p d t.
Proof.
  intros H1 H2 H3.
  destruct (getCoefficients_defined p (Z.of_nat d)) as [cs Hcs]; [exact H1|lia|cbn; lia|].
  exists cs. pose proof (getCoefficients_ok p _ cs Hcs) as (_ & Hlen & Hd).
  eexists. split; [exact Hcs|]. split; [apply vec_head_ok; lia|]. split.
  - rewrite firstn_length. lia.
  - intros t. rewrite poly_fun_firstn.
    + rewrite <- dpoly_0, Hd, Nat2Z.id, Nat.add_0_r. reflexivity.
    + intros i Hi. apply (getCoefficients_tail_zero p cs _ i Hcs). lia.
Qed.

Lemma convolved_sum_ok (s : segment R) (d : nat) (dims : list Z) acc :
  seg_wf s -> dims_ok s dims -> (seg_N s <= 22)%nat -> (d < seg_N s)%nat -> (d < 21)%nat ->
  length acc = (2 * (seg_N s - d) - 2)%nat ->
  exists r, convolved_sum s (Z.of_nat d) (Z.of_nat (seg_N s) - Z.of_nat d)
              (Z.of_nat (seg_N s) - Z.of_nat d - 1) dims acc = Ok (Some r) /\
    length r = length acc /\
    forall t, poly_fun r t = poly_fun acc t +
      lsum (map (fun k => seg_fun s (Z.to_nat k) d t * seg_fun s (Z.to_nat k) (S d) t) dims).
Proof.
  intros Hw Hd HN Hlt H21. revert acc. induction dims as [|k dims IH]; intros acc Hacc; cbn [convolved_sum].
  - exists acc. split; [reflexivity|]. split; [reflexivity|]. intros t. cbn [map lsum]. lra.
  - inversion Hd as [|? ? Hk Hd']; subst.
    destruct (Z.ltb_spec k 0); [lia|]. destruct (Z.leb_spec (Z.of_nat (seg_D s)) k); [lia|]. cbn [orb].
    rewrite (oget_nth _ _ []) by (unfold seg_D in *; lia). cbn [obind].
    set (p := nth (Z.to_nat k) (seg_polys s) []).
    assert (Hp : length p = seg_N s) by (apply seg_wf_nth; [exact Hw|lia]).
    destruct (head_coefficients p d) as (c1 & h1 & E1 & F1 & L1 & P1); [lia|lia|lia|].
    destruct (head_coefficients p (S d)) as (c2 & h2 & E2 & F2 & L2 & P2); [lia|lia|lia|].
    rewrite E1. cbn [obind]. rewrite Hp in F1, F2. rewrite F1. cbn [obind].
    replace (Z.of_nat d + 1)%Z with (Z.of_nat (S d)) by lia. rewrite E2. cbn [obind].
    replace (Z.of_nat (seg_N s) - Z.of_nat d - 1)%Z with (Z.of_nat (seg_N s) - Z.of_nat (S d))%Z by lia.
    rewrite F2. cbn [obind].
    destruct (convolve_defined h1 h2) as [cv Hcv]; [left; lia|]. rewrite Hcv. cbn [obind].
    pose proof (convolve_length _ _ _ Hcv) as Lcv.
    destruct (poly_add_defined acc cv) as [acc' Ha]; [lia|].
    rewrite Ha. cbn [obind].
    destruct (poly_fun_add acc cv acc' 0 Ha) as [La _].
    destruct (IH Hd' acc') as (r & Er & Lr & Pr); [lia|].
    exists r. replace (Z.of_nat (seg_N s) - Z.of_nat (S d))%Z with (Z.of_nat (seg_N s) - Z.of_nat d - 1)%Z by lia.
    split; [exact Er|]. split; [lia|]. intros t. rewrite Pr.
    rewrite (proj2 (poly_fun_add acc cv acc' t Ha)). cbn [map lsum].
    rewrite !seg_fun_dpoly. fold p.
    assert (Ecv : poly_fun cv t = dpoly p d t * dpoly p (S d) t).
    { rewrite <- P1, <- P2. destruct (Nat.eq_dec (length h2) 0) as [Hz|Hz].
      - assert (length cv = 0)%nat by lia. destruct cv; [|cbn in *; lia].
        destruct h2; [|cbn in *; lia]. unfold poly_fun at 1 3. cbn. ring.
      - apply convolve_poly_fun; [lia|lia|exact Hcv]. }
    rewrite Ecv. lra.
Qed.

(** Magnitude at one time. *)
Lemma seg_magnitude_ok (s : segment R) (d : nat) dims t :
  seg_wf s -> dims_ok s dims -> (seg_N s <= 22)%nat \/ (seg_N s <= d)%nat ->
  seg_magnitude s (Z.of_nat d) dims t = Ok (seg_norm s dims d t).
Proof.
  intros Hw Hd HN. unfold seg_magnitude, seg_norm.
  assert (H : forall acc, ofold (fun m dim =>
       p <-- (if (dim <? 0)%Z then UB else oget (seg_polys s) (Z.to_nat dim)) ;;
       v <-- poly_evaluate p t (Z.of_nat d) ;; Ok (m + v * v)%num) dims acc =
     Ok (acc + lsum (map (fun k => seg_fun s (Z.to_nat k) d t ^ 2) dims))).
  { induction dims as [|k dims IH]; intros acc; cbn [ofold map lsum].
    - f_equal. lra.
    - inversion Hd as [|? ? Hk Hd']; subst.
      destruct (Z.ltb_spec k 0); [lia|].
      rewrite (oget_nth _ _ []) by (unfold seg_D in *; lia). cbn [obind].
      assert (Hp : length (nth (Z.to_nat k) (seg_polys s) []) = seg_N s) by (apply seg_wf_nth; [exact Hw|lia]).
      rewrite poly_evaluate_ok by (rewrite Hp; exact HN). cbn [obind].
      rewrite (IH Hd'). f_equal. rnum. rewrite seg_fun_dpoly. ring. }
  rewrite H. cbn [obind]. rnum. rewrite Rplus_0_l. reflexivity.
Qed.

(** Selection among extrema. *)
Lemma fold_min_gen {A} (v : A -> R) (es : list A) (s : A) :
  let r := fold_left (fun m e => if Rltb (v e) (v m) then e else m) es s in
  (r = s \/ In r es) /\ v r <= v s /\ forall e, In e es -> v r <= v e.
Proof.
  revert s. induction es as [|e es IH]; intros s; cbn [fold_left].
  - split; [left; reflexivity|]. split; [lra|]. intros e [].
  - destruct (IH (if Rltb (v e) (v s) then e else s)) as (H1 & H2 & H3).
    destruct (Rltb_spec (v e) (v s)) as [Hl|Hl]; cbv zeta in *.
    + split; [destruct H1 as [->|H1]; right; [left; reflexivity|right; exact H1]|].
      split; [lra|]. intros x [<-|Hx]; [exact H2|apply H3, Hx].
    + split; [destruct H1 as [->|H1]; [left; reflexivity|right; right; exact H1]|].
      split; [exact H2|]. intros x [<-|Hx]; [lra|apply H3, Hx].
Qed.

Lemma fold_max_gen {A} (v : A -> R) (es : list A) (s : A) :
  let r := fold_left (fun m e => if Rltb (v m) (v e) then e else m) es s in
  (r = s \/ In r es) /\ v s <= v r /\ forall e, In e es -> v e <= v r.
Proof.
  revert s. induction es as [|e es IH]; intros s; cbn [fold_left].
  - split; [left; reflexivity|]. split; [lra|]. intros e [].
  - destruct (IH (if Rltb (v s) (v e) then e else s)) as (H1 & H2 & H3).
    destruct (Rltb_spec (v s) (v e)) as [Hl|Hl]; cbv zeta in *.
    + split; [destruct H1 as [->|H1]; right; [left; reflexivity|right; exact H1]|].
      split; [lra|]. intros x [<-|Hx]; [exact H2|apply H3, Hx].
    + split; [destruct H1 as [->|H1]; [left; reflexivity|right; right; exact H1]|].
      split; [exact H2|]. intros x [<-|Hx]; [lra|apply H3, Hx].
Qed.

Definition in_window (a b : R) (e : extremum R) : bool :=
  negb (Rltb (ext_time e) a || Rltb b (ext_time e)).

Lemma in_window_iff a b e : in_window a b e = true <-> a <= ext_time e <= b.
Proof.
  unfold in_window. destruct (Rltb_spec (ext_time e) a); destruct (Rltb_spec b (ext_time e));
    cbn; split; intros; try discriminate; try lra; reflexivity.
Qed.

Lemma seg_selectMinMax_fold (a b : R) es mn mx :
  a <= b ->
  seg_selectMinMax a b es mn mx =
  Some (fold_left (fun m e => if Rltb (ext_value e) (ext_value m) then e else m) (filter (in_window a b) es)
          (mkExtremum (ext_time mn) dbl_max (ext_segment mn)),
        fold_left (fun m e => if Rltb (ext_value m) (ext_value e) then e else m) (filter (in_window a b) es)
          (mkExtremum (ext_time mx) dbl_lowest (ext_segment mx))).
Proof.
  intros Hab. unfold seg_selectMinMax. rnum. destruct (Rltb_spec b a); [lra|]. f_equal.
  generalize (mkExtremum (ext_time mn) dbl_max (ext_segment mn)).
  generalize (mkExtremum (ext_time mx) dbl_lowest (ext_segment mx)).
  induction es as [|e es IH]; intros M m; cbn [fold_left filter]; [reflexivity|].
  assert (Ew : in_window a b e = negb (Rltb (ext_time e) a || Rltb b (ext_time e))) by reflexivity.
  rewrite Ew. destruct (Rltb (ext_time e) a || Rltb b (ext_time e)); cbn [negb].
  - apply IH.
  - cbn [fold_left fst snd]. rewrite IH. reflexivity.
Qed.

Lemma seg_selectMinMax_spec (a b : R) es mn mx :
  a <= b ->
  (exists e, In e es /\ a <= ext_time e <= b) ->
  (forall e, In e es -> a <= ext_time e <= b -> Rabs (ext_value e) < @dbl_max R R_ops) ->
  exists emin emax, seg_selectMinMax a b es mn mx = Some (emin, emax) /\
    In emin es /\ a <= ext_time emin <= b /\ In emax es /\ a <= ext_time emax <= b /\
    forall e, In e es -> a <= ext_time e <= b -> ext_value emin <= ext_value e <= ext_value emax.
Proof.
  intros Hab [e0 [He0 Hw0]] Hb. rewrite seg_selectMinMax_fold by exact Hab.
  set (fes := filter (in_window a b) es).
  assert (Hin : forall e, In e fes <-> In e es /\ a <= ext_time e <= b).
  { intros e. unfold fes. rewrite filter_In, in_window_iff. reflexivity. }
  destruct (fold_min_gen ext_value fes (mkExtremum (ext_time mn) dbl_max (ext_segment mn))) as (A1 & A2 & A3).
  destruct (fold_max_gen ext_value fes (mkExtremum (ext_time mx) dbl_lowest (ext_segment mx))) as (B1 & B2 & B3).
  cbv zeta in *.
  set (rm := fold_left _ fes _) in A1, A2, A3 |- *.
  set (rx := fold_left _ fes (mkExtremum (ext_time mx) _ _)) in B1, B2, B3 |- *.
  assert (H0 : In e0 fes) by (apply Hin; tauto).
  pose proof (Hb e0 He0 Hw0) as Hb0. apply Rabs_def2 in Hb0.
  exists rm, rx. split; [reflexivity|].
  assert (In rm fes) as Hrm.
  { destruct A1 as [E|E]; [|exact E]. specialize (A3 e0 H0). rewrite E in A3. cbn [ext_value] in A3. lra. }
  assert (In rx fes) as Hrx.
  { destruct B1 as [E|E]; [|exact E]. specialize (B3 e0 H0). rewrite E in B3. cbn [ext_value] in B3.
    rewrite dbl_lowest_eq in B3. lra. }
  apply Hin in Hrm. apply Hin in Hrx. split; [apply Hrm|]. split; [apply Hrm|].
  split; [apply Hrx|]. split; [apply Hrx|].
  intros e He Hw. split; [apply A3|apply B3]; apply Hin; tauto.
Qed.

(** C09: several dimensions. *)
Lemma is_derive_half_norm2 (fs : list (R -> R)) (fs' : list (R -> R)) t :
  Forall2 (fun f f' => is_derive f t (f' t)) fs fs' ->
  is_derive (fun x => lsum (map (fun f => f x ^ 2) fs)) t
            (2 * lsum (map (fun p => fst p t * snd p t) (combine fs fs'))).
Proof.
  induction 1 as [|f f' fs fs' H HF IH]; cbn [map lsum combine].
  - rewrite Rmult_0_r. apply (is_derive_const (K := R_AbsRing) (V := R_NormedModule)).
  - cbn [fst snd]. rewrite Rmult_plus_distr_l.
    apply (is_derive_plus (fun x => f x ^ 2)); [|exact IH].
    replace (2 * (f t * f' t)) with (INR 2 * f' t * f t ^ 1) by (cbn; ring).
    apply (is_derive_pow f 2). exact H.
Qed.

Lemma norm2_derive (s : segment R) (d : nat) dims t :
  is_derive (fun x => lsum (map (fun k => seg_fun s (Z.to_nat k) d x ^ 2) dims)) t
    (2 * lsum (map (fun k => seg_fun s (Z.to_nat k) d t * seg_fun s (Z.to_nat k) (S d) t) dims)).
Proof.
  pose proof (is_derive_half_norm2 (map (fun k => seg_fun s (Z.to_nat k) d) dims)
                (map (fun k => seg_fun s (Z.to_nat k) (S d)) dims) t) as H.
  replace (lsum (map (fun k => seg_fun s (Z.to_nat k) d t * seg_fun s (Z.to_nat k) (S d) t) dims))
    with (lsum (map (fun p => fst p t * snd p t)
           (combine (map (fun k => seg_fun s (Z.to_nat k) d) dims)
                    (map (fun k => seg_fun s (Z.to_nat k) (S d)) dims)))).
  - eapply is_derive_ext; [|apply H].
    + intros x. cbn beta. rewrite map_map. reflexivity.
    + clear H. induction dims as [|k dims IH]; cbn [map]; constructor; [|exact IH].
      unfold seg_fun. rewrite <- !dpoly_Derive_n. apply is_derive_dpoly.
  - clear H. induction dims as [|k dims IH]; cbn [map combine lsum]; [reflexivity|].
    rewrite IH. reflexivity.
Qed.

Definition half_norm2' (s : segment R) (dims : list Z) (d : nat) (t : R) : R :=
  lsum (map (fun k => seg_fun s (Z.to_nat k) d t * seg_fun s (Z.to_nat k) (S d) t) dims).

Lemma poly_fun_repeat0 n t : poly_fun (repeat 0 n) t = 0.
Proof.
  unfold poly_fun. apply rsum_zero. intros i _. rewrite nth_repeat_any.
  destruct (Nat.ltb i n); ring.
Qed.

Lemma computeMinMaxCandidates_m1 rf (c : list R) a b :
  computeMinMaxCandidates rf c a b (-1) = Ok (selectMinMaxCandidatesFromRoots a b (snd (rf c))).
Proof.
  unfold computeMinMaxCandidates. destruct (Z.ltb_spec (Z.of_nat (length c) - -1 - 1) 0); [lia|].
  unfold poly_getRoots, poly_getCoefficients. change (-1 + 1)%Z with 0%Z.
  destruct (Z.ltb_spec (Z.of_nat (length c)) 0); [lia|]. reflexivity.
Qed.

Lemma seg_candidateTimes_multi rf (s : segment R) (d : nat) dims a b :
  seg_wf s -> dims_ok s dims -> (2 <= length dims)%nat ->
  (seg_N s <= 22)%nat -> (d < seg_N s)%nat -> (d < 21)%nat ->
  exists cs, (forall t, poly_fun cs t = half_norm2' s dims d t) /\
    length cs = (2 * (seg_N s - d) - 2)%nat /\
    seg_candidateTimes rf s (Z.of_nat d) a b dims = Ok (selectMinMaxCandidatesFromRoots a b (snd (rf cs))).
Proof.
  intros Hw Hd Hl HN Hlt H21. destruct dims as [|k1 [|k2 dims]]; [cbn in Hl; lia|cbn in Hl; lia|].
  unfold seg_candidateTimes, getConvolutionLength.
  destruct (Z.ltb_spec (Z.of_nat (seg_N s) - Z.of_nat d + (Z.of_nat (seg_N s) - Z.of_nat d - 1) - 1) 0); [lia|].
  destruct (convolved_sum_ok s d (k1 :: k2 :: dims)
     (repeat n0 (Z.to_nat (Z.of_nat (seg_N s) - Z.of_nat d + (Z.of_nat (seg_N s) - Z.of_nat d - 1) - 1))) Hw Hd HN Hlt H21)
    as (r & Er & Lr & Pr).
  { rewrite repeat_length. lia. }
  rewrite Er. cbn [obind]. exists r. split; [|split].
  - intros t. rewrite Pr. rnum. rewrite poly_fun_repeat0. unfold half_norm2'. lra.
  - rewrite Lr, repeat_length. lia.
  - apply computeMinMaxCandidates_m1.
Qed.

Lemma seg_candidates_of_times rf (s : segment R) (d : nat) dims a b r :
  seg_wf s -> dims_ok s dims -> (seg_N s <= 22)%nat \/ (seg_N s <= d)%nat ->
  seg_candidateTimes rf s (Z.of_nat d) a b dims = Ok r ->
  seg_candidates rf s (Z.of_nat d) a b dims =
    Ok (true, map (fun t => mkExtremum t (seg_norm s dims d t) 0%Z)
                  (match r with None => [] | Some ts => ts end)).
Proof.
  intros Hw Hd HN E. unfold seg_candidates. rewrite E. cbn [obind].
  rewrite (omap_ok _ (fun t => mkExtremum t (seg_norm s dims d t) 0%Z)); [reflexivity|].
  intros t _. rewrite seg_magnitude_ok by assumption. reflexivity.
Qed.

Lemma seg_norm_nonneg s dims d t : 0 <= seg_norm s dims d t.
Proof. apply sqrt_pos. Qed.

Lemma lsum_sq_nonneg {A} (f : A -> R) l : 0 <= lsum (map (fun k => f k ^ 2) l).
Proof.
  induction l as [|x l IH]; cbn [map lsum]; [lra|]. pose proof (pow2_ge_0 (f x)). lra.
Qed.

Lemma norm_multi_candidates s dims d a b cs :
  a <= b -> good_candidates (half_norm2' s dims d) a b cs ->
  (exists x, In x cs /\ a <= x <= b /\ forall t, a <= t <= b -> seg_norm s dims d t <= seg_norm s dims d x) /\
  (exists x, In x cs /\ a <= x <= b /\ forall t, a <= t <= b -> seg_norm s dims d x <= seg_norm s dims d t).
Proof.
  intros Hab (Ha & Hb & Hz).
  set (f := fun x => lsum (map (fun k => seg_fun s (Z.to_nat k) d x ^ 2) dims)).
  assert (Hg : good_candidates (fun t => 2 * half_norm2' s dims d t) a b cs).
  { split; [exact Ha|]. split; [exact Hb|]. destruct Hz as [Hz|Hz]; [left|right].
    - intros t Ht. rewrite Hz by exact Ht. ring.
    - intros t Ht H. apply Hz; [exact Ht|lra]. }
  assert (Hd : forall t, is_derive f t (2 * half_norm2' s dims d t)) by (intros t; apply norm2_derive).
  split.
  - destruct (candidates_max f _ a b cs Hd Hab Hg) as [x (H1 & H2 & H3)].
    exists x. split; [exact H1|]. split; [exact H2|]. intros t Ht. apply sqrt_le_1_alt. apply H3, Ht.
  - destruct (candidates_min f _ a b cs Hd Hab Hg) as [x (H1 & H2 & H3)].
    exists x. split; [exact H1|]. split; [exact H2|]. intros t Ht. apply sqrt_le_1_alt. apply H3, Ht.
Qed.

(** From candidate times to the result of the selection. *)
Lemma select_norm_max s dims d a b cs mn mx :
  a <= b -> (forall t, In t cs -> a <= t <= b) ->
  (forall t, a <= t <= b -> seg_norm s dims d t < @dbl_max R R_ops) ->
  cs <> [] ->
  exists emin emax,
    seg_selectMinMax a b (map (fun t => mkExtremum t (seg_norm s dims d t) 0%Z) cs) mn mx = Some (emin, emax) /\
    In (ext_time emin) cs /\ ext_value emin = seg_norm s dims d (ext_time emin) /\
    In (ext_time emax) cs /\ ext_value emax = seg_norm s dims d (ext_time emax) /\
    ext_segment emin = 0%Z /\ ext_segment emax = 0%Z /\
    (forall t, In t cs -> ext_value emin <= seg_norm s dims d t <= ext_value emax).
Proof.
  intros Hab Hin Hb Hne.
  destruct (seg_selectMinMax_spec a b (map (fun t => mkExtremum t (seg_norm s dims d t) 0%Z) cs) mn mx Hab)
    as (emin & emax & E & I1 & W1 & I2 & W2 & H).
  { destruct cs as [|t cs]; [contradiction|]. exists (mkExtremum t (seg_norm s dims d t) 0%Z).
    split; [left; reflexivity|]. apply Hin. left. reflexivity. }
  { intros e He _. apply in_map_iff in He. destruct He as (t & <- & Ht). cbn [ext_value].
    pose proof (seg_norm_nonneg s dims d t). rewrite Rabs_pos_eq by assumption. apply Hb, Hin, Ht. }
  exists emin, emax. split; [exact E|].
  apply in_map_iff in I1. destruct I1 as (t1 & <- & Ht1).
  apply in_map_iff in I2. destruct I2 as (t2 & <- & Ht2). cbn [ext_time ext_value ext_segment] in *.
  repeat split; try assumption.
  - intros. apply (H (mkExtremum t (seg_norm s dims d t) 0%Z)); [apply in_map_iff; exists t; split; [reflexivity|assumption]|].
    cbn [ext_time]. apply Hin. assumption.
  - apply (H (mkExtremum t (seg_norm s dims d t) 0%Z)); [apply in_map_iff; exists t; split; [reflexivity|assumption]|].
    cbn [ext_time]. apply Hin. assumption.
Qed.

Definition rf_ok_multi (rf : @root_oracle R) s dims d a b :=
  forall cs, length cs = (2 * (seg_N s - d) - 2)%nat ->
    (forall t, poly_fun cs t =
       lsum (map (fun k => seg_fun s (Z.to_nat k) d t * seg_fun s (Z.to_nat k) (S d) t) dims)) ->
    covers_real_roots (poly_fun cs) a b (snd (rf cs)).

Lemma multi_dim_extrema rf (s : segment R) (d : nat) dims a b mn mx :
  seg_wf s -> dims_ok s dims -> (2 <= length dims)%nat ->
  (d < seg_N s <= 22)%nat -> (d < 21)%nat -> a <= b ->
  rf_ok_multi rf s dims d a b ->
  (forall t, a <= t <= b -> seg_norm s dims d t < @dbl_max R R_ops) ->
  exists cands emin emax,
    seg_candidates rf s (Z.of_nat d) a b dims = Ok (true, cands) /\
    seg_selectMinMax a b cands mn mx = Some (emin, emax) /\
    is_min_on (seg_norm s dims d) a b (ext_time emin) (ext_value emin) /\
    is_max_on (seg_norm s dims d) a b (ext_time emax) (ext_value emax).
Proof.
  intros Hw Hd Hl HN H21 Hab Hrf Hb.
  destruct (seg_candidateTimes_multi rf s d dims a b Hw Hd Hl) as (cs & Pcs & Lcs & E); [lia|lia|lia|].
  specialize (Hrf cs Lcs Pcs).
  replace (poly_fun cs) with (half_norm2' s dims d) in Hrf
    by (apply FunctionalExtensionality.functional_extensionality; intros t; symmetry; apply Pcs).
  destruct (selectMinMaxCandidatesFromRoots a b (snd (rf cs))) as [ts|] eqn:Es.
  2:{ rewrite (proj2 (selectCandidates_spec a b _) Hab) in Es. discriminate. }
  destruct (selectCandidates_good _ _ _ _ _ Hrf Es) as (_ & Hg & Hin).
  rewrite (seg_candidates_of_times rf s d dims a b (Some ts) Hw Hd) by (try exact E; lia).
  destruct (select_norm_max s dims d a b ts mn mx Hab Hin Hb) as (emin & emax & S & I1 & V1 & I2 & V2 & _ & _ & H).
  { destruct Hg as [Ha _]. intros ->. destruct Ha. }
  eexists. exists emin, emax. split; [reflexivity|]. split; [exact S|].
  destruct (norm_multi_candidates s dims d a b ts Hab Hg) as [[xM (M1 & M2 & M3)] [xm (m1 & m2 & m3)]].
  split.
  - split; [apply Hin, I1|]. split; [symmetry; exact V1|]. intros t Ht.
    specialize (m3 t Ht). specialize (H xm m1). lra.
  - split; [apply Hin, I2|]. split; [symmetry; exact V2|]. intros t Ht.
    specialize (M3 t Ht). specialize (H xM M1). lra.
Qed.

(** C10: one dimension. *)
Lemma seg_norm_single s k d t : seg_norm s [k] d t = Rabs (seg_fun s (Z.to_nat k) d t).
Proof.
  unfold seg_norm. cbn [map lsum]. rewrite Rplus_0_r, <- Rsqr_pow2. apply sqrt_Rsqr_abs.
Qed.

Lemma single_dim_maximum rf (s : segment R) (d : nat) k a b mn mx :
  seg_wf s -> (0 <= k < Z.of_nat (seg_D s))%Z ->
  (d < seg_N s <= 22)%nat -> (d < 21)%nat -> a <= b ->
  (forall cs, length cs = seg_N s -> (forall t, poly_fun cs t = seg_fun s (Z.to_nat k) (S d) t) ->
    covers_real_roots (poly_fun cs) a b (snd (rf cs))) ->
  (forall t, a <= t <= b -> Rabs (seg_fun s (Z.to_nat k) d t) < @dbl_max R R_ops) ->
  exists cands emin emax,
    seg_candidates rf s (Z.of_nat d) a b [k] = Ok (true, cands) /\
    seg_selectMinMax a b cands mn mx = Some (emin, emax) /\
    is_max_on (fun t => Rabs (seg_fun s (Z.to_nat k) d t)) a b (ext_time emax) (ext_value emax) /\
    (a <= ext_time emin <= b) /\ ext_value emin = Rabs (seg_fun s (Z.to_nat k) d (ext_time emin)).
Proof.
  intros Hw Hk HN H21 Hab Hrf Hb.
  set (p := nth (Z.to_nat k) (seg_polys s) []).
  assert (Hp : length p = seg_N s) by (apply seg_wf_nth; [exact Hw|lia]).
  destruct (computeMinMaxCandidates_cases rf p a b d) as [_ Hc]; [lia|].
  destruct Hc as (cs & Pcs & Lcs & E); [lia|].
  assert (E' : seg_candidateTimes rf s (Z.of_nat d) a b [k] = Ok (selectMinMaxCandidatesFromRoots a b (snd (rf cs)))).
  { unfold seg_candidateTimes. destruct (Z.ltb_spec k 0); [lia|].
    rewrite (oget_nth _ _ []) by (unfold seg_D in *; lia). cbn [obind]. exact E. }
  assert (Pcs' : forall t, poly_fun cs t = seg_fun s (Z.to_nat k) (S d) t).
  { intros t. rewrite seg_fun_dpoly. apply Pcs. }
  specialize (Hrf cs ltac:(lia) Pcs').
  replace (poly_fun cs) with (dpoly p (S d)) in Hrf
    by (apply FunctionalExtensionality.functional_extensionality; intros t; symmetry; apply Pcs).
  destruct (selectMinMaxCandidatesFromRoots a b (snd (rf cs))) as [ts|] eqn:Es.
  2:{ rewrite (proj2 (selectCandidates_spec a b _) Hab) in Es. discriminate. }
  destruct (selectCandidates_good _ _ _ _ _ Hrf Es) as (_ & Hg & Hin).
  assert (Hd : dims_ok s [k]) by (constructor; [exact Hk|constructor]).
  rewrite (seg_candidates_of_times rf s d [k] a b (Some ts) Hw Hd) by (try exact E'; lia).
  destruct (select_norm_max s [k] d a b ts mn mx Hab Hin) as (emin & emax & S & I1 & V1 & I2 & V2 & _ & _ & H).
  { intros t Ht. rewrite seg_norm_single. apply Hb, Ht. }
  { destruct Hg as [Ha _]. intros ->. destruct Ha. }
  eexists. exists emin, emax. split; [reflexivity|]. split; [exact S|].
  rewrite seg_norm_single in V1, V2.
  split; [|split; [apply Hin, I1|exact V1]].
  split; [apply Hin, I2|]. split; [symmetry; exact V2|]. intros t Ht.
  destruct (candidates_max (dpoly p d) (dpoly p (Datatypes.S d)) a b ts (is_derive_dpoly p d) Hab Hg) as [x1 (x1i & _ & x1m)].
  destruct (candidates_min (dpoly p d) (dpoly p (Datatypes.S d)) a b ts (is_derive_dpoly p d) Hab Hg) as [x2 (x2i & _ & x2m)].
  pose proof (H x1 x1i) as H1. pose proof (H x2 x2i) as H2.
  rewrite seg_norm_single, seg_fun_dpoly in H1, H2. fold p in H1, H2.
  rewrite seg_fun_dpoly. fold p. specialize (x1m t Ht). specialize (x2m t Ht).
  destruct H1 as [_ H1]. destruct H2 as [_ H2].
  apply Rabs_le. pose proof (Rle_abs (dpoly p d x1)). pose proof (Rle_abs (- dpoly p d x2)).
  rewrite Rabs_Ropp in *. lra.
Qed.

(** The maximum alone needs no bound on the values: the norms are at least 0, above
    the initial value of the maximum. *)
Lemma select_norm_maximum s dims d a b cs mn mx :
  a <= b -> (forall t, In t cs -> a <= t <= b) -> cs <> [] ->
  exists emin emax,
    seg_selectMinMax a b (map (fun t => mkExtremum t (seg_norm s dims d t) 0%Z) cs) mn mx = Some (emin, emax) /\
    In (ext_time emax) cs /\ ext_value emax = seg_norm s dims d (ext_time emax) /\
    (forall t, In t cs -> seg_norm s dims d t <= ext_value emax).
Proof.
  intros Hab Hin Hne. rewrite seg_selectMinMax_fold by exact Hab.
  set (fes := filter (in_window a b) _).
  assert (Hf : forall e, In e fes <-> exists t, In t cs /\ e = mkExtremum t (seg_norm s dims d t) 0%Z).
  { intros e. unfold fes. rewrite filter_In, in_window_iff, in_map_iff. split.
    - intros ((t & <- & Ht) & _). exists t. auto.
    - intros (t & Ht & ->). split; [exists t; auto|]. cbn [ext_time]. apply Hin, Ht. }
  destruct (fold_max_gen ext_value fes (mkExtremum (ext_time mx) dbl_lowest (ext_segment mx))) as (B1 & B2 & B3).
  cbv zeta in *. set (rx := fold_left _ fes (mkExtremum (ext_time mx) _ _)) in B1, B2, B3 |- *.
  eexists. exists rx. split; [reflexivity|].
  assert (Hrx : In rx fes).
  { destruct B1 as [E|E]; [|exact E]. exfalso. destruct cs as [|t cs]; [contradiction|].
    specialize (B3 (mkExtremum t (seg_norm s dims d t) 0%Z) ltac:(apply Hf; exists t; split; [left|]; reflexivity)).
    rewrite E in B3. cbn [ext_value] in B3. rewrite dbl_lowest_eq in B3.
    pose proof (seg_norm_nonneg s dims d t). pose proof dbl_max_pos. lra. }
  apply Hf in Hrx. destruct Hrx as (t & Ht & ->). cbn [ext_time ext_value] in *.
  split; [exact Ht|]. split; [reflexivity|]. intros t' Ht'.
  apply (B3 (mkExtremum t' (seg_norm s dims d t') 0%Z)). apply Hf. exists t'. auto.
Qed.

Lemma multi_dim_maximum rf (s : segment R) (d : nat) dims a b mn mx :
  seg_wf s -> dims_ok s dims -> (2 <= length dims)%nat ->
  (d < seg_N s <= 22)%nat -> (d < 21)%nat -> a <= b ->
  rf_ok_multi rf s dims d a b ->
  exists cands emin emax,
    seg_candidates rf s (Z.of_nat d) a b dims = Ok (true, cands) /\
    seg_selectMinMax a b cands mn mx = Some (emin, emax) /\
    is_max_on (seg_norm s dims d) a b (ext_time emax) (ext_value emax).
Proof.
  intros Hw Hd Hl HN H21 Hab Hrf.
  destruct (seg_candidateTimes_multi rf s d dims a b Hw Hd Hl) as (cs & Pcs & Lcs & E); [lia|lia|lia|].
  specialize (Hrf cs Lcs Pcs).
  replace (poly_fun cs) with (half_norm2' s dims d) in Hrf
    by (apply FunctionalExtensionality.functional_extensionality; intros t; symmetry; apply Pcs).
  destruct (selectMinMaxCandidatesFromRoots a b (snd (rf cs))) as [ts|] eqn:Es.
  2:{ rewrite (proj2 (selectCandidates_spec a b _) Hab) in Es. discriminate. }
  destruct (selectCandidates_good _ _ _ _ _ Hrf Es) as (_ & Hg & Hin).
  rewrite (seg_candidates_of_times rf s d dims a b (Some ts) Hw Hd) by (try exact E; lia).
  destruct (select_norm_maximum s dims d a b ts mn mx Hab Hin) as (emin & emax & S & I2 & V2 & H).
  { destruct Hg as [Ha _]. intros ->. destruct Ha. }
  eexists. exists emin, emax. split; [reflexivity|]. split; [exact S|].
  destruct (norm_multi_candidates s dims d a b ts Hab Hg) as [[xM (M1 & M2 & M3)] _].
  split; [apply Hin, I2|]. split; [symmetry; exact V2|]. intros t Ht.
  specialize (M3 t Ht). specialize (H xM M1). lra.
Qed.

Lemma single_dim_maximum_any rf (s : segment R) (d : nat) k a b mn mx :
  seg_wf s -> (0 <= k < Z.of_nat (seg_D s))%Z ->
  (d < seg_N s <= 22)%nat -> (d < 21)%nat -> a <= b ->
  (forall cs, length cs = seg_N s -> (forall t, poly_fun cs t = seg_fun s (Z.to_nat k) (S d) t) ->
    covers_real_roots (poly_fun cs) a b (snd (rf cs))) ->
  exists cands emin emax,
    seg_candidates rf s (Z.of_nat d) a b [k] = Ok (true, cands) /\
    seg_selectMinMax a b cands mn mx = Some (emin, emax) /\
    is_max_on (fun t => Rabs (seg_fun s (Z.to_nat k) d t)) a b (ext_time emax) (ext_value emax).
Proof.
  intros Hw Hk HN H21 Hab Hrf.
  set (p := nth (Z.to_nat k) (seg_polys s) []).
  assert (Hp : length p = seg_N s) by (apply seg_wf_nth; [exact Hw|lia]).
  destruct (computeMinMaxCandidates_cases rf p a b d) as [_ Hc]; [lia|].
  destruct Hc as (cs & Pcs & Lcs & E); [lia|].
  assert (E' : seg_candidateTimes rf s (Z.of_nat d) a b [k] = Ok (selectMinMaxCandidatesFromRoots a b (snd (rf cs)))).
  { unfold seg_candidateTimes. destruct (Z.ltb_spec k 0); [lia|].
    rewrite (oget_nth _ _ []) by (unfold seg_D in *; lia). cbn [obind]. exact E. }
  assert (Pcs' : forall t, poly_fun cs t = seg_fun s (Z.to_nat k) (S d) t).
  { intros t. rewrite seg_fun_dpoly. apply Pcs. }
  specialize (Hrf cs ltac:(lia) Pcs').
  replace (poly_fun cs) with (dpoly p (S d)) in Hrf
    by (apply FunctionalExtensionality.functional_extensionality; intros t; symmetry; apply Pcs).
  destruct (selectMinMaxCandidatesFromRoots a b (snd (rf cs))) as [ts|] eqn:Es.
  2:{ rewrite (proj2 (selectCandidates_spec a b _) Hab) in Es. discriminate. }
  destruct (selectCandidates_good _ _ _ _ _ Hrf Es) as (_ & Hg & Hin).
  assert (Hd : dims_ok s [k]) by (constructor; [exact Hk|constructor]).
  rewrite (seg_candidates_of_times rf s d [k] a b (Some ts) Hw Hd) by (try exact E'; lia).
  destruct (select_norm_maximum s [k] d a b ts mn mx Hab Hin) as (emin & emax & S & I2 & V2 & H).
  { destruct Hg as [Ha _]. intros ->. destruct Ha. }
  eexists. exists emin, emax. split; [reflexivity|]. split; [exact S|].
  rewrite seg_norm_single in V2.
  split; [apply Hin, I2|]. split; [symmetry; exact V2|]. intros t Ht.
  destruct (candidates_max (dpoly p d) (dpoly p (Datatypes.S d)) a b ts (is_derive_dpoly p d) Hab Hg) as [x1 (x1i & _ & x1m)].
  destruct (candidates_min (dpoly p d) (dpoly p (Datatypes.S d)) a b ts (is_derive_dpoly p d) Hab Hg) as [x2 (x2i & _ & x2m)].
  pose proof (H x1 x1i) as H1. pose proof (H x2 x2i) as H2.
  rewrite seg_norm_single, seg_fun_dpoly in H1, H2. fold p in H1, H2.
  rewrite seg_fun_dpoly. fold p. specialize (x1m t Ht). specialize (x2m t Ht).
  apply Rabs_le. pose proof (Rle_abs (dpoly p d x1)). pose proof (Rle_abs (- dpoly p d x2)).
  rewrite Rabs_Ropp in *. lra.
Qed.
