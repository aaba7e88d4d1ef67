(** Properties C52 and C53 (timing). *)
From Coq Require Import ZArith Reals List Bool Lia Lra Arith Permutation String.
From Verif Require Import Num RSum ModelPolynomial ModelSegment ProofSegment2 ModelTiming SpecTiming ProofTiming PropLinear2.
Import ListNotations.
Local Open Scope R_scope.

(** ** C52: accumulator *)
(** For every number type (doubles included): counts, order of summation, and the
    contents of the window; no sequence of less than 2^31 samples is undefined. *)
Theorem C52_window {T} {ops : NumOps T} (W : nat) (xs : list T) :
  (0 < W)%nat -> (Z.of_nat (length xs) < 2 ^ 31)%Z ->
  exists a, ofold (acc_Add W) xs (acc_new W) = Ok a /\
    acc_TotalSamples a = Z.of_nat (length xs) /\
    acc_Sum a = fold_left nadd xs n0 /\
    Permutation (firstn (length xs) (ac_samples a)) (map Some (recent W xs)) /\
    exists v, acc_LazyVariance W a = Ok v.
Proof.
  intros HW Hn. destruct (acc_adds W HW xs ltac:(lia)) as (a & E & I). exists a. split; [exact E|].
  destruct I as (E1 & E2 & E3 & E4 & E5 & E6 & _). split; [exact E2|]. split; [exact E6|]. split; [exact E5|].
  unfold acc_LazyVariance. rewrite E1. destruct (Z.eqb_spec (Z.of_nat (length xs)) 0); [eauto|].
  set (mean := acc_RollingMean W a). clearbody mean.
  assert (G : forall l v, (forall i, In i l -> (i < W)%nat /\ (i < length xs)%nat) -> exists v',
    ofold (fun var i => o <-- oget (ac_samples a) i ;; match o with None => UB | Some x => Ok (nadd var (nmul (nsub x mean) (nsub x mean))) end) l v = Ok v').
  { induction l as [|i l IH]; intros v Hl; [eexists; reflexivity|]. cbn [ofold]. destruct (Hl i (or_introl eq_refl)) as (H1 & H2).
    destruct (E4 i H1 H2) as (x & X & _). unfold oget. rewrite (nth_error_nth' _ None) by lia. cbn [obind]. rewrite X. cbn [obind].
    apply IH. intros j Hj. apply Hl. right. exact Hj. }
  destruct (G (seq 0 (Z.to_nat (Z.min (Z.of_nat (length xs)) (Z.of_nat W)))) n0) as (v & ->); [|cbn [obind]; eauto].
  intros i Hi. apply in_seq in Hi. lia.
Qed.
Print Assumptions C52_window.
Example C52_window_example : (0 < 50)%nat /\ (Z.of_nat (length (repeat (f64 1) 60)) < 2 ^ 31)%Z.
Proof. split; [lia|reflexivity]. Qed.

Lemma window_sum W (HW : (0 < W)%nat) (xs : list R) : (Z.of_nat (length xs) <= 2 ^ 31 - 1)%Z ->
  exists a, ofold (acc_Add W) xs (acc_new W) = Ok a /\ acc_inv W xs a /\ ac_window_sum a = lsum (recent W xs).
Proof.
  induction xs as [|x xs IH] using rev_ind; intros H.
  - exists (acc_new W). split; [reflexivity|]. split; [apply acc_inv_new; exact HW|reflexivity].
  - rewrite app_length in H. cbn [List.length] in H. destruct IH as (a & E & I & S); [lia|].
    destruct (acc_inv_add W HW xs a x I ltac:(lia)) as (a' & E' & I' & S'). exists a'.
    split; [rewrite ofold_append, E; cbn [obind ofold]; rewrite E'; reflexivity|]. split; [exact I'|]. rewrite S', S.
    destruct (Nat.ltb_spec (length xs) W) as [L|L].
    + rewrite !recent_all by (rewrite ?app_length; cbn; lia). rewrite lsum_app. cbn [lsum]. rnum. lra.
    + destruct (recent_snoc W xs x x HW L) as (rest & R1 & R2). rewrite R1, R2, lsum_app. cbn [lsum]. rnum. lra.
Qed.
Lemma min_fold (xs : list R) : forall m, let f := fold_left (fun m x => if Rltb x m then x else m) xs m in
  (f = m \/ In f xs) /\ f <= m /\ forall x, In x xs -> f <= x.
Proof.
  induction xs as [|x xs IH]; intros m; cbn [fold_left]; [repeat split; auto; [lra|intros ? []]|].
  destruct (IH (if Rltb x m then x else m)) as (A & B & C). cbv zeta in *. destruct (Rltb_spec x m) as [L|L].
  - split; [destruct A as [A|A]; [right; left; symmetry; exact A|right; right; exact A]|]. split; [lra|]. intros y [<-|Hy]; [exact B|auto].
  - split; [destruct A as [A|A]; [left; exact A|right; right; exact A]|]. split; [exact B|]. intros y [<-|Hy]; [lra|auto].
Qed.
Lemma max_fold (xs : list R) : forall m, let f := fold_left (fun m x => if Rltb m x then x else m) xs m in
  (f = m \/ In f xs) /\ m <= f /\ forall x, In x xs -> x <= f.
Proof.
  induction xs as [|x xs IH]; intros m; cbn [fold_left]; [repeat split; auto; [lra|intros ? []]|].
  destruct (IH (if Rltb m x then x else m)) as (A & B & C). cbv zeta in *. destruct (Rltb_spec m x) as [L|L].
  - split; [destruct A as [A|A]; [right; left; symmetry; exact A|right; right; exact A]|]. split; [lra|]. intros y [<-|Hy]; [exact B|auto].
  - split; [destruct A as [A|A]; [left; exact A|right; right; exact A]|]. split; [exact B|]. intros y [<-|Hy]; [lra|auto].
Qed.
Lemma lsum_perm l1 l2 : Permutation l1 l2 -> lsum l1 = lsum l2.
Proof. induction 1; cbn [lsum]; lra. Qed.

Lemma firstn_snoc {A} (l : list A) k d : (k < length l)%nat -> firstn (S k) l = firstn k l ++ [nth k l d].
Proof.
  revert k. induction l as [|a l IH]; intros k H; [cbn in H; lia|]. destruct k as [|k]; [reflexivity|].
  cbn in H. change (firstn (S (S k)) (a :: l)) with (a :: firstn (S k) l). rewrite IH by lia. reflexivity.
Qed.

(** The statistics in real arithmetic, for at least one and less than 2^31
    samples in the range of doubles.  The variance is that of the window, not of
    all samples.  Max() is right if some sample is at least 2^-1022. *)
Theorem C52_statistics_partial (W : nat) (xs : list R) :
  (0 < W)%nat -> xs <> [] -> (Z.of_nat (length xs) < 2 ^ 31)%Z ->
  List.Forall (fun x => x <= IZR (2 ^ 1024 - 2 ^ 971)) xs ->
  exists a, ofold (acc_Add W) xs (acc_new W) = Ok a /\
    acc_TotalSamples a = Z.of_nat (length xs) /\ acc_Sum a = lsum xs /\ acc_Mean a = mean xs /\
    acc_RollingMean W a = mean (recent W xs) /\ acc_LazyVariance W a = Ok (variance (recent W xs)) /\
    In (acc_Min a) xs /\ (forall x, In x xs -> acc_Min a <= x) /\
    ((exists x, In x xs /\ / 2 ^ 1022 <= x) -> In (acc_Max a) xs /\ forall x, In x xs -> x <= acc_Max a).
Proof.
  intros HW Hne Hn Hb. destruct (window_sum W HW xs ltac:(lia)) as (a & E & I & S). exists a. split; [exact E|].
  destruct I as (E1 & E2 & E3 & E4 & E5 & E6 & E7 & E8).
  assert (Hs : ac_sum a = lsum xs).
  { rewrite E6. change (@n0 R R_ops) with 0. change (@nadd R R_ops) with Rplus. rewrite fold_left_Rplus. lra. }
  assert (Hr : acc_RollingMean W a = mean (recent W xs)).
  { unfold acc_RollingMean, mean. rewrite S, E1, recent_length. rnum. f_equal. rewrite INR_IZR_INZ. f_equal. lia. }
  split; [exact E2|]. split; [exact Hs|].
  split; [unfold acc_Mean, mean; rewrite Hs, E2; rnum; rewrite <- INR_IZR_INZ; reflexivity|]. split; [exact Hr|]. split.
  { unfold acc_LazyVariance. rewrite E1, Hr. destruct (Z.eqb_spec (Z.of_nat (length xs)) 0) as [Z0|_]; [destruct xs; [congruence|discriminate]|].
    set (mu := mean (recent W xs)). set (m := Nat.min (length xs) W).
    replace (Z.min (Z.of_nat (length xs)) (Z.of_nat W)) with (Z.of_nat m) by lia. rewrite Nat2Z.id.
    assert (Hl : exists l, firstn (length xs) (ac_samples a) = map Some l /\ Permutation l (recent W xs)).
    { destruct (Permutation_map_inv _ _ E5) as (l & L1 & L2). exists l. split; [exact L1|apply Permutation_sym; exact L2]. }
    destruct Hl as (l & L1 & L2).
    assert (Ll : length l = m) by (rewrite (Permutation_length L2), recent_length; reflexivity).
    assert (G : forall k v, (k <= m)%nat ->
      ofold (fun var i => o <-- oget (ac_samples a) i ;; match o with None => UB | Some x => Ok (var + (x - mu) * (x - mu))%num end) (seq 0 k) v
      = Ok (v + lsum (map (fun x => (x - mu) ^ 2) (firstn k l)))).
    { induction k as [|k IH]; intros v Hk; [cbn; f_equal; lra|]. rewrite seq_S, ofold_append, IH by lia. cbn [obind Nat.add ofold].
      assert (X : nth_error (ac_samples a) k = Some (Some (nth k l 0))).
      { rewrite <- (firstn_skipn (length xs) (ac_samples a)), L1. rewrite nth_error_app1 by (rewrite map_length; lia).
        apply map_nth_error. apply nth_error_nth'. lia. }
      unfold oget. rewrite X. cbn [obind]. rnum. f_equal. rewrite (firstn_snoc l k 0) by lia. rewrite map_app, lsum_app. cbn [map lsum]. ring. }
    rewrite G by lia. cbn [obind]. f_equal. change (@n0 R R_ops) with 0. rewrite Rplus_0_l. rnum. unfold variance, mean at 1.
    rewrite firstn_all2 by lia. rewrite map_length, recent_length. fold mu. fold m. rewrite <- INR_IZR_INZ. f_equal.
    apply lsum_perm, Permutation_map, L2. }
  unfold acc_Min, acc_Max. rewrite E7, E8. rnum.
  destruct (min_fold xs dbl_max) as (A1 & A2 & A3). destruct (max_fold xs dbl_min) as (B1 & B2 & B3). cbv zeta in *.
  assert (Hmax : @dbl_max R R_ops = IZR (2 ^ 1024 - 2 ^ 971)) by reflexivity.
  assert (Hmin : @dbl_min R R_ops = / 2 ^ 1022).
  { unfold dbl_min, nlit. rnum. unfold Rdiv. rewrite Rmult_1_l. f_equal. rewrite pow_IZR. reflexivity. }
  split; [|split; [exact A3|]].
  - destruct A1 as [A1|A1]; [|exact A1]. destruct xs as [|x xs]; [congruence|].
    assert (x = dbl_max).
    { apply Rle_antisym; [rewrite Hmax; exact (Forall_inv Hb)|]. rewrite <- A1. apply A3. left. reflexivity. }
    rewrite A1, <- H. left. reflexivity.
  - intros (x & Hx & Lx). split; [|exact B3]. destruct B1 as [B1|B1]; [|exact B1]. rewrite <- Hmin in Lx.
    assert (x = dbl_min) by (apply Rle_antisym; [rewrite <- B1; apply B3; exact Hx|exact Lx]). rewrite B1, <- H. exact Hx.
Qed.
Print Assumptions C52_statistics_partial.
Example C52_example : (0 < 2)%nat /\ [1; 2; 6] <> [] /\ (Z.of_nat (length [1; 2; 6]) < 2 ^ 31)%Z /\
  List.Forall (fun x => x <= IZR (2 ^ 1024 - 2 ^ 971)) [1; 2; 6] /\ (exists x, In x [1; 2; 6] /\ / 2 ^ 1022 <= x) /\
  mean (recent 2 [1; 2; 6]) = 4.
Proof.
  split; [lia|]. split; [discriminate|]. split; [reflexivity|]. split.
  { repeat (apply Forall_cons; [apply IZR_le; discriminate|]). apply Forall_nil. }
  split; [exists 2; split; [right; left; reflexivity|]|].
  - apply Rle_trans with (/ 1); [apply Rinv_le_contravar; [lra|apply pow_R1_Rle; lra]|lra].
  - unfold mean, recent. cbn. lra.
Qed.

(** Max() of samples that are all below 2^-1022 is 2^-1022. *)
Theorem C52_max_refuted : exists (xs : list R) (a : accumulator R), xs <> [] /\
  ofold (acc_Add kWindow) xs (acc_new kWindow) = Ok a /\ List.Forall (fun x => x < acc_Max a) xs.
Proof.
  destruct (acc_adds kWindow ltac:(unfold kWindow; lia) [-1; -2]) as (a & E & I); [cbn; lia|].
  exists [-1; -2], a. split; [discriminate|]. split; [exact E|]. destruct I as (_ & _ & _ & _ & _ & _ & _ & E8).
  unfold acc_Max. rewrite E8. destruct (max_fold [-1; -2] dbl_min) as (_ & B & _). cbv zeta in B. rnum.
  assert (0 < @dbl_min R R_ops).
  { unfold dbl_min, nlit. rnum. apply Rdiv_lt_0_compat; [lra|]. apply IZR_lt. reflexivity. }
  repeat (apply Forall_cons; [lra|]). apply Forall_nil.
Qed.
Print Assumptions C52_max_refuted.

(** LazyVariance is not the variance of all samples. *)
Theorem C52_variance_of_all_refuted : exists (xs : list R) (a : accumulator R) (v : R),
  ofold (acc_Add kWindow) xs (acc_new kWindow) = Ok a /\ acc_LazyVariance kWindow a = Ok v /\ v <> variance xs.
Proof.
  set (xs := 51 :: repeat 0 50).
  destruct (C52_statistics_partial kWindow xs) as (a & E & _ & _ & _ & _ & V & _).
  { unfold kWindow; lia. }
  { discriminate. }
  { reflexivity. }
  { apply List.Forall_forall. intros x Hx. unfold xs in Hx. destruct Hx as [<-|Hx]; [|apply repeat_spec in Hx; subst x]; apply IZR_le; discriminate. }
  exists xs, a, (variance (recent kWindow xs)). split; [exact E|]. split; [exact V|].
  assert (Hr : recent kWindow xs = repeat 0 50) by reflexivity.
  assert (Z : forall k, lsum (repeat 0 k) = 0) by (induction k; cbn [repeat lsum]; lra).
  assert (Q : forall m l, 0 <= lsum (map (fun x => (x - m) ^ 2) l)).
  { induction l as [|y l IH]; cbn [map lsum]; [lra|]. assert (P := pow2_ge_0 (y - m)). lra. }
  assert (M0 : mean (repeat 0 50) = 0) by (unfold mean; rewrite Z; lra).
  assert (V0 : variance (repeat 0 50) = 0).
  { unfold variance. rewrite M0. replace (map _ (repeat 0 50)) with (repeat 0 50); [exact M0|].
    generalize 50%nat. induction n as [|n IH]; cbn [repeat map]; [reflexivity|]. rewrite <- IH. f_equal. ring. }
  assert (E51 : INR 51 = 51) by (rewrite INR_IZR_INZ; reflexivity).
  assert (L51 : length xs = 51%nat) by reflexivity.
  assert (M1 : mean xs = 1) by (unfold mean; rewrite L51, E51; unfold xs; cbn [lsum]; rewrite Z; field).
  rewrite Hr, V0. unfold variance, mean at 1. rewrite M1, map_length, L51, E51. intros H.
  assert (P : lsum (map (fun x => (x - 1) ^ 2) xs) = 0) by lra. unfold xs in P. cbn [map lsum] in P.
  assert (P' := Q 1 (repeat 0 50)). lra.
Qed.
Print Assumptions C52_variance_of_all_refuted.

(** The 2^31-th sample overflows the counters. *)
Theorem C52_overflow_refuted : exists xs : list R, ofold (acc_Add kWindow) xs (acc_new kWindow) = UB.
Proof.
  destruct (Z_of_nat_complete (2 ^ 31) ltac:(lia)) as (k & Ek). exists (repeat 1 k).
  apply acc_overflow; [unfold kWindow; lia|]. rewrite repeat_length, <- Ek. lia.
Qed.
Print Assumptions C52_overflow_refuted.

(** In double arithmetic the window sum keeps the error of a sample that has left
    the window: after 10^17 and fifty times 1 the mean of the last fifty is 0. *)
Section Witness64.
  Local Existing Instance B64_ops.
  Definition drift_xs : list b64 := f64 (10 ^ 17) :: repeat (f64 1) 50.
  Definition drift : outcome (accumulator b64) := ofold (acc_Add kWindow) drift_xs (acc_new kWindow).
  Definition drift_mean (a : accumulator b64) : b64 := acc_RollingMean kWindow a.
  Lemma drift_bool : on_ok drift (fun a => neqb (drift_mean a) n0) = true.
  Proof. vm_compute. reflexivity. Qed.
End Witness64.
Lemma recent_drift {A} (x y : A) : recent kWindow (x :: repeat y 50) = repeat y 50.
Proof. reflexivity. Qed.
Theorem C52_rolling_mean_refuted : exists a : accumulator b64,
  drift = Ok a /\ recent kWindow drift_xs = repeat (f64 1) 50 /\ @neqb b64 B64_ops (drift_mean a) (@n0 b64 B64_ops) = true.
Proof.
  destruct (on_ok_true _ _ drift_bool) as (a & E & H). exists a. split; [exact E|]. split; [|exact H]. unfold drift_xs. apply recent_drift.
Qed.
Print Assumptions C52_rolling_mean_refuted.

(** ** C53: the registry *)
Lemma list_set_nth_other {A} (l : list A) : forall i v j dflt, j <> i -> nth j (list_set l i v) dflt = nth j l dflt.
Proof. induction l as [|x l IH]; intros [|i] v [|j] dflt H; cbn [list_set nth]; try reflexivity; [congruence|]. apply IH. congruence. Qed.
Section C53.
  Local Open Scope nat_scope.
  Context {T : Type} {ops : NumOps T}.

  (** Handles after any history, and the tag of a handle. *)
  Theorem C53_handles (cs cs' : list tcall) (r r' : registry T) ts ts' (tag tag' : string) :
    run_tcalls (reg_new, []) cs = Ok (r, ts) ->
    let r1 := fst (reg_GetHandle r tag) in
    let k := snd (reg_GetHandle r tag) in
    ~ In TReset cs' -> run_tcalls (r1, ts) cs' = Ok (r', ts') ->
    snd (reg_GetHandle r' tag) = k /\
    (snd (reg_GetHandle r' tag') = k -> tag' = tag) /\
    reg_GetTag r' k = tag /\
    exists a, nth_error (rg_timers r') k = Some a.
  Proof.
    intros E0 r1 k Hn E1. destruct (run_inv cs _ _ _ _ reg_inv_new E0) as (I0 & _ & _).
    destruct (reg_inv_handle r tag I0) as (I1 & In1 & _ & _).
    destruct (run_inv cs' _ _ _ _ I1 E1) as (I2 & _ & S2). assert (Hin := S2 Hn _ In1). fold k in Hin.
    destruct I2 as (N1 & N2 & B).
    assert (Hf : tag_find (rg_tags r') tag = Some k) by (apply tag_find_NoDup; assumption).
    split; [unfold reg_GetHandle; rewrite Hf; reflexivity|]. split; [|split].
    - unfold reg_GetHandle. destruct (tag_find (rg_tags r') tag') as [v|] eqn:E; cbn [snd]; intros Q.
      + subst v. apply tag_find_In in E. assert (F1 := find_handle _ _ _ N2 E). assert (F2 := find_handle _ _ _ N2 Hin). congruence.
      + assert (Q2 := B _ _ Hin). lia.
    - unfold reg_GetTag. rewrite (find_handle _ _ _ N2 Hin). reflexivity.
    - destruct (nth_error (rg_timers r') k) as [a|] eqn:E; [exists a; reflexivity|]. apply nth_error_None in E. assert (Q2 := B _ _ Hin). lia.
  Qed.

  (** The number of samples of each handle: one per Stop, and one per destruction
      of a running timer. *)
  Fixpoint stop_events (s : tstate) (cs : list (tcall)) (k : nat) : Z :=
    match cs with
    | [] => 0
    | c :: rest =>
        (match stopped_handle (snd s) c with Some h => if Nat.eqb h k then 1 else 0 | None => 0 end +
         match run_tcall s c with Ok s' => stop_events s' rest k | _ => 0 end)%Z
    end.
  Lemma count_from cs : forall r ts r' ts' k, reg_inv r -> run_tcalls (r, ts) cs = Ok (r', ts') ->
    samples_at r' k = (samples_at r k + stop_events (r, ts) cs k)%Z.
  Proof.
    induction cs as [|c cs IH]; intros r ts r' ts' k I H.
    - apply Ok_inj in H. injection H as <- <-. cbn [stop_events]. lia.
    - unfold run_tcalls in H. cbn [ofold] in H. cbn [stop_events snd]. destruct (run_tcall (r, ts) c) as [(r1 & ts1)| | |] eqn:E; cbn [obind] in H; try discriminate.
      destruct (step_inv r ts c r1 ts1 I E) as (I1 & _ & _ & S1). rewrite (IH r1 ts1 r' ts' k I1 H), S1. lia.
  Qed.
  Theorem C53_count (cs : list tcall) (r : registry T) ts (k : nat) :
    run_tcalls (reg_new, []) cs = Ok (r, ts) ->
    (forall n, reg_GetNumSamples r k = Ok n -> n = stop_events (reg_new, []) cs k).
  Proof.
    intros H n. assert (Q := count_from cs _ _ _ _ k reg_inv_new H). unfold samples_at in Q at 2. cbn [rg_timers reg_new] in Q.
    replace (nth_error [] k) with (@None (accumulator T)) in Q by (destruct k; reflexivity).
    unfold reg_GetNumSamples, reg_query, oget, samples_at in *. destruct (nth_error (rg_timers r) k) as [a|]; [|discriminate].
    cbn [obind]. intros E. apply Ok_inj in E. unfold acc_TotalSamples in E. lia.
  Qed.

  (** After Reset a tag gets a handle that no earlier call returned. *)
  Theorem C53_reset_fresh (cs cs' : list tcall) (r r' : registry T) ts ts' (tag tag' : string) :
    run_tcalls (reg_new, []) cs = Ok (r, ts) ->
    run_tcalls (reg_Reset (fst (reg_GetHandle r tag)), ts) cs' = Ok (r', ts') ->
    snd (reg_GetHandle r' tag') <> snd (reg_GetHandle r tag).
  Proof.
    intros E0 E1. destruct (run_inv cs _ _ _ _ reg_inv_new E0) as (I0 & _ & _).
    destruct (reg_inv_handle r tag I0) as (I1 & In1 & _ & _). assert (B1 := proj2 (proj2 I1) _ _ In1).
    set (k := snd (reg_GetHandle r tag)) in *. set (r1 := fst (reg_GetHandle r tag)) in *.
    assert (Inv : forall cs r0 ts0 r2 ts2, k < length (rg_timers r0) -> (forall e, In e (rg_tags r0) -> snd e <> k) ->
              run_tcalls (r0, ts0) cs = Ok (r2, ts2) ->
              k < length (rg_timers r2) /\ (forall e, In e (rg_tags r2) -> snd e <> k)).
    { clearbody k. clear. intros cs. induction cs as [|c cs IH]; intros r0 ts0 r2 ts2 Hk Hd H.
      - apply Ok_inj in H. injection H as <- <-. auto.
      - unfold run_tcalls in H. cbn [ofold] in H. destruct (run_tcall (r0, ts0) c) as [(r3 & ts3)| | |] eqn:E; cbn [obind] in H; try discriminate.
        assert (G : forall tg, k < length (rg_timers (fst (reg_GetHandle r0 tg))) /\ (forall e, In e (rg_tags (fst (reg_GetHandle r0 tg))) -> snd e <> k)).
        { intros tg. unfold reg_GetHandle. destruct (tag_find (rg_tags r0) tg) eqn:F; cbn [fst rg_timers rg_tags]; [auto|]. split; [rewrite app_length; lia|].
          intros e He. apply (Permutation_in _ (tag_insert_perm _ _ _ F)) in He. destruct He as [<-|He]; [cbn [snd]; lia|auto]. }
        assert (F : forall h x r4, reg_AddTime r0 h x = Ok r4 -> k < length (rg_timers r4) /\ (forall e, In e (rg_tags r4) -> snd e <> k)).
        { intros h x r4 Ea. destruct (addTime_frame _ _ _ _ Ea) as (Et & El & _). rewrite Et, El. auto. }
        assert (Hs : k < length (rg_timers r3) /\ (forall e, In e (rg_tags r3) -> snd e <> k)).
        { destruct c; cbn [run_tcall] in E.
          - apply Ok_inj in E. injection E as <- <-. apply G.
          - apply Ok_inj in E. injection E as <- <-. auto.
          - unfold timer_new_tag in E. specialize (G tag). destruct (reg_GetHandle r0 tag) as (ra & h). apply Ok_inj in E. injection E as <- <-. exact G.
          - destruct (the_timer ts0 i); cbn [obind] in E; try discriminate. apply Ok_inj in E. injection E as <- <-. auto.
          - destruct (the_timer ts0 i) as [t| | |]; cbn [obind] in E; try discriminate. unfold timer_Stop in E.
            destruct (reg_AddTime r0 (tm_handle t) _) as [r5| | |] eqn:Ea; cbn [obind] in E; try discriminate. apply Ok_inj in E. injection E as <- <-. cbn [fst]. eapply F, Ea.
          - destruct (the_timer ts0 i) as [t| | |]; cbn [obind] in E; try discriminate. unfold timer_destroy, timer_Stop in E. destruct (tm_timing t); cbn [obind] in E.
            + destruct (reg_AddTime r0 (tm_handle t) _) as [r5| | |] eqn:Ea; cbn [obind] in E; try discriminate. apply Ok_inj in E. injection E as <- <-. cbn [fst]. eapply F, Ea.
            + apply Ok_inj in E. injection E as <- <-. auto.
          - apply Ok_inj in E. injection E as <- <-. split; [exact Hk|intros e []]. }
        destruct Hs as (Hk3 & Hd3). eapply IH; eauto. }
    destruct (Inv cs' (reg_Reset r1) ts r' ts') as (Hk & Hd); [exact B1|intros e []|exact E1|].
    unfold reg_GetHandle. destruct (tag_find (rg_tags r') tag') as [v|] eqn:Ef; cbn [snd]; [|lia].
    apply tag_find_In in Ef. exact (Hd _ Ef).
  Qed.

  (** A call that leaves timer i alone. *)
  Definition leaves_timer (i : nat) (c : tcall) : Prop :=
    match c with TStart j _ | TStop j _ | TDestroy j _ => j <> i | _ => True end.
  Lemma leaves_nth i cs : forall (s s' : tstate) t, List.Forall (leaves_timer i) cs -> nth_error (snd s) i = Some (Some t) ->
    run_tcalls s cs = Ok s' -> nth_error (snd s') i = Some (Some t).
  Proof.
    assert (Hset : forall (l : list (option timer)) j v t, j <> i -> nth_error l i = Some (Some t) -> nth_error (list_set l j v) i = Some (Some t)).
    { intros l j v t Hj Hn. assert (Hi : i < length l) by (apply nth_error_Some; congruence).
      rewrite (nth_error_nth' _ None) by (rewrite list_set_length; exact Hi). rewrite list_set_nth_other by congruence.
      f_equal. exact (nth_error_nth _ _ None Hn). }
    induction cs as [|c cs IH]; intros s s' t Hf Hn H.
    - apply Ok_inj in H. subst. exact Hn.
    - unfold run_tcalls in H. cbn [ofold] in H. destruct (run_tcall s c) as [s1| | |] eqn:E; cbn [obind] in H; try discriminate.
      inversion Hf as [|? ? Hc Hf']; subst. apply (IH s1 s' t Hf'); [|exact H]. destruct s as (r & ts). cbn [snd] in Hn.
      assert (Happ : forall x, nth_error (ts ++ [x]) i = Some (Some t)). { intros x. rewrite nth_error_app1; [exact Hn|]. apply nth_error_Some. congruence. }
      destruct c; cbn [run_tcall leaves_timer] in E, Hc.
      + apply Ok_inj in E. subst s1. exact Hn.
      + apply Ok_inj in E. subst s1. apply Happ.
      + unfold timer_new_tag in E. destruct (reg_GetHandle r tag) as (ra & h). apply Ok_inj in E. subst s1. apply Happ.
      + destruct (the_timer ts i0); cbn [obind] in E; try discriminate. apply Ok_inj in E. subst s1. apply Hset; assumption.
      + destruct (the_timer ts i0) as [t0| | |]; cbn [obind] in E; try discriminate. destruct (timer_Stop r t0 now) as [x| | |]; cbn [obind] in E; try discriminate.
        apply Ok_inj in E. subst s1. apply Hset; assumption.
      + destruct (the_timer ts i0) as [t0| | |]; cbn [obind] in E; try discriminate. destruct (timer_destroy r t0 now) as [x| | |]; cbn [obind] in E; try discriminate.
        apply Ok_inj in E. subst s1. apply Hset; assumption.
      + apply Ok_inj in E. subst s1. exact Hn.
  Qed.

  (** Start at t0, anything else, Stop at t1: the last step adds the one sample
      (t1 - t0) * 1e-9 s to the timer's own handle and changes no other. *)
  Theorem C53_pair (s s1 s2 s3 : tstate) (mid : list tcall) (i : nat) (t : timer) (t0 t1 : Z) :
    nth_error (snd s) i = Some (Some t) ->
    run_tcall s (TStart i t0) = Ok s1 -> List.Forall (leaves_timer i) mid -> run_tcalls s1 mid = Ok s2 ->
    run_tcall s2 (TStop i t1) = Ok s3 ->
    (exists a a', nth_error (rg_timers (fst s2)) (tm_handle t) = Some a /\
       acc_Add kWindow a (ndiv (nofZ (t1 - t0)) (nofZ (10 ^ 9))) = Ok a' /\
       nth_error (rg_timers (fst s3)) (tm_handle t) = Some a') /\
    (forall k, k <> tm_handle t -> nth_error (rg_timers (fst s3)) k = nth_error (rg_timers (fst s2)) k) /\
    rg_tags (fst s3) = rg_tags (fst s2).
  Proof.
    intros Hn E1 Hf E2 E3. destruct s as (r & ts). cbn [snd] in Hn.
    assert (Hi : i < length ts) by (apply nth_error_Some; congruence).
    assert (N1 : nth_error (snd s1) i = Some (Some (timer_Start t t0))).
    { cbn [run_tcall] in E1. unfold the_timer, oget in E1. rewrite Hn in E1. cbn [obind] in E1. apply Ok_inj in E1. subst s1. cbn [snd].
      rewrite (nth_error_nth' _ None) by (rewrite list_set_length; exact Hi). rewrite list_set_nth by exact Hi. rewrite Nat.eqb_refl. reflexivity. }
    assert (N2 := leaves_nth i mid s1 s2 _ Hf N1 E2). destruct s2 as (r2 & ts2). cbn [snd fst] in *.
    cbn [run_tcall] in E3. unfold the_timer, oget in E3. rewrite N2 in E3. cbn [obind] in E3. unfold timer_Stop in E3. cbn [timer_Start tm_handle tm_time] in E3.
    destruct (reg_AddTime r2 (tm_handle t) _) as [r5| | |] eqn:Ea; cbn [obind] in E3; try discriminate. apply Ok_inj in E3. subst s3. cbn [fst].
    destruct (addTime_frame _ _ _ _ Ea) as (Et & El & Hh & Ho & Hx). split; [exact Hx|]. split; [|exact Et].
    intros k Hk. destruct (Nat.lt_ge_cases k (length (rg_timers r2))) as [Hl|Hl].
    - destruct (nth_error (rg_timers r2) k) as [a|] eqn:Eq; [|apply nth_error_None in Eq; lia].
      rewrite (nth_error_nth' _ a) by lia. rewrite (Ho k a Hk). f_equal. exact (nth_error_nth _ _ a Eq).
    - rewrite !(proj2 (nth_error_None _ _)) by lia. reflexivity.
  Qed.
End C53.
Print Assumptions C53_handles.
Print Assumptions C53_count.
Print Assumptions C53_reset_fresh.
Print Assumptions C53_pair.

Definition tcalls_ex : list tcall :=
  [TGetHandle "a"; TNewTag "b" true 5; TNewTag "a" false 7; TStart 0 10; TStop 1 20; TStop 0 40].
Example C53_example : exists r ts, run_tcalls (@reg_new R, []) tcalls_ex = Ok (r, ts) /\
  snd (reg_GetHandle r "a") = 0%nat /\ snd (reg_GetHandle r "b") = 1%nat /\ stop_events (@reg_new R, []) tcalls_ex 1 = 1%Z /\
  List.Forall (leaves_timer 0) [TStop 1 20].
Proof.
  eexists _, _. split; [reflexivity|]. split; [reflexivity|]. split; [reflexivity|]. split; [reflexivity|].
  apply List.Forall_cons; [discriminate|apply List.Forall_nil].
Qed.

(** A second Stop records again: two samples for one Start. *)
Theorem C53_double_stop_finding : exists (r : registry R) ts,
  run_tcalls (reg_new, []) [TNewTag "a" true 0; TStart 0 10; TStop 0 20; TStop 0 30] = Ok (r, ts) /\
  reg_GetNumSamples r 0 = Ok 2%Z.
Proof. eexists _, _. split; reflexivity. Qed.
Print Assumptions C53_double_stop_finding.
(** A Stop without Start records the time since the epoch of the clock. *)
Theorem C53_stop_without_start_finding : exists (r : registry R) ts (now : Z),
  run_tcalls (reg_new, []) [TNewTag "a" true now; TStop 0 now] = Ok (r, ts) /\
  reg_GetTotalSeconds r 0 = Ok (0 + IZR (now - 0) / IZR (10 ^ 9)) /\ IZR (now - 0) / IZR (10 ^ 9) = 1600000000.
Proof. eexists _, _, (1600000000 * 10 ^ 9)%Z. split; [reflexivity|]. split; [reflexivity|]. rewrite Z.sub_0_r, mult_IZR. field. apply IZR_neq. discriminate. Qed.
Print Assumptions C53_stop_without_start_finding.
(** Timer(handle) does not check its handle. *)
Theorem C53_unknown_handle_finding : exists (k : nat) (r : registry R) ts,
  run_tcalls (reg_new, []) [TNewHandle k false 0] = Ok (r, ts) /\ run_tcalls (r, ts) [TStop 0 1] = UB.
Proof. exists 7%nat. eexists _, _. split; reflexivity. Qed.
Print Assumptions C53_unknown_handle_finding.
(** After Reset the tag of an old handle is gone, though its timer still records. *)
Theorem C53_reset_tag_finding : exists (r : registry R) ts,
  run_tcalls (reg_new, []) [TNewTag "a" false 0; TReset; TStop 0 1] = Ok (r, ts) /\
  reg_GetNumSamples r 0 = Ok 1%Z /\ reg_GetTag r 0 = ""%string.
Proof. eexists _, _. split; [reflexivity|]. split; reflexivity. Qed.
Print Assumptions C53_reset_tag_finding.
