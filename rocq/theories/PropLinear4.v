(** C34 continued: the optimal trajectory is unique.  If the first vertex fixes the
    derivatives below the one that is minimised, a competitor that costs no more is
    the computed motion. *)
From Coq Require Import ZArith Reals List Bool Lia Lra Arith.
From Coquelicot Require Import Coquelicot.
From Verif Require Import Num RSum SpecPoly ModelPolynomial ModelSegment ModelVertex ModelTrajectory ModelLinear
  SpecSegment SpecVertex SpecLinear ProofPolynomial ProofPolynomial2 ProofSegment ProofSegment2 ProofVertex ProofTrajectory3
  ProofRoots ProofMatrix ProofHermite ProofReorder ProofLinear ProofLinear2 ProofLinear3 ProofLinear4 ProofLinear5
  ProofLinear6 ProofLinear7 PropLinear PropLinear2 ProofUnique.
Import ListNotations.
Open Scope R_scope.

Lemma cost_nonneg_each r dim segs i d : (forall i, (i < length segs)%nat -> 0 < seg_time (nth i segs no_seg)) ->
  integral_cost r dim segs <= 0 -> (i < length segs)%nat -> (d < dim)%nat ->
  RInt (fun t => seg_fun (nth i segs no_seg) d r t ^ 2) 0 (seg_time (nth i segs no_seg)) = 0.
Proof.
  intros HT HC Hi Hd. rewrite integral_cost_rsum in HC.
  set (q := fun i d => RInt (fun t => seg_fun (nth i segs no_seg) d r t ^ 2) 0 (seg_time (nth i segs no_seg))).
  assert (Q : forall i d, (i < length segs)%nat -> 0 <= q i d).
  { intros j e Hj. unfold q. apply RInt_ge_0; [apply Rlt_le, HT, Hj|apply seg_sq_int|]. intros; apply pow2_ge_0. }
  assert (S1 : forall n (f : nat -> R), (forall j, (j < n)%nat -> 0 <= f j) -> rsum n f <= 0 -> forall j, (j < n)%nat -> f j = 0).
  { induction n as [|n IH]; intros f Hf Hs j Hj; [lia|]. cbn [rsum] in Hs.
    assert (0 <= rsum n f) by (clear -Hf; induction n as [|n IH]; [cbn; lra|cbn [rsum]; assert (0 <= f n) by (apply Hf; lia); assert (0 <= rsum n f) by (apply IH; intros; apply Hf; lia); lra]).
    assert (0 <= f n) by (apply Hf; lia). destruct (Nat.eq_dec j n) as [->|]; [lra|]. apply IH; [intros; apply Hf; lia|lra|lia]. }
  assert (X := S1 (length segs) (fun i => rsum dim (q i))). cbv beta in X.
  assert (Y : rsum dim (q i) = 0).
  { apply X; [|exact HC|exact Hi]. intros j Hj. clear -Q Hj. induction dim as [|n IH]; [cbn; lra|cbn [rsum]]. assert (0 <= q j n) by (now apply Q). lra. }
  apply (S1 dim (q i)); [intros; now apply Q|lra|exact Hd].
Qed.

Theorem C34_unique (h : nat) (inv : mat R -> mat R) (solve : mat R -> list R -> list R)
        (dim : nat) (vs : list (vertex R)) (r : Z) (o o' : opt R) (segs : list (segment R)) :
  inverse_ok h inv -> solver_ok solve -> List.Forall vertex_wf vs -> (0 < dim)%nat ->
  set_up h inv solve dim vs r o ->
  opt_solveLinear h solve o = Ok o' ->
  List.Forall (fun t => / 2 ^ 52 <= t) (o_times o') ->
  (forall k, (0 <= k < r)%Z -> vertex_get (nth 0 vs no_vertex) k <> None) ->
  chain_shape (2 * h) dim (o_times o') segs -> meets_constraints h dim vs segs -> smooth_chain h dim segs ->
  integral_cost (Z.to_nat r) dim segs <= integral_cost (Z.to_nat r) dim (o_segments o') ->
  forall i d k t, (i < length segs)%nat -> (d < dim)%nat ->
    seg_fun (nth i segs no_seg) d k t = seg_fun (nth i (o_segments o') no_seg) d k t.
Proof.
  intros Hinv Hsol Hwf Hd Hs Hr Ht Hfirst Hsh Hm Hsm HC.
  destruct (computed_prepared h inv solve dim vs r o CallSolve o' Hwf Hs I Hr) as (P & S & Ed & Er).
  assert (Hrb := pr_deriv _ _ _ _ P). rewrite Er in Hrb. assert (Hn := pr_nseg _ _ _ _ P). assert (Ltm := pr_times _ _ _ _ P).
  destruct (C31_constraints_met h inv solve dim vs r o o' CallSolve Hinv Hwf Hd Hs I Hr Ht) as (OS & OM).
  assert (OSm := C32_continuous h inv solve dim vs r o o' CallSolve Hinv Hwf Hd Hs I Hr Ht).
  set (times := o_times o') in *. set (A := segs) in *. set (B := o_segments o') in *.
  assert (LV : (length vs <= Datatypes.S (length times))%nat) by lia.
  assert (MID := C34_optimal h inv solve dim vs r o o' (combo_chain (1 / 2) (1 - 1 / 2) (2 * h) dim times A B) Hinv Hsol Hwf Hd Hs Hr Ht
    (combo_chain_shape (2 * h) dim times A B (1 / 2) (1 - 1 / 2))
    (combo_meets (2 * h) dim times A B Hsh OS h vs (1 / 2) LV Hm OM) (combo_smooth (2 * h) dim times A B Hsh OS h (1 / 2) (1 - 1 / 2) Hsm OSm)).
  rewrite (parallelogram (2 * h) dim (Z.to_nat r) times A B Hsh OS) in MID. fold B in MID.
  set (D := combo_chain 1 (-1) (2 * h) dim times A B) in *.
  assert (CD : integral_cost (Z.to_nat r) dim D <= 0) by lra.
  assert (LD : length D = length times) by (unfold D; now rewrite combo_chain_length).
  assert (TP : forall i, (i < length times)%nat -> 0 < nth i times 0).
  { intros i Hi. apply Rlt_le_trans with (/ 2 ^ 52); [apply Rinv_0_lt_compat, pow_lt; lra|]. exact (proj1 (Forall_nth _ _) Ht i 0 Hi). }
  assert (TD : forall i, (i < length D)%nat -> seg_time (nth i D no_seg) = nth i times 0).
  { intros i Hi. unfold D. apply combo_chain_time. lia. }
  assert (FD : forall i d k t, (i < length times)%nat -> (d < dim)%nat -> seg_fun (nth i D no_seg) d k t = seg_fun (nth i A no_seg) d k t - seg_fun (nth i B no_seg) d k t).
  { intros i d k t Hi Hdd. unfold D. rewrite (combo_chain_fun (2 * h) dim times A B Hsh OS) by assumption. ring. }
  assert (R0 : forall i d t, (i < length times)%nat -> (d < dim)%nat -> 0 < t < nth i times 0 -> seg_fun (nth i D no_seg) d (Z.to_nat r) t = 0).
  { intros i d t Hi Hdd Hti.
    assert (Z := cost_nonneg_each (Z.to_nat r) dim D i d ltac:(intros j Hj; rewrite TD by exact Hj; apply TP; lia) CD ltac:(lia) Hdd). rewrite TD in Z by lia.
    assert (W := zero_integral _ (nth i times 0) (TP i Hi) (seg_sq_continuous (nth i D no_seg) d (Z.to_nat r)) (fun x => pow2_ge_0 _) Z t Hti).
    cbv beta in W. apply Rsqr_0_uniq. unfold Rsqr. cbn [pow] in W. lra. }
  assert (ALL : forall i, (i < length times)%nat -> forall d k t, (d < dim)%nat -> seg_fun (nth i D no_seg) d k t = 0).
  { induction i as [|i IH]; intros Hi d k t Hdd; rewrite seg_fun_dpoly;
      apply (poly_all_zero _ (Z.to_nat r) (nth _ times 0) (TP _ Hi)); try (intros x Hx; rewrite <- seg_fun_dpoly; now apply R0).
    - intros j Hj. rewrite <- seg_fun_dpoly, FD by assumption.
      destruct (vertex_get (nth 0 vs no_vertex) (Z.of_nat j)) as [x|] eqn:G; [|exfalso; apply (Hfirst (Z.of_nat j)); [lia|exact G]].
      destruct (Hm 0%nat j x d ltac:(lia) ltac:(lia) Hdd G) as (X & _). destruct (OM 0%nat j x d ltac:(lia) ltac:(lia) Hdd G) as (Y & _).
      assert (LA := proj1 Hsh). assert (LB := proj1 OS). fold A in X. fold B in Y. rewrite X, Y by lia. ring.
    - intros j Hj. rewrite <- seg_fun_dpoly.
      assert (SD := combo_smooth (2 * h) dim times A B Hsh OS h 1 (-1) Hsm OSm). fold D in SD.
      rewrite <- (SD i j d) by lia. apply IH; [lia|exact Hdd]. }
  intros i d k t Hi Hdd. rewrite (proj1 Hsh) in Hi. fold times in Hi. assert (X := ALL i Hi d k t Hdd). rewrite FD in X by assumption. fold A B. lra.
Qed.
Print Assumptions C34_unique.
Example C34_unique_example : exists o1 o2, set_up 2 (perfect_inv 2) perfect_solve 1 exl_vs 1 o1 /\ opt_solveLinear 2 perfect_solve o1 = Ok o2 /\
  (0 < o_nfree o1)%nat /\ List.Forall (fun t => / 2 ^ 52 <= t) (o_times o2) /\
  (forall k, (0 <= k < 1)%Z -> vertex_get (nth 0 exl_vs no_vertex) k <> None) /\
  chain_shape (2 * 2) 1 (o_times o2) (o_segments o2) /\ meets_constraints 2 1 exl_vs (o_segments o2) /\ smooth_chain 2 1 (o_segments o2).
Proof.
  destruct exl_free as (o1 & o2 & S & T1 & Hf & H & T2). exists o1, o2. split; [exact S|]. split; [exact H|]. split; [exact Hf|].
  assert (HT : List.Forall (fun t => / 2 ^ 52 <= t) (o_times o2)) by (rewrite T2; exact exl_times_ok). split; [exact HT|].
  split; [intros k Hk; replace k with 0%Z by lia; discriminate|].
  destruct (C31_constraints_met 2 (perfect_inv 2) perfect_solve 1 exl_vs 1 o1 o2 CallSolve (perfect_inv_ok 2) exl_wf' ltac:(lia) S I H HT) as (A & B).
  split; [exact A|]. split; [exact B|].
  exact (C32_continuous 2 (perfect_inv 2) perfect_solve 1 exl_vs 1 o1 o2 CallSolve (perfect_inv_ok 2) exl_wf' ltac:(lia) S I H HT).
Qed.

(** ** Stretching in time *)
Definition slower (c : R) (segs : list (segment R)) : list (segment R) := map (seg_stretch c (1 / c)) segs.
Lemma slower_fun c segs i k d t : 0 < c -> (i < length segs)%nat -> (k < seg_D (nth i segs no_seg))%nat ->
  seg_fun (nth i (slower c segs) no_seg) k d t = seg_fun (nth i segs no_seg) k d (t / c) / c ^ d.
Proof.
  intros Hc Hi Hk. unfold slower. rewrite (nth_map_lt _ _ _ no_seg) by exact Hi. rewrite !seg_fun_dpoly. cbn [seg_stretch seg_polys].
  rewrite (nth_map_lt _ _ _ []) by (exact Hk). rewrite dpoly_scale_time. replace (1 / c * t) with (t / c) by (field; lra).
  replace ((1 / c) ^ d) with (/ c ^ d) by (rewrite <- pow_inv; f_equal; field; lra). field. apply pow_nonzero. lra.
Qed.
Lemma slower_time c segs i : (i < length segs)%nat -> seg_time (nth i (slower c segs) no_seg) = seg_time (nth i segs no_seg) * c.
Proof. intros Hi. unfold slower. rewrite (nth_map_lt _ _ _ no_seg) by exact Hi. reflexivity. Qed.
Lemma slower_shape N dim c times segs : chain_shape N dim times segs -> chain_shape N dim (map (fun t => t * c) times) (slower c segs).
Proof.
  intros (Hl & Hs). split; [unfold slower; rewrite !map_length; exact Hl|]. rewrite map_length. intros i Hi. destruct (Hs i Hi) as (A & B & C & D).
  rewrite slower_time by lia. unfold slower. rewrite (nth_map_lt _ _ _ no_seg) by lia. rewrite (nth_map_lt _ _ _ 0) by exact Hi.
  split; [rewrite A; reflexivity|]. split; [exact B|]. split; [unfold seg_D, seg_stretch in *; cbn; rewrite map_length; exact C|apply seg_stretch_wf, D].
Qed.
(** All prescribed derivatives are zero. *)
Definition at_rest (h : nat) (vs : list (vertex R)) : Prop :=
  forall i k x d, (0 < k < h)%nat -> vertex_get (nth i vs no_vertex) (Z.of_nat k) = Some x -> nth d x 0 = 0.
Lemma slower_meets h dim c N times vs segs : 0 < c -> at_rest h vs -> chain_shape N dim times segs -> (length vs <= S (length times))%nat ->
  meets_constraints h dim vs segs -> meets_constraints h dim vs (slower c segs).
Proof.
  intros Hc HR (Hl & Hs) HV HM i k x d Hi Hk Hd G. destruct (HM i k x d Hi Hk Hd G) as (A & B).
  assert (Lc : length (slower c segs) = length segs) by (unfold slower; apply map_length). rewrite Lc.
  assert (K : forall y, y = nth d x 0 -> y / c ^ k = nth d x 0).
  { intros y ->. destruct k as [|k]; [cbn; field|]. rewrite (HR i (Datatypes.S k) x d ltac:(lia) G). unfold Rdiv. ring. }
  split; intros Q.
  - destruct (Hs i ltac:(lia)) as (_ & _ & D & _). rewrite slower_fun by (try assumption; lia). apply K. replace (0 / c) with 0 by (field; lra). apply A, Q.
  - destruct (Hs (i - 1)%nat ltac:(lia)) as (_ & _ & D & _). rewrite slower_time, slower_fun by (try assumption; lia). apply K.
    replace (seg_time (nth (i - 1) segs no_seg) * c / c) with (seg_time (nth (i - 1) segs no_seg)) by (field; lra). apply B, Q.
Qed.
Lemma slower_smooth h dim c N times segs : 0 < c -> chain_shape N dim times segs -> smooth_chain h dim segs -> smooth_chain h dim (slower c segs).
Proof.
  intros Hc (Hl & Hs) HS i k d Hi Hk Hd. assert (Lc : length (slower c segs) = length segs) by (unfold slower; apply map_length). rewrite Lc in Hi.
  destruct (Hs i ltac:(lia)) as (_ & _ & D1 & _). destruct (Hs (Datatypes.S i) ltac:(lia)) as (_ & _ & D2 & _).
  rewrite slower_time, !slower_fun by (try assumption; lia). replace (0 / c) with 0 by (field; lra).
  replace (seg_time (nth i segs no_seg) * c / c) with (seg_time (nth i segs no_seg)) by (field; lra). f_equal. apply HS; assumption.
Qed.
Lemma slower_cost r dim c N times segs : 0 < c -> chain_shape N dim times segs ->
  integral_cost r dim (slower c segs) = integral_cost r dim segs * (c / (c ^ r) ^ 2).
Proof.
  intros Hc (Hl & Hs). rewrite !integral_cost_rsum. assert (Lc : length (slower c segs) = length segs) by (unfold slower; apply map_length). rewrite Lc.
  rewrite <- rsum_scal_r. apply rsum_ext. intros i Hi. rewrite <- rsum_scal_r. apply rsum_ext. intros d Hd. destruct (Hs i ltac:(lia)) as (_ & _ & D & _).
  rewrite slower_time by exact Hi. set (T := seg_time (nth i segs no_seg)). set (f := seg_fun (nth i segs no_seg) d r).
  assert (P : c ^ r <> 0) by (apply pow_nonzero; lra).
  transitivity (RInt (fun t => scal (/ c) (f (/ c * t + 0) ^ 2 * (c / (c ^ r) ^ 2))) 0 (T * c)).
  { apply RInt_ext. intros t _. rewrite slower_fun by (try assumption; lia). fold f. unfold scal. cbn. unfold mult. cbn. replace (/ c * t + 0) with (t / c) by (field; lra). field. split; [exact P|lra]. }
  assert (Q := RInt_comp_lin (V := R_CompleteNormedModule) (fun t => f t ^ 2 * (c / (c ^ r) ^ 2)) (/ c) 0 0 (T * c)).
  replace (/ c * 0 + 0) with 0 in Q by ring. replace (/ c * (T * c) + 0) with T in Q by (field; lra).
  etransitivity; [apply Q|].
  { apply (ex_RInt_continuous (V := R_CompleteNormedModule)). intros z _. apply (continuous_ext (fun t => scal (c / (c ^ r) ^ 2) (f t ^ 2))); [intros t; unfold scal; cbn; unfold mult; cbn; ring|]. apply (continuous_scal_r (V := R_NormedModule)). apply seg_sq_continuous. }
  transitivity (RInt (fun t => scal (c / (c ^ r) ^ 2) (f t ^ 2)) 0 T).
  - apply RInt_ext. intros t _. unfold scal. cbn. unfold mult. cbn. ring.
  - etransitivity; [apply (RInt_scal (V := R_CompleteNormedModule)), seg_sq_int|]. unfold scal. cbn. unfold mult. cbn. ring.
Qed.

(** Solving a rest-to-rest problem for times that are all longer by the same
    factor gives the same path, run slower by that factor. *)
Theorem C73_time_scaling (h : nat) (inv : mat R -> mat R) (solve : mat R -> list R -> list R)
        (dim : nat) (vs : list (vertex R)) (r : Z) (o1 o1' o2 o2' : opt R) (c : R) :
  inverse_ok h inv -> solver_ok solve -> List.Forall vertex_wf vs -> (0 < dim)%nat -> 0 < c ->
  set_up h inv solve dim vs r o1 -> opt_solveLinear h solve o1 = Ok o1' ->
  set_up h inv solve dim vs r o2 -> opt_solveLinear h solve o2 = Ok o2' ->
  o_times o2' = map (fun t => t * c) (o_times o1') ->
  List.Forall (fun t => / 2 ^ 52 <= t) (o_times o1') -> List.Forall (fun t => / 2 ^ 52 <= t) (o_times o2') ->
  at_rest h vs -> (forall k, (0 <= k < r)%Z -> vertex_get (nth 0 vs no_vertex) k <> None) ->
  length (o_segments o2') = length (o_segments o1') /\
  forall i d k t, (i < length (o_segments o1'))%nat -> (d < dim)%nat ->
    seg_fun (nth i (o_segments o2') no_seg) d k (t * c) = seg_fun (nth i (o_segments o1') no_seg) d k t / c ^ k.
Proof.
  intros Hinv Hsol Hwf Hd Hc S1 E1 S2 E2 ET T1 T2 HR HF.
  destruct (computed_prepared h inv solve dim vs r o1 CallSolve o1' Hwf S1 I E1) as (P & _ & _ & _).
  assert (Hn := pr_nseg _ _ _ _ P). assert (Ltm := pr_times _ _ _ _ P).
  destruct (C31_constraints_met h inv solve dim vs r o1 o1' CallSolve Hinv Hwf Hd S1 I E1 T1) as (H1 & M1).
  destruct (C31_constraints_met h inv solve dim vs r o2 o2' CallSolve Hinv Hwf Hd S2 I E2 T2) as (H2 & M2).
  assert (C1 := C32_continuous h inv solve dim vs r o1 o1' CallSolve Hinv Hwf Hd S1 I E1 T1).
  assert (C2 := C32_continuous h inv solve dim vs r o2 o2' CallSolve Hinv Hwf Hd S2 I E2 T2).
  assert (L12 : length (o_segments o2') = length (o_segments o1')) by (rewrite (proj1 H1), (proj1 H2), ET, map_length; reflexivity).
  split; [exact L12|].
  assert (Hc' : 0 < / c) by (apply Rinv_0_lt_compat, Hc).
  assert (Back : map (fun t => t * / c) (o_times o2') = o_times o1').
  { rewrite ET, map_map. rewrite <- (map_id (o_times o1')) at 2. apply map_ext. intros t. field. lra. }
  assert (Hb : chain_shape (2 * h) dim (o_times o1') (slower (/ c) (o_segments o2'))) by (rewrite <- Back; apply slower_shape, H2).
  assert (Hf : chain_shape (2 * h) dim (o_times o2') (slower c (o_segments o1'))) by (rewrite ET; apply slower_shape, H1).
  assert (LV1 : (length vs <= Datatypes.S (length (o_times o1')))%nat) by lia.
  assert (LV2 : (length vs <= Datatypes.S (length (o_times o2')))%nat) by (rewrite ET, map_length; lia).
  assert (OPT := C34_optimal h inv solve dim vs r o1 o1' (slower (/ c) (o_segments o2')) Hinv Hsol Hwf Hd S1 E1 T1 Hb
    (slower_meets h dim (/ c) (2 * h) _ vs _ Hc' HR H2 LV2 M2) (slower_smooth h dim (/ c) (2 * h) _ _ Hc' H2 C2)).
  rewrite (slower_cost _ _ (/ c) (2 * h) _ _ Hc' H2) in OPT.
  assert (LE : integral_cost (Z.to_nat r) dim (slower c (o_segments o1')) <= integral_cost (Z.to_nat r) dim (o_segments o2')).
  { rewrite (slower_cost _ _ c (2 * h) _ _ Hc H1). set (p := c ^ Z.to_nat r) in *. assert (Pp : 0 < p) by (apply pow_lt, Hc).
    rewrite pow_inv in OPT. fold p in OPT. assert (Q : 0 < c / p ^ 2) by (apply Rdiv_lt_0_compat; [exact Hc|apply pow_lt, Pp]).
    apply (Rmult_le_compat_r (c / p ^ 2)) in OPT; [|lra]. refine (Rle_trans _ _ _ OPT (Req_le _ _ _)). field. split; lra. }
  assert (U := C34_unique h inv solve dim vs r o2 o2' (slower c (o_segments o1')) Hinv Hsol Hwf Hd S2 E2 T2 HF Hf
    (slower_meets h dim c (2 * h) _ vs _ Hc HR H1 LV1 M1) (slower_smooth h dim c (2 * h) _ _ Hc H1 C1) LE).
  assert (Ls : length (slower c (o_segments o1')) = length (o_segments o1')) by (unfold slower; apply map_length).
  intros i d k t Hi Hdd. rewrite <- (U i d k (t * c)) by (try exact Hdd; lia).
  destruct (proj2 H1 i ltac:(rewrite <- (proj1 H1); exact Hi)) as (_ & _ & D & _).
  rewrite slower_fun by (try assumption; lia). replace (t * c / c) with t by (field; lra). reflexivity.
Qed.
Print Assumptions C73_time_scaling.
Lemma exl_rest : at_rest 2 exl_vs.
Proof.
  intros i k x d Hk G. replace k with 1%nat in G by lia. destruct i as [|[|[|[|i]]]]; cbn in G; try discriminate; apply Some_inj in G; subst x; destruct d as [|[|d]]; reflexivity.
Qed.
Lemma exl_slower : exists o1 o2,
  set_up 2 (perfect_inv 2) perfect_solve 1 exl_vs 1 o1 /\ opt_solveLinear 2 perfect_solve o1 = Ok o2 /\ o_times o2 = map (fun t => t * 3) exl_times.
Proof.
  destruct (C31_setup_and_solve_succeed 2 (perfect_inv 2) perfect_solve 1 exl_vs (map (fun t => t * 3) exl_times) 1 [] (opt_new 1))
    as (o1 & H1 & T1 & H2); [lia|lia|cbn; lia|reflexivity|repeat constructor; lra|exact exl_wf|exact perfect_solve_length|reflexivity|].
  - destruct H2 as (o2 & H2 & T2); [left; reflexivity|]. exists o1, o2. split; [|tauto].
    exists [], (map (fun t => t * 3) exl_times), [], (opt_new 1), o1. split; [reflexivity|]. split; [exact H1|]. split; [constructor|reflexivity].
Qed.
Example C73_time_scaling_example : exists o1 o1' o2 o2',
  set_up 2 (perfect_inv 2) perfect_solve 1 exl_vs 1 o1 /\ opt_solveLinear 2 perfect_solve o1 = Ok o1' /\ (0 < o_nfree o1)%nat /\
  set_up 2 (perfect_inv 2) perfect_solve 1 exl_vs 1 o2 /\ opt_solveLinear 2 perfect_solve o2 = Ok o2' /\
  o_times o2' = map (fun t => t * 3) (o_times o1') /\
  List.Forall (fun t => / 2 ^ 52 <= t) (o_times o1') /\ List.Forall (fun t => / 2 ^ 52 <= t) (o_times o2') /\
  at_rest 2 exl_vs /\ (forall k, (0 <= k < 1)%Z -> vertex_get (nth 0 exl_vs no_vertex) k <> None).
Proof.
  destruct exl_free as (o1 & o2 & S1 & _ & Hf & E1 & T1). destruct exl_slower as (o3 & o4 & S2 & E2 & T2). exists o1, o2, o3, o4.
  split; [exact S1|]. split; [exact E1|]. split; [exact Hf|]. split; [exact S2|]. split; [exact E2|]. rewrite T1, T2. split; [reflexivity|].
  split; [exact exl_times_ok|]. split.
  { assert (H : / 2 ^ 52 <= 1) by (rewrite <- Rinv_1; apply Rinv_le_contravar; lra). repeat constructor; lra. }
  split; [exact exl_rest|]. intros k Hk. replace k with 0%Z by lia. discriminate.
Qed.
