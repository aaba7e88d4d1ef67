(** C92, continued: the timing run on a random path. *)
From Coq Require Import ZArith Reals List Bool Lia Lra Sorted.
From Verif Require Import Num RSum ModelPolynomial ModelSegment ModelVertex ModelTrajectory ModelLinear ModelExtra
  SpecPoly SpecSegment SpecVertex SpecLinear ProofPolynomial ProofVertex ProofVertex2 ProofVertex3 ProofHermite ProofLinear ProofLinear2 ProofLinear5 ProofLinear6
  PropVertex PropLinear PropExtra2.
Import ListNotations.
Open Scope R_scope.

(** A time that is not positive makes the setup abort. *)
Lemma setup_zero_time h inv o vs times r : (0 < h <= 11)%nat -> (0 <= r <= Z.of_nat h - 1)%Z ->
  length vs = (length times + 1)%nat -> List.Forall (fun v => vertex_wf v /\ v_D v = o_dim o) vs ->
  (exists t, In t times /\ t <= 0) -> opt_setupFromVertices h inv o vs times r = Abort.
Proof.
  intros Hh Hr Hl Hv (t0 & I0 & L0). unfold opt_setupFromVertices, kHighestDerivative.
  destruct (Z.ltb_spec r 0); [lia|]. destruct (Z.ltb_spec (Z.of_nat h - 1) r); [lia|]. cbn [orb].
  destruct vs as [|v0 rest] eqn:Evs; [cbn in Hl; lia|]. rewrite <- Evs in *.
  rewrite Hl, Nat.eqb_refl. cbn [negb].
  assert (Ew : exists ws, omap (filter_vertex h (o_dim o)) vs = Ok ws).
  { apply omap_total. intros v Hin. rewrite Forall_forall in Hv. destruct (Hv v Hin) as ((_ & Hf) & HD).
    apply filter_vertex_ok. eapply List.Forall_impl; [|exact Hf]. cbn. intros c Hc _. congruence. }
  destruct Ew as (ws & Ew). rewrite Ew. cbn [obind].
  assert (Hlr : length rest = length times) by (rewrite Evs in Hl; cbn in Hl; lia).
  unfold opt_updateSegmentTimes. cbn [o_nseg o_deriv]. rewrite Hlr, Nat.eqb_refl. cbn [negb].
  assert (Em : omap (mats_of h inv r) times = Abort).
  { revert I0. clear - L0 Hh Hr. induction times as [|t ts IH]; intros I0; [destruct I0|]. cbn [omap].
    unfold mats_of at 1. destruct (nltb n0 t) eqn:E; cbn [negb]; [|reflexivity].
    unfold cost_matrix, opt_N. destruct (Z.leb_spec (Z.of_nat (2 * h)) r); [lia|].
    destruct (Z.ltb_spec r 0); [lia|]. destruct (Nat.ltb_spec kMaxConvolutionSize (2 * h)) as [L|_]; [rewrite kTable in L; lia|].
    cbn [orb obind]. destruct (mapping_matrix_ok h t Hh) as (A & -> & _). cbn [obind].
    rewrite IH; [reflexivity|]. destruct I0 as [->|I0]; [|exact I0]. rnum. apply Rltb_true in E. lra. }
  change (omap (mats_of h inv r) times) with
    (omap (fun t => if negb (nltb n0 t) then Abort else Q <-- cost_matrix h r t ;; A <-- mapping_matrix h t ;; Ok (Q, invert_mapping h inv A)) times) in Em.
  rewrite Em. reflexivity.
Qed.

(** The run returns true if no two consecutive vertices coincide; the solution
    then has the estimated times and, if these are not tiny, meets the vertices. *)
Theorem C92_timing_run (inv : mat R -> mat R) (solve : mat R -> list R -> list R) (draw : nat -> R -> R -> R) (fuel n : nat) (avg : R) (l : list (vertex R)) :
  (forall n a b, a <= b -> a <= draw n a b <= b) -> (forall A b, length (solve A b) = length b) ->
  createRandomVerticesPath draw fuel 3 n avg 4 = Ok (Some l) ->
  (forall i v0, (i < n)%nat -> pos_of (nth i l v0) <> pos_of (nth (S i) l v0)) ->
  exists ts o, timeEval inv solve exp draw fuel n avg = Ok (Some (o, true)) /\
    estimateSegmentTimes exp l 2 2 = Ok ts /\ o_times o = ts /\ length ts = n /\ List.Forall (fun t => 0 < t) ts /\
    (inverse_ok 5 inv -> List.Forall (fun t => / 2 ^ 52 <= t) ts ->
     chain_shape 10 3 ts (o_segments o) /\ meets_constraints 5 3 l (o_segments o)).
Proof.
  intros Hd Hsol E Hne. destruct (C92_path _ _ _ _ _ _ _ Hd E) as (Hn & _ & _ & Ll & Hv & Hp & _).
  destruct (C29_positive_times_partial 3 l 2 2 ltac:(lia) Hp ltac:(lra) ltac:(lra)) as (ts & Et & Lt & Pt).
  { intros i d Hi. apply Hne. lia. }
  destruct (C31_setup_and_solve_succeed 5 inv solve 3 l ts 4 [] (opt_new 3)) as (o1 & H1 & T1 & H2);
    try assumption; try reflexivity; try (cbn; lia); try lia.
  destruct (H2 (or_introl eq_refl)) as (o2 & E2 & T2). exists ts, o2.
  split; [|split; [exact Et|split; [exact T2|split; [lia|split; [exact Pt|]]]]].
  - unfold timeEval. rewrite E. cbn [obind]. change (nofZ 2 : R) with 2. rewrite Et. cbn [obind]. rewrite H1. cbn [obind]. rewrite E2. reflexivity.
  - intros Hinv Hmin.
    assert (Hwf : List.Forall vertex_wf l) by (eapply List.Forall_impl; [|exact Hv]; intros x Hx; apply Hx).
    rewrite <- T2. apply (C31_constraints_met 5 inv solve 3 l 4 o1 o2 CallSolve Hinv Hwf); try lia; [|exact I|exact E2|rewrite T2; exact Hmin].
    exists [], ts, [], (opt_new 3), o1. split; [reflexivity|]. split; [exact H1|]. split; [constructor|reflexivity].
Qed.
Print Assumptions C92_timing_run.

(** If two consecutive vertices coincide the run aborts. *)
Theorem C92_timing_run_aborts (inv : mat R -> mat R) (solve : mat R -> list R -> list R) (draw : nat -> R -> R -> R) (fuel n : nat) (avg : R) (l : list (vertex R)) (i : nat) (v0 : vertex R) :
  (forall n a b, a <= b -> a <= draw n a b <= b) ->
  createRandomVerticesPath draw fuel 3 n avg 4 = Ok (Some l) ->
  (i < n)%nat -> pos_of (nth i l v0) = pos_of (nth (S i) l v0) ->
  timeEval inv solve exp draw fuel n avg = Abort.
Proof.
  intros Hd E Hi He. destruct (C92_path _ _ _ _ _ _ _ Hd E) as (Hn & _ & _ & Ll & Hv & Hp & _).
  destruct (C29_repeated_waypoint 3 l 2 2 i v0 ltac:(lia) Hp He) as (ts & Et & Ht).
  assert (Lt : length ts = n).
  { unfold estimateSegmentTimes in Et. rewrite (nfabian_eq 3) in Et by (auto; lia). apply Ok_inj in Et. subst ts.
    rewrite map_length, pairs_length. lia. }
  unfold timeEval. rewrite E. cbn [obind]. change (nofZ 2 : R) with 2. rewrite Et. cbn [obind].
  rewrite setup_zero_time; [reflexivity|lia|cbn; lia|lia|exact Hv|].
  exists 0. split; [|lra]. rewrite <- Ht. apply nth_In. lia.
Qed.
Print Assumptions C92_timing_run_aborts.

(** Both cases occur: a generator that returns the lower end makes every step
    zero; one that changes with every number separates all vertices. *)
Definition lowest (n : nat) (a b : R) : R := a.
Lemma lowest_direction n : draw_direction lowest 1 n 3 = Some ((n + 3)%nat, [-1; -1; -1]).
Proof.
  cbn [draw_direction]. rewrite vec_norm_R.
  assert (V : draw_vector lowest n (repeat (nopp n1) 3) (repeat n1 3) = [-1; -1; -1]).
  { unfold draw_vector, lowest. cbn [repeat length seq map nth]. rnum. repeat f_equal; ring. }
  rewrite V. replace (nltb (nlit 2 10) (norm [-1; -1; -1])) with true; [reflexivity|]. symmetry. unfold nlit. rnum. apply Rltb_true.
  unfold norm. cbn [map lsum]. apply Rlt_le_trans with (sqrt (1 * 1)); [rewrite sqrt_square; lra|]. apply sqrt_le_1_alt. lra.
Qed.
Lemma lowest_sample p avg n : scaled_sample p (lowest n n0 (nmul (nofZ 2) avg)) = map (fun _ => 0) p.
Proof. unfold scaled_sample, lowest. apply map_ext. intros x. rnum. ring. Qed.
Lemma lowest_path : 
  (exists l, createRandomVerticesPath lowest 1 3 1 5 4 = Ok (Some l) /\ map pos_of l = [[-1; -1; -1]; [0; 0; 0]]) /\
  (exists l, createRandomVerticesPath lowest 1 3 2 5 4 = Ok (Some l) /\ map pos_of l = [[-1; -1; -1]; [-1; -1; -1]; [0; 0; 0]]).
Proof.
  assert (V : draw_vector lowest 0 (repeat (nopp n1) 3) (repeat n1 3) = [-1; -1; -1]).
  { unfold draw_vector, lowest. cbn [repeat length seq map nth]. rnum. repeat f_equal; ring. }
  assert (A : nltb (nmul (nofZ 2) 5) (n0 : R) = false) by (rnum; apply Rltb_false; lra).
  destruct (start_or_end 3 (vertex_new 3) [-1; -1; -1] 4 (vertex_new_wf 3) eq_refl eq_refl) as (first & Ef & Wf & Df & Gf & _).
  destruct (vertex_add_ok (vertex_new 3) kPosition [0 + -1; 0 + -1; 0 + -1] eq_refl) as [v1 E1].
  destruct (vertex_add_wf _ _ _ _ (vertex_new_wf 3) E1) as (W1 & D1 & _ & G1).
  destruct (vertex_add_ok (vertex_new 3) kPosition [0 + 0; 0 + 0; 0 + 0] eq_refl) as [v2 E2].
  destruct (vertex_add_wf _ _ _ _ (vertex_new_wf 3) E2) as (W2 & D2 & _ & G2).
  destruct (start_or_end 3 v1 [0; 0; 0] 4 W1 D1 eq_refl) as (w1 & Ew1 & _ & _ & Gw1 & _).
  destruct (start_or_end 3 v2 [0; 0; 0] 4 W2 D2 eq_refl) as (w2 & Ew2 & _ & _ & Gw2 & _).
  assert (G1' : vertex_get v1 0 = Some [0 + -1; 0 + -1; 0 + -1]) by (rewrite G1; reflexivity).
  split; unfold createRandomVerticesPath; cbn [Nat.ltb Nat.leb Z.leb Z.compare]; rewrite A, V, Ef; cbn [obind path_loop];
    rewrite lowest_direction, lowest_sample; cbn [map combine fst snd]; 
    change (@nadd R R_ops) with Rplus; rewrite E1; cbn [obind].
  - change [first; v1] with ([first] ++ [v1]). rewrite update_last_app, Ew1. cbn [obind]. eexists. split; [reflexivity|].
    cbn [app map]. unfold pos_of. rewrite Gf, Gw1. reflexivity.
  - rewrite lowest_direction, lowest_sample; cbn [map combine fst snd]. change (@nadd R R_ops) with Rplus; rewrite E2; cbn [obind].
    change [first; v1; v2] with ([first; v1] ++ [v2]). rewrite update_last_app, Ew2. cbn [obind]. eexists. split; [reflexivity|].
    cbn [app map]. unfold pos_of. rewrite Gf, G1', Gw2. repeat match goal with |- _ :: _ = _ :: _ => f_equal end; lra.
Qed.
Example C92_timing_run_example :
  (forall n a b, a <= b -> a <= lowest n a b <= b) /\
  (exists l, createRandomVerticesPath lowest 1 3 1 5 4 = Ok (Some l) /\
     forall i v0, (i < 1)%nat -> pos_of (nth i l v0) <> pos_of (nth (S i) l v0)) /\
  (exists l, createRandomVerticesPath lowest 1 3 2 5 4 = Ok (Some l) /\
     forall v0, pos_of (nth 0 l v0) = pos_of (nth 1 l v0)).
Proof.
  split; [unfold lowest; intros; lra|]. destruct lowest_path as ((l & E & P) & (l' & E' & P')). split.
  - exists l. split; [exact E|]. intros i v0 Hi. replace i with 0%nat by lia. destruct l as [|a [|b [|]]]; try discriminate.
    cbn [map] in P. injection P as Pa Pb. cbn [nth]. rewrite Pa, Pb. intros C. injection C as C. lra.
  - exists l'. split; [exact E'|]. intros v0. destruct l' as [|a [|b [|c [|]]]]; try discriminate.
    cbn [map] in P'. injection P' as Pa Pb. cbn [nth]. congruence.
Qed.
