(** Properties C39-C42: variables, bounds and soft constraints of
    PolynomialOptimizationNonLinear. *)
From Coq Require Import ZArith Reals List Bool Lia Lra Arith.
From Coquelicot Require Import Coquelicot.
From Verif Require Import Num RSum SpecPoly ModelPolynomial ModelSegment ModelVertex ModelTrajectory ModelLinear
  SpecSegment SpecVertex SpecTrajectory SpecLinear ProofPolynomial ProofSegment ProofSegment2 ProofVertex ProofTrajectory3
  ProofRoots ProofMatrix ProofHermite ProofReorder ProofLinear ProofLinear2 ProofLinear3 ProofLinear4 ProofLinear5 ProofLinear6 ProofLinear7
  PropLinear PropLinear2
  ModelNonlinear SpecNonlinear ProofNonlinear ProofNonlinear2 ProofNonlinear3 ProofNonlinear4 ProofNonlinear5 ProofNonlinear6.
Import ListNotations.
Open Scope R_scope.

Lemma set_up_any {T} {ops : NumOps T} (h : nat) (inv : mat T -> mat T) (solve : mat T -> list T -> list T)
      dim vs r (o : opt T) : List.Forall vertex_wf vs -> set_up h inv solve dim vs r o ->
  prepared h inv vs o /\ o_dim o = dim /\ o_deriv o = r.
Proof.
  intros Hwf (pre & times & mid & o0 & o1 & H0 & H1 & Hm & H2).
  destruct (reached_shaped h inv solve dim pre o0 H0) as (Sh & Hd).
  destruct (setup_prepared h inv vs o0 times r o1 Hwf Sh H1) as (P1 & _ & D1 & _ & R1).
  destruct (runs_prepared h inv solve vs mid o1 o Hm P1 H2) as (P2 & R2 & D2).
  split; [exact P2|]. split; congruence.
Qed.

(** ** C39: packing and unpacking *)
(** Holds for every number type, in particular doubles.  The vector given to
    nlopt consists of the segment times and, per dimension, the free constraints
    of the solved problem.  Every evaluation stores the times and free
    constraints read from the same positions.  At the initial vector this leaves
    the solved linear optimiser exactly as it was, and the value is its cost
    plus the time cost and soft constraint cost. *)
Theorem C39_pack_unpack {T} {ops : NumOps T} (h : nat) (inv : mat T -> mat T) (solve : mat T -> list T -> list T)
        (rf : root_oracle (T := T)) (fexp : T -> T) (dim : nat) (vs : list (vertex T)) (r : Z) (n : nlo T) (o : opt T) :
  List.Forall vertex_wf vs -> (0 < dim)%nat -> (2 <= length vs)%nat ->
  set_up h inv solve dim vs r (nl_opt n) -> opt_solveLinear h solve (nl_opt n) = Ok o ->
  let nseg := (length vs - 1)%nat in
  let nfree := length (unconstrained h vs) in
  (exists steps w x0, nl_problem h solve n = Ok (o, steps, w, x0) /\
     length x0 = (nseg + nfree * dim)%nat /\
     times_of nseg x0 = o_times (nl_opt n) /\
     (forall d, (d < dim)%nat -> free_of nseg nfree d x0 = nth d (o_free o) []) /\
     nl_objectiveAll h inv rf fexp (set_opt n o) false x0 =
       (cost <-- opt_computeCost h o ;;
        nl_finishObjective h rf fexp (set_opt n o) cost (time_cost n (total_time (o_times (nl_opt n)))))) /\
  (forall m x m' val, set_up h inv solve dim vs r (nl_opt m) -> nl_objectiveAll h inv rf fexp m false x = Ok (m', val) ->
     length x = (nseg + nfree * dim)%nat /\ o_times (nl_opt m') = times_of nseg x /\
     forall d, (d < dim)%nat -> nth d (o_free (nl_opt m')) [] = free_of nseg nfree d x).
Proof.
  intros Hwf Hd Hl Hs E nseg nfree.
  destruct (set_up_any h inv solve dim vs r (nl_opt n) Hwf Hs) as (P & Ed & Er).
  destruct (problem_ok h inv solve vs n o ltac:(lia) Hl P E) as (b & w & Ep & _ & _ & _ & _ & _ & P' & S' & Et & Ed' & Lp).
  assert (Hn : o_nseg o = nseg) by (unfold nseg; assert (Q := pr_nseg _ _ _ _ P'); lia).
  assert (Hf : o_nfree o = nfree) by (apply (prepared_nfree h inv vs o P')).
  assert (Hfl := synced_free h inv vs o P' S').
  split.
  - eexists _, w, _. split; [exact Ep|]. rewrite Lp, Hn, Hf, Ed', Ed. split; [reflexivity|].
    assert (Hn' : length (o_times (nl_opt n)) = nseg) by (rewrite <- Et, <- Hn; apply (pr_times _ _ _ _ P')).
    split; [rewrite <- Hn'; apply pack_times|]. split.
    + intros d Hdd. rewrite <- Hn'. rewrite Hf in Hfl. apply pack_free; [exact Hfl|]. rewrite (pr_freelen _ _ _ _ P'). lia.
    + rewrite (objective_at_initial h inv solve rf fexp vs n o ltac:(lia) Hl P E). rewrite Et. reflexivity.
  - intros m x m' val Hm H. destruct (objectiveAll_step h inv rf fexp _ _ _ _ H) as (_ & St & _). cbn [fst] in St.
    destruct (set_up_any h inv solve dim vs r (nl_opt m) Hwf Hm) as (Pm & Edm & _).
    assert (A7 : o_nseg (nl_opt m) = nseg) by (unfold nseg; assert (Q := pr_nseg _ _ _ _ Pm); lia).
    assert (A10 := prepared_nfree h inv vs _ Pm). fold nfree in A10.
    assert (Lx := proj1 St). destruct (step_all_same h inv _ _ _ St) as (_ & E1 & E2).
    rewrite Edm, A7, A10 in *. split; [exact Lx|].
    split; [rewrite E1; apply unpack_times_spec; lia|].
    intros d Hdd. rewrite E2, unpack_free_spec by lia. apply nth_map_seq. exact Hdd.
Qed.
Print Assumptions C39_pack_unpack.

Definition ex_nl (o : opt R) (con : list (Z * R)) : nlo R :=
  mkNlo o (mkNlParams (1 / 10) 500 true 100 kSquaredTimeAndConstraints) con (Some 4%nat) [] info_new.
Example C39_example : exists o1 o2, List.Forall vertex_wf exl_vs /\ (2 <= length exl_vs)%nat /\
  set_up 2 (perfect_inv 2) perfect_solve 1 exl_vs 1 (nl_opt (ex_nl o1 [(1%Z, 3)])) /\
  opt_solveLinear 2 perfect_solve (nl_opt (ex_nl o1 [(1%Z, 3)])) = Ok o2 /\ (0 < length (unconstrained 2 exl_vs))%nat.
Proof.
  destruct exl_free as (o1 & o2 & S & T1 & Hf & H2 & T2). exists o1, o2. split; [exact exl_wf'|]. split; [cbn; lia|].
  split; [exact S|]. split; [exact H2|].
  destruct (set_up_prepared 2 (perfect_inv 2) perfect_solve 1 exl_vs 1 o1 exl_wf' S) as (P & _).
  rewrite <- (prepared_nfree 2 (perfect_inv 2) exl_vs o1 P). exact Hf.
Qed.

(** ** C40: bounds contain the initial solution *)
Theorem C40_bounds (h : nat) (inv : mat R -> mat R) (solve : mat R -> list R -> list R)
        (dim : nat) (vs : list (vertex R)) (r : Z) (n : nlo R) (o : opt R) :
  List.Forall vertex_wf vs -> (0 < dim)%nat -> (2 <= length vs)%nat ->
  set_up h inv solve dim vs r (nl_opt n) -> opt_solveLinear h solve (nl_opt n) = Ok o ->
  exists steps lower upper x0, nl_problem h solve n = Ok (o, steps, (lower, upper), x0) /\
    length lower = length x0 /\ length upper = length x0 /\ length steps = length x0 /\
    (forall i, (i < length x0)%nat -> nth i lower 0 <= nth i x0 0 <= nth i upper 0) /\
    (forall i, (i < length vs - 1)%nat ->
       nth i x0 0 = nth i (o_times (nl_opt n)) 0 /\
       nth i lower 0 = Rmin (1 / 10) (nth i (o_times (nl_opt n)) 0) /\
       nth i upper 0 = Rmax dbl_max (nth i (o_times (nl_opt n)) 0)) /\
    (* nlopt rejects a zero initial step *)
    (0 < np_step (nl_par n) -> forall i, (i < length x0)%nat -> 0 < nth i steps 0).
Proof.
  intros Hwf Hd Hl Hs E.
  destruct (set_up_prepared h inv solve dim vs r (nl_opt n) Hwf Hs) as (P & Ed & Er).
  destruct (problem_ok h inv solve vs n o ltac:(lia) Hl P E) as (b & (lo & up) & Ep & _ & Lb & Hb & Lw & Hw & P' & S' & Et & Ed' & Lp).
  destruct Lw as (Lw1 & Lw2). cbn [fst snd] in Lw1, Lw2. destruct Lb as (Lb1 & Lb2).
  eexists _, lo, up, _. split; [exact Ep|]. rewrite map_length, Lp. split; [exact Lw1|]. split; [exact Lw2|]. split; [reflexivity|].
  set (x0 := pack (o_times (nl_opt n)) (o_free o)) in *.
  assert (M := dbl_max_pos).
  assert (LE : forall i, (i < o_nseg o + o_nfree o * o_dim o)%nat -> exists p q,
     pair_at (repeat (@kTimeLowerBound R R_ops) (o_nseg o) ++ fst b, repeat dbl_max (o_nseg o) ++ snd b) i = (p, q) /\ p <= q /\
     ((i < o_nseg o)%nat -> p = 1 / 10 /\ q = dbl_max)).
  { intros i Hi. unfold pair_at. cbn [fst snd]. destruct (Nat.lt_ge_cases i (o_nseg o)) as [H|H].
    - rewrite !app_nth1 by (rewrite repeat_length; exact H). rewrite !nth_repeat_lt by exact H. rewrite kTimeLowerBound_R.
      eexists _, _. split; [reflexivity|]. split; [|auto].
      unfold dbl_max. rnum. apply Rle_trans with 1; [lra|]. apply IZR_le. apply Z.leb_le. vm_compute. reflexivity.
    - rewrite !app_nth2 by (rewrite repeat_length; exact H). rewrite !repeat_length. eexists _, _. split; [reflexivity|].
      split; [|lia]. assert (Hz : (o_nfree o <> 0)%nat) by (intros Hz; rewrite Hz in Hi; lia).
      assert (Q := Nat.div_mod (i - o_nseg o) (o_nfree o) Hz).
      assert (Q2 := Nat.mod_upper_bound (i - o_nseg o) (o_nfree o) Hz).
      assert (Q3 : ((i - o_nseg o) / o_nfree o < o_dim o)%nat) by (apply Nat.div_lt_upper_bound; lia).
      specialize (Hb _ _ Q3 Q2). rewrite Nat.mul_comm, <- Q in Hb. unfold pair_at in Hb.
      unfold bound_pair in Hb. match type of Hb with _ = match ?X with _ => _ end => destruct X as [l|] end.
      + injection Hb as E1 E2. change (@n0 R R_ops) with 0 in *. rewrite E1, E2. rnum. assert (0 <= Rabs l) by apply Rabs_pos. lra.
      + assert (E1 := f_equal fst Hb). assert (E2 := f_equal snd Hb). cbn [fst snd] in E1, E2. rewrite E1, E2, dbl_lowest_opp. lra. }
  split; [|split].
  - intros i Hi. destruct (LE i Hi) as (p & q & Epq & Hpq & _). specialize (Hw i Hi). rewrite Epq, widened_R in Hw by exact Hpq.
    unfold pair_at in Hw. assert (E1 := f_equal fst Hw). assert (E2 := f_equal snd Hw). cbn [fst snd] in E1, E2. change (@n0 R R_ops) with 0 in E1, E2. rewrite E1, E2.
    split; [apply Rmin_r|apply Rmax_r].
  - assert (Hn := pr_nseg _ _ _ _ P'). intros i Hi. destruct (LE i ltac:(lia)) as (p & q & Epq & Hpq & Hpt).
    destruct (Hpt ltac:(lia)) as (-> & ->). specialize (Hw i ltac:(lia)). rewrite Epq, widened_R in Hw by exact Hpq.
    unfold pair_at in Hw. assert (E1 := f_equal fst Hw). assert (E2 := f_equal snd Hw). cbn [fst snd] in E1, E2. change (@n0 R R_ops) with 0 in E1, E2.
    assert (Ex : nth i x0 0 = nth i (o_times (nl_opt n)) 0).
    { unfold x0, pack. rewrite app_nth1; [reflexivity|]. rewrite <- Et, (pr_times _ _ _ _ P'). lia. }
    rewrite E1, E2, Ex. auto.
  - intros Hp i Hi. rewrite (nth_map_lt _ _ _ 0) by lia. unfold initial_step. rnum.
    assert (Pe : 0 < @dbl_epsilon R R_ops) by exact dbl_epsilon_pos.
    destruct (Rleb_spec (Rabs (nth i x0 0)) dbl_epsilon); [unfold nlit; rnum; lra|].
    apply Rmult_lt_0_compat; [exact Hp|lra].
Qed.
Print Assumptions C40_bounds.
Example C40_example : exists o1 o2, List.Forall vertex_wf exl_vs /\ (2 <= length exl_vs)%nat /\
  set_up 2 (perfect_inv 2) perfect_solve 1 exl_vs 1 (nl_opt (ex_nl o1 [(1%Z, 3)])) /\
  opt_solveLinear 2 perfect_solve (nl_opt (ex_nl o1 [(1%Z, 3)])) = Ok o2.
Proof. destruct C39_example as (o1 & o2 & A & B & C & D & _). exists o1, o2. auto. Qed.

(** ** C41: endpoint-derivative bounds *)
(** What the code computes for any derivative_to_optimize r: variable j of
    dimension k is bounded by the last constraint on the order found at position
    j of the list of free pairs with order at most r. *)
Lemma bounds_of_variable (h : nat) (inv : mat R -> mat R) (solve : mat R -> list R -> list R)
      (dim : nat) (vs : list (vertex R)) (r : Z) (n : nlo R) (o : opt R) :
  List.Forall vertex_wf vs -> (0 < dim)%nat -> (2 <= length vs)%nat ->
  set_up h inv solve dim vs r (nl_opt n) -> opt_solveLinear h solve (nl_opt n) = Ok o ->
  exists steps lower upper x0, nl_problem h solve n = Ok (o, steps, (lower, upper), x0) /\
    forall k j, (k < dim)%nat -> (j < length (unconstrained h vs))%nat ->
      let i := ((length vs - 1) + k * length (unconstrained h vs) + j)%nat in
      (nth i lower 0, nth i upper 0) =
        match (match nth_error (unconstrained (Z.to_nat (r + 1)) vs) j with
               | Some (_, d) => last_limit (nl_con n) (Z.of_nat d) | None => None end) with
        | Some L => (Rmin (- Rabs L) (nth i x0 0), Rmax (Rabs L) (nth i x0 0))
        | None => (Rmin (- dbl_max) (nth i x0 0), Rmax dbl_max (nth i x0 0))
        end.
Proof.
  intros Hwf Hd Hl Hs E.
  destruct (set_up_prepared h inv solve dim vs r (nl_opt n) Hwf Hs) as (P & Ed & Er).
  destruct (problem_ok h inv solve vs n o ltac:(lia) Hl P E) as (b & (lo & up) & Ep & _ & Lb & Hb & Lw & Hw & P' & S' & Et & Ed' & Lp).
  assert (Hn : o_nseg o = (length vs - 1)%nat) by (assert (Q := pr_nseg _ _ _ _ P'); lia).
  assert (Hf : o_nfree o = length (unconstrained h vs)) by (apply (prepared_nfree h inv vs o P')).
  assert (Er' : o_deriv o = r).
  { rewrite (solve_frame h inv solve vs (nl_opt n) o P E). exact Er. }
  eexists _, lo, up, _. split; [exact Ep|]. intros k j Hk Hj i. rewrite Hn, Hf, Er' in *. rewrite Ed', Ed in *.
  assert (Hi : (i < length vs - 1 + length (unconstrained h vs) * dim)%nat).
  { unfold i. assert (S k * length (unconstrained h vs) <= dim * length (unconstrained h vs))%nat by (apply Nat.mul_le_mono_r; lia). lia. }
  specialize (Hw i Hi). specialize (Hb k j Hk Hj). unfold pair_at in Hw at 2. cbn [fst snd] in Hw.
  rewrite !app_nth2 in Hw by (rewrite repeat_length; unfold i; lia). rewrite !repeat_length in Hw.
  replace (i - (length vs - 1))%nat with (k * length (unconstrained h vs) + j)%nat in Hw by (unfold i; lia).
  change (nth (k * length (unconstrained h vs) + j) (fst b) n0, nth (k * length (unconstrained h vs) + j) (snd b) n0)
    with (pair_at b (k * length (unconstrained h vs) + j)) in Hw.
  rewrite Hb in Hw. unfold pair_at in Hw. cbn [fst snd] in Hw. change (@n0 R R_ops) with 0 in Hw. rewrite Hw.
  assert (M := dbl_max_pos). unfold bound_pair.
  match goal with |- context [match ?X with Some _ => _ | None => (dbl_lowest, _) end] => destruct X as [L|] end.
  - rnum. rewrite widened_R; [reflexivity|]. assert (0 <= Rabs L) by apply Rabs_pos. lra.
  - rewrite dbl_lowest_opp. rewrite widened_R; [reflexivity|lra].
Qed.

(** The property holds if derivative_to_optimize is the highest one that the
    vertices can constrain (N/2 - 1), the setting used by the library's examples:
    the variables at the free pairs of order d in all dimensions are bounded by
    the last limit on order d (widened to contain the initial value); all others
    are unbounded.  Evaluating the objective at x makes entry i of x the value of
    that derivative at that vertex. *)
Theorem C41_endpoint_bounds (h : nat) (inv : mat R -> mat R) (solve : mat R -> list R -> list R) (rf : root_oracle) (fexp : R -> R)
        (dim : nat) (vs : list (vertex R)) (n : nlo R) (o : opt R) :
  inverse_ok h inv -> (0 < h)%nat -> List.Forall vertex_wf vs -> (0 < dim)%nat -> (2 <= length vs)%nat ->
  set_up h inv solve dim vs (Z.of_nat (h - 1)) (nl_opt n) -> opt_solveLinear h solve (nl_opt n) = Ok o ->
  exists steps lower upper x0, nl_problem h solve n = Ok (o, steps, (lower, upper), x0) /\
    forall k j v d, (k < dim)%nat -> nth_error (unconstrained h vs) j = Some (v, d) ->
      let i := ((length vs - 1) + k * length (unconstrained h vs) + j)%nat in
      (nth i lower 0, nth i upper 0) =
        match last_limit (nl_con n) (Z.of_nat d) with
        | Some L => (Rmin (- Rabs L) (nth i x0 0), Rmax (Rabs L) (nth i x0 0))
        | None => (Rmin (- dbl_max) (nth i x0 0), Rmax dbl_max (nth i x0 0))
        end /\
      forall m x m' val, set_up h inv solve dim vs (Z.of_nat (h - 1)) (nl_opt m) ->
        nl_objectiveAll h inv rf fexp m false x = Ok (m', val) ->
        List.Forall (fun t => / 2 ^ 52 <= t) (times_of (length vs - 1) x) ->
        vertex_value (o_segments (nl_opt m')) v d k (nth i x 0).
Proof.
  intros Hinv Hh Hwf Hd Hl Hs E.
  destruct (bounds_of_variable h inv solve dim vs _ n o Hwf Hd Hl Hs E) as (steps & lo & up & x0 & Ep & Hb).
  exists steps, lo, up, x0. split; [exact Ep|]. intros k j v d Hk Hj i.
  assert (Hj' : (j < length (unconstrained h vs))%nat) by (apply nth_error_Some; congruence).
  split.
  - specialize (Hb k j Hk Hj'). cbv zeta in Hb. replace (Z.to_nat (Z.of_nat (h - 1) + 1)) with h in Hb by lia.
    rewrite Hj in Hb. exact Hb.
  - intros m x m' val Hm H Ht.
    destruct (objectiveAll_step h inv rf fexp _ _ _ _ H) as (_ & St & _). cbn [fst] in St.
    destruct (set_up_any h inv solve dim vs _ (nl_opt m) Hwf Hm) as (Pm & Edm & _).
    destruct (step_all_prepared h inv vs _ _ _ Pm St) as (P' & S').
    assert (A7 : o_nseg (nl_opt m) = (length vs - 1)%nat) by (assert (Q := pr_nseg _ _ _ _ Pm); lia).
    assert (A10 := prepared_nfree h inv vs _ Pm).
    assert (Lx := proj1 St). destruct (step_all_same h inv _ _ _ St) as (Al & E1 & E2).
    rewrite Edm, A7, A10 in *.
    assert (Ed' : o_dim (nl_opt m') = dim) by (destruct (alike_fields _ _ Al) as (X & _); congruence).
    assert (Q := synced_free_value h inv vs (nl_opt m') k j v d Hinv P' S').
    rewrite E2 in Q. unfold unpack_free in Q. rewrite nth_map_seq in Q by exact Hk. rewrite nth_map_seq in Q by exact Hj'. apply Q.
    + unfold times_ok. rewrite E1, unpack_times_spec by lia. exact Ht.
    + lia.
    + exact Hj.
Qed.
Print Assumptions C41_endpoint_bounds.
(** The list of free pairs is what its name says. *)
Theorem C41_free_pairs (h : nat) (vs : list (vertex R)) (v d : nat) :
  In (v, d) (unconstrained h vs) <-> (v < length vs)%nat /\ (d < h)%nat /\ vertex_get (nth v vs no_vertex) (Z.of_nat d) = None.
Proof. exact (unconstrained_In h vs v d). Qed.
Print Assumptions C41_free_pairs.
Example C41_example : exists o1 o2, inverse_ok 2 (perfect_inv 2) /\ List.Forall vertex_wf exl_vs /\ (2 <= length exl_vs)%nat /\
  set_up 2 (perfect_inv 2) perfect_solve 1 exl_vs (Z.of_nat (2 - 1)) (nl_opt (ex_nl o1 [(1%Z, 3)])) /\
  opt_solveLinear 2 perfect_solve (nl_opt (ex_nl o1 [(1%Z, 3)])) = Ok o2 /\
  nth_error (unconstrained 2 exl_vs) 0 = Some (1, 1)%nat /\ last_limit [(1%Z, 3)] (Z.of_nat 1) = Some 3.
Proof.
  destruct C39_example as (o1 & o2 & A & B & C & D & _). exists o1, o2. split; [apply perfect_inv_ok|]. split; [exact A|].
  split; [exact B|]. split; [exact C|]. split; [exact D|]. split; reflexivity.
Qed.

(** For a lower derivative_to_optimize the bounds go to wrong variables.  N = 10,
    jerk is optimised, the ends are fully constrained, the two waypoints have
    positions only, and the velocity is limited to 2: the limit is put on the
    snap of waypoint 1 and the velocity of waypoint 2 is left unbounded. *)
Definition wp_full (x : R) : vertex R := mkVertex 1 [(0%Z, [x]); (1%Z, [0]); (2%Z, [0]); (3%Z, [0]); (4%Z, [0])].
Definition wp_vs : list (vertex R) := [wp_full 0; mkVertex 1 [(0%Z, [1])]; mkVertex 1 [(0%Z, [2])]; wp_full 3].
Theorem C41_lower_order_refuted : exists (inv : mat R -> mat R) (solve : mat R -> list R -> list R) (n : nlo R) (o : opt R)
    (steps lower upper x0 : list R),
  inverse_ok 5 inv /\ solver_ok solve /\ List.Forall vertex_wf wp_vs /\
  set_up 5 inv solve 1 wp_vs 3 (nl_opt n) /\ nl_con n = [(1%Z, 2)] /\
  nl_problem 5 solve n = Ok (o, steps, (lower, upper), x0) /\
  (* position 3: snap of waypoint 1 *)
  nth_error (unconstrained 5 wp_vs) 3 = Some (1, 4)%nat /\
  (nth (3 + 3) lower 0, nth (3 + 3) upper 0) = (Rmin (- (2)) (nth (3 + 3) x0 0), Rmax 2 (nth (3 + 3) x0 0)) /\
  (* position 4: velocity of waypoint 2 *)
  nth_error (unconstrained 5 wp_vs) 4 = Some (2, 1)%nat /\
  (nth (3 + 4) lower 0, nth (3 + 4) upper 0) = (Rmin (- dbl_max) (nth (3 + 4) x0 0), Rmax dbl_max (nth (3 + 4) x0 0)).
Proof.
  assert (Hwf : List.Forall (fun v => vertex_wf v /\ v_D v = 1%nat) wp_vs) by (repeat constructor).
  assert (Hwf' : List.Forall vertex_wf wp_vs) by (eapply List.Forall_impl; [|exact Hwf]; intros v Hx; apply Hx).
  destruct (C31_setup_and_solve_succeed 5 (perfect_inv 5) perfect_solve 1 wp_vs [1; 1; 1] 3 [] (opt_new 1)) as (o1 & H1 & T1 & H2).
  - lia.
  - lia.
  - cbn; lia.
  - reflexivity.
  - repeat constructor; lra.
  - exact Hwf.
  - apply perfect_solve_length.
  - reflexivity.
  - destruct H2 as (o2 & H2 & T2); [left; reflexivity|].
    assert (S : set_up 5 (perfect_inv 5) perfect_solve 1 wp_vs 3 (nl_opt (ex_nl o1 [(1%Z, 2)]))).
    { exists [], [1; 1; 1], [], (opt_new 1), o1. split; [reflexivity|]. split; [exact H1|]. split; [constructor|reflexivity]. }
    destruct (bounds_of_variable 5 (perfect_inv 5) perfect_solve 1 wp_vs 3 (ex_nl o1 [(1%Z, 2)]) o2 Hwf' ltac:(lia) ltac:(cbn; lia) S H2)
      as (steps & lo & up & x0 & Ep & Hb).
    exists (perfect_inv 5), perfect_solve, (ex_nl o1 [(1%Z, 2)]), o2, steps, lo, up, x0.
    split; [apply perfect_inv_ok|]. split; [apply perfect_solve_ok|]. split; [exact Hwf'|]. split; [exact S|]. split; [reflexivity|].
    split; [exact Ep|]. split; [reflexivity|]. split; [|split; [reflexivity|]].
    + assert (Q := Hb 0%nat 3%nat ltac:(lia) ltac:(cbn; lia)). cbv zeta in Q.
      replace (length wp_vs - 1 + 0 * length (unconstrained 5 wp_vs) + 3)%nat with (3 + 3)%nat in Q by reflexivity.
      rewrite Q. change (nth_error (unconstrained (Z.to_nat (3 + 1)) wp_vs) 3) with (Some (2, 1)%nat).
      cbn [ex_nl nl_con last_limit Z.of_nat Z.eqb Pos.of_succ_nat Pos.eqb]. rewrite Rabs_pos_eq by lra. reflexivity.
    + assert (Q := Hb 0%nat 4%nat ltac:(lia) ltac:(cbn; lia)). cbv zeta in Q.
      replace (length wp_vs - 1 + 0 * length (unconstrained 5 wp_vs) + 4)%nat with (3 + 4)%nat in Q by reflexivity.
      rewrite Q. change (nth_error (unconstrained (Z.to_nat (3 + 1)) wp_vs) 4) with (Some (2, 2)%nat). reflexivity.
Qed.
Print Assumptions C41_lower_order_refuted.

(** ** C42: soft constraints *)
Lemma nmin_R (a b : R) : nmin a b = Rmin a b.
Proof. unfold nmin. rnum. destruct (Rltb_spec b a); [rewrite Rmin_right; lra|rewrite Rmin_left; lra]. Qed.
Lemma soft_cost_range weight cap peak limit : 0 < cap -> 0 < soft_cost weight cap peak limit <= cap.
Proof.
  intros Hc. unfold soft_cost. split; [apply Rmin_pos; [exact Hc|apply exp_pos]|apply Rmin_l].
Qed.
Lemma peak_unique dim d segs V W : is_peak dim d segs V -> is_peak dim d segs W -> V = W.
Proof.
  intros (H1 & j & t & Hj & Ht & E) (H2 & j' & t' & Hj' & Ht' & E'). apply Rle_antisym.
  - rewrite E. apply H2; assumption.
  - rewrite E'. apply H1; assumption.
Qed.
(** State of an optimiser that has computed its segments. *)
Definition computed (h : nat) (inv : mat R -> mat R) (solve : mat R -> list R -> list R) (dim : nat) (vs : list (vertex R))
           (r : Z) (o : opt R) : Prop :=
  exists o0 c, set_up h inv solve dim vs r o0 /\ computes_segments c /\ run_ocall h inv solve o0 c = Ok o.
Lemma computed_peak (h : nat) (inv : mat R -> mat R) (solve : mat R -> list R -> list R)
        (rf : list R -> bool * list (R * R)) (dim d : nat) (vs : list (vertex R)) (r : Z) (o : opt R) :
  perfect_root_finder rf -> (d < 2 * h - 1)%nat ->
  List.Forall vertex_wf vs -> (0 < dim)%nat -> (2 <= length vs)%nat -> computed h inv solve dim vs r o ->
  exists e es, opt_maximumOfMagnitude h rf o (Z.of_nat d) = Ok (e, es) /\ is_peak dim d (o_segments o) (ext_value e).
Proof.
  intros Hrf Hd Hwf Hdim Hl (o0 & c & Hs & Hc & Hr).
  destruct (C38_after_solving h inv solve rf dim d vs r o0 o c Hrf Hd Hwf Hdim Hl Hs Hc Hr) as (e & es & E & M & j & J1 & J2 & J3 & J4).
  destruct (computed_prepared h inv solve dim vs r o0 c o Hwf Hs Hc Hr) as (P & S & Ed & Er).
  assert (Hn := pr_nseg _ _ _ _ P).
  assert (CS := chain_of_shape_R h inv vs o P). rewrite <- (synced_chain h inv vs o P S) in CS by lia.
  destruct CS as (Hls & Hsh). rewrite (pr_times _ _ _ _ P) in *.
  exists e, es. split; [exact E|]. split.
  - intros i t Hi Ht. apply M; [lia|]. rewrite <- (proj1 (Hsh i ltac:(lia))). exact Ht.
  - exists j, (ext_time e). split; [lia|]. split; [rewrite (proj1 (Hsh j ltac:(lia))); exact J3|exact J4].
Qed.

Lemma soft_ok (h : nat) (inv : mat R -> mat R) (solve : mat R -> list R -> list R)
        (rf : list R -> bool * list (R * R)) (dim : nat) (vs : list (vertex R)) (r : Z) weight cap :
  perfect_root_finder rf -> List.Forall vertex_wf vs -> (0 < dim)%nat -> (2 <= length vs)%nat ->
  forall con st, computed h inv solve dim vs r (nl_opt (fst st)) ->
  List.Forall (fun c => (0 <= fst c < Z.of_nat (2 * h - 1))%Z) con ->
  exists st', ofold (soft_step h rf exp weight cap) con st = Ok st'.
Proof.
  intros Hrf Hwf Hd Hl. induction con as [|c con IH]; intros st Hc HF; [eexists; reflexivity|].
  apply Forall_cons_iff in HF as (Hf & HF). cbn [ofold]. unfold soft_step at 1, nl_magnitudeConstraint.
  destruct (computed_peak h inv solve rf dim (Z.to_nat (fst c)) vs r _ Hrf ltac:(lia) Hwf Hd Hl Hc) as (e & es & E & _).
  rewrite Z2Nat.id in E by lia. rewrite E. cbn [obind fst snd]. apply IH; [exact Hc|exact HF].
Qed.

(** The constraints need orders below N-1 (otherwise computing the peak aborts,
    C38_outside_domain) and positive limits. *)
Theorem C42_soft_constraint_cost (h : nat) (inv : mat R -> mat R) (solve : mat R -> list R -> list R)
        (rf : list R -> bool * list (R * R)) (dim : nat) (vs : list (vertex R)) (r : Z) (n : nlo R) (weight cap : R) :
  perfect_root_finder rf -> List.Forall vertex_wf vs -> (0 < dim)%nat -> (2 <= length vs)%nat ->
  computed h inv solve dim vs r (nl_opt n) ->
  List.Forall (fun c => (0 <= fst c < Z.of_nat (2 * h - 1))%Z /\ 0 < snd c) (nl_con n) -> 0 < cap ->
  let limit i := snd (nth i (nl_con n) (0%Z, 0)) in
  let order i := Z.to_nat (fst (nth i (nl_con n) (0%Z, 0))) in
  exists n' cost peak, nl_softConstraints h rf exp n weight cap = Ok (n', cost) /\ nl_opt n' = nl_opt n /\
    (forall i, (i < length (nl_con n))%nat -> is_peak dim (order i) (o_segments (nl_opt n)) (peak i)) /\
    cost = rsum (length (nl_con n)) (fun i => soft_cost weight cap (peak i) (limit i)) /\
    (nl_con n <> [] -> 0 < cost) /\ cost <= cap * INR (length (nl_con n)) /\
    (nl_con n = [] -> cost = 0).
Proof.
  intros Hrf Hwf Hd Hl Hc HF Hcap limit order.
  assert (HF1 : List.Forall (fun c => (0 <= fst c < Z.of_nat (2 * h - 1))%Z) (nl_con n))
    by (eapply List.Forall_impl; [|exact HF]; intros c Hx; apply Hx).
  destruct (soft_ok h inv solve rf dim vs r weight cap Hrf Hwf Hd Hl (nl_con n) (n, 0) Hc HF1) as ((n' & cost) & E).
  destruct (soft_loop h rf exp weight cap (nl_con n) (n, 0) _ E) as (E1 & _ & peaks & Lp & Hp & Ev). cbn [fst snd] in *.
  exists n', cost, (fun i => ext_value (nth i peaks (mkExtremum 0 0 0%Z))). split; [exact E|]. split; [exact E1|].
  assert (EC : cost = rsum (length (nl_con n)) (fun i => soft_cost weight cap (ext_value (nth i peaks (mkExtremum 0 0 0%Z))) (limit i))).
  { rewrite Ev. rnum.
    rewrite (fold_left_sum (fun p => nmin cap (exp ((ext_value (fst p) - snd (snd p)) / snd (snd p) * weight)))).
    rewrite Rplus_0_l, lsum_nth, map_length, combine_length, Lp, Nat.min_id. apply rsum_ext. intros i Hi.
    rewrite (nth_map_lt _ _ _ (mkExtremum 0 0 0%Z, (0%Z, 0))) by (rewrite combine_length; lia).
    rewrite combine_nth by exact Lp. cbn [fst snd]. rewrite nmin_R. unfold soft_cost, limit. f_equal. f_equal. lra. }
  split; [|split; [exact EC|]].
  - intros i Hi. destruct (Hp i Hi) as (es & Ei). assert (Hfi := proj1 (List.Forall_forall _ _) HF1 _ (nth_In (nl_con n) (0%Z, 0) Hi)). cbn beta in Hfi.
    destruct (computed_peak h inv solve rf dim (order i) vs r _ Hrf ltac:(unfold order; lia) Hwf Hd Hl Hc) as (e & es' & E' & Pk).
    unfold order in E'. rewrite Z2Nat.id in E' by lia. change (@n0 R R_ops) with 0 in Ei. rewrite Ei in E'.
    apply Ok_inj in E'. injection E' as -> _. exact Pk.
  - split; [|split].
    + intros Hne. rewrite EC. destruct (nl_con n) as [|c0 con] eqn:Ecn; [congruence|].
      apply Rlt_le_trans with (rsum (length (c0 :: con)) (fun i => if Nat.eqb i 0 then soft_cost weight cap (ext_value (nth 0 peaks (mkExtremum 0 0 0%Z))) (limit 0%nat) else 0)).
      * rewrite (rsum_ext _ _ (fun i => delta 0 i * soft_cost weight cap (ext_value (nth 0 peaks (mkExtremum 0 0 0%Z))) (limit 0%nat))).
        2:{ intros i Hi. unfold delta. rewrite (Nat.eqb_sym 0 i). destruct (Nat.eqb i 0); lra. }
        rewrite rsum_delta_l by (cbn; lia). apply soft_cost_range. exact Hcap.
      * apply rsum_le. intros i Hi. destruct (Nat.eqb_spec i 0) as [->|]; [lra|]. apply Rlt_le, soft_cost_range. exact Hcap.
    + rewrite EC. apply Rle_trans with (rsum (length (nl_con n)) (fun _ => cap)).
      * apply rsum_le. intros i Hi. apply soft_cost_range. exact Hcap.
      * rewrite rsum_const. lra.
    + intros Hnil. rewrite EC, Hnil. reflexivity.
Qed.
Print Assumptions C42_soft_constraint_cost.

(** The cost of one constraint grows with the peak, strictly below the cap; it is
    at most 1 exactly where the limit is met. *)
Theorem C42_cost_grows (weight cap limit peak peak' : R) :
  0 < weight -> 0 < limit -> 1 < cap -> peak < peak' ->
  soft_cost weight cap peak limit <= soft_cost weight cap peak' limit /\
  (soft_cost weight cap peak limit < cap -> soft_cost weight cap peak limit < soft_cost weight cap peak' limit) /\
  (soft_cost weight cap peak limit <= 1 <-> peak <= limit).
Proof.
  intros Hw Hl Hc Hp.
  assert (Hlt : forall a b, a < b -> weight * ((a - limit) / limit) < weight * ((b - limit) / limit)).
  { intros a b Hab. apply Rmult_lt_compat_l; [exact Hw|]. apply Rmult_lt_compat_r; [apply Rinv_0_lt_compat; exact Hl|lra]. }
  assert (E := exp_increasing _ _ (Hlt _ _ Hp)).
  unfold soft_cost. split; [|split].
  - apply Rmin_glb; [apply Rmin_l|]. apply Rle_trans with (exp (weight * ((peak - limit) / limit))); [apply Rmin_r|lra].
  - intros Hs. rewrite Rmin_right in Hs |- *.
    + apply Rmin_glb_lt; assumption.
    + destruct (Rle_dec (exp (weight * ((peak - limit) / limit))) cap); [assumption|]. rewrite Rmin_left in Hs; lra.
    + destruct (Rle_dec (exp (weight * ((peak - limit) / limit))) cap); [assumption|]. rewrite Rmin_left in Hs; lra.
  - assert (E0 : exp (weight * ((limit - limit) / limit)) = 1).
    { replace (weight * ((limit - limit) / limit)) with 0 by (unfold Rdiv; lra). apply exp_0. }
    split; intros H.
    + destruct (Rle_dec peak limit) as [|Hn]; [assumption|]. exfalso. apply Rnot_le_lt in Hn.
      assert (X := exp_increasing _ _ (Hlt _ _ Hn)). rewrite E0 in X. revert H. apply Rlt_not_le. apply Rmin_glb_lt; assumption.
    + apply Rle_trans with (exp (weight * ((peak - limit) / limit))); [apply Rmin_r|]. rewrite <- E0.
      destruct H as [H| ->]; [|lra]. apply Rlt_le, exp_increasing, Hlt. exact H.
Qed.
Print Assumptions C42_cost_grows.
Example C42_cost_grows_example : 0 < 100 /\ 0 < 2 /\ 1 < 10 ^ 12 /\ 1 < 3.
Proof. repeat split; lra. Qed.

(** More violation, more cost: comparison of two trajectories. *)
Theorem C42_compare (h : nat) (inv : mat R -> mat R) (solve : mat R -> list R -> list R)
        (rf : list R -> bool * list (R * R)) (dim : nat) (vs : list (vertex R)) (r : Z) (n m : nlo R) (weight cap : R) :
  perfect_root_finder rf -> List.Forall vertex_wf vs -> (0 < dim)%nat -> (2 <= length vs)%nat ->
  computed h inv solve dim vs r (nl_opt n) -> computed h inv solve dim vs r (nl_opt m) -> nl_con n = nl_con m ->
  List.Forall (fun c => (0 <= fst c < Z.of_nat (2 * h - 1))%Z /\ 0 < snd c) (nl_con n) -> 1 < cap -> 0 < weight ->
  (forall d l V W, In (d, l) (nl_con n) -> is_peak dim (Z.to_nat d) (o_segments (nl_opt n)) V ->
     is_peak dim (Z.to_nat d) (o_segments (nl_opt m)) W -> V <= W) ->
  exists n' m' cn cm, nl_softConstraints h rf exp n weight cap = Ok (n', cn) /\
    nl_softConstraints h rf exp m weight cap = Ok (m', cm) /\ cn <= cm.
Proof.
  intros Hrf Hwf Hd Hl Hn Hm Ec HF Hcap Hw Hle.
  destruct (C42_soft_constraint_cost h inv solve rf dim vs r n weight cap Hrf Hwf Hd Hl Hn HF ltac:(lra)) as (n' & cn & pn & En & _ & Pn & Cn & _).
  assert (HF' := HF). rewrite Ec in HF'.
  destruct (C42_soft_constraint_cost h inv solve rf dim vs r m weight cap Hrf Hwf Hd Hl Hm HF' ltac:(lra)) as (m' & cm & pm & Em & _ & Pm & Cm & _).
  cbv zeta in *. exists n', m', cn, cm. split; [exact En|]. split; [exact Em|]. rewrite Cn, Cm. rewrite <- Ec in *.
  apply rsum_le. intros i Hi. specialize (Pn i Hi). specialize (Pm i Hi).
  assert (Hin := nth_In (nl_con n) (0%Z, 0) Hi). assert (Hf := proj1 (List.Forall_forall _ _) HF _ Hin).
  destruct (nth i (nl_con n) (0%Z, 0)) as (d & l). cbn [fst snd] in *.
  destruct (Hle d l _ _ Hin Pn Pm) as [Hlt|Heq]; [|rewrite Heq; lra].
  exact (proj1 (C42_cost_grows weight cap l _ _ Hw (proj2 Hf) Hcap Hlt)).
Qed.
Print Assumptions C42_compare.
Example C42_example : exists o2, perfect_root_finder perfect_rf /\ List.Forall vertex_wf exl_vs /\ (2 <= length exl_vs)%nat /\
  computed 2 (perfect_inv 2) perfect_solve 1 exl_vs 1 (nl_opt (ex_nl o2 [(1%Z, 3); (2%Z, 4)])) /\
  List.Forall (fun c => (0 <= fst c < Z.of_nat (2 * 2 - 1))%Z /\ 0 < snd c) (nl_con (ex_nl o2 [(1%Z, 3); (2%Z, 4)])).
Proof.
  destruct C39_example as (o1 & o2 & A & B & C & D & _). exists o2. split; [exact perfect_rf_ok|]. split; [exact A|].
  split; [exact B|]. split; [exists o1, CallSolve; split; [exact C|split; [exact I|exact D]]|].
  cbn [ex_nl nl_con]. constructor; [cbn; split; [lia|lra]|]. constructor; [cbn; split; [lia|lra]|constructor].
Qed.
