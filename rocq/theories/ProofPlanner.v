(** Proofs about the example planner. *)
From Coq Require Import ZArith Reals List Bool Lia Lra Arith.
From Coquelicot Require Import Coquelicot.
From Verif Require Import Num RSum SpecPoly ModelPolynomial ModelSegment ModelVertex ModelTrajectory ModelLinear
  SpecSegment SpecVertex SpecTrajectory SpecLinear ProofPolynomial ProofSegment ProofSegment2 ProofVertex ProofVertex2
  ProofTrajectory ProofTrajectory2 ProofTrajectory3 ProofTrajectory4
  ProofRoots ProofMatrix ProofHermite ProofReorder ProofLinear ProofLinear2 ProofLinear3 ProofLinear4 ProofLinear5 ProofLinear6 ProofLinear7
  PropLinear PropLinear2
  ModelNonlinear SpecNonlinear ProofNonlinear ProofNonlinear2 ProofNonlinear3 ProofNonlinear4 ProofNonlinear5 ProofNonlinear6 ProofNonlinear7
  PropNonlinear PropNonlinear3 ModelPlanner SpecPlanner.
Import ListNotations.
Open Scope R_scope.

(** * Total correctness of optimize() with a bounded algorithm *)
Section Total.
  Context (h : nat) (inv : mat R -> mat R) (solve : mat R -> list R -> list R).
  Context (rf : list R -> bool * list (R * R)) (dim : nat) (vs : list (vertex R)) (r : Z).
  Context (con : list (Z * R)) (lower upper : list R).
  Let nseg := (length vs - 1)%nat.
  Let nfree := length (unconstrained h vs).
  Definition between (ts : list R) : Prop :=
    forall i, (i < nseg)%nat -> nth i lower 0 <= nth i ts 0 <= nth i upper 0.

  Lemma drive_total run : keeps_bounds lower upper run ->
    perfect_root_finder rf -> List.Forall vertex_wf vs -> (0 < dim)%nat -> (2 <= length vs)%nat ->
    List.Forall (fun c => (0 <= fst c < Z.of_nat (2 * h - 1))%Z /\ 0 < snd c) con ->
    length lower = (nseg + nfree * dim)%nat -> (forall i, (i < nseg)%nat -> 0 < nth i lower 0) ->
    forall n, set_up h inv solve dim vs r (nl_opt n) -> nl_con n = con -> between (o_times (nl_opt n)) ->
    exists n' e, nlopt_drive h rf (no_gradient (nl_objectiveAll h inv rf exp)) n run = Ok (n', e) /\
      between (o_times (nl_opt n')).
  Proof.
    intros K Hrf Hwf Hd Hl HF Ll Hlow. induction K as [| | |x k Lx Hx Hk IH]; intros n Hs Hc Hb; cbn [nlopt_drive].
    - eexists _, _. split; [reflexivity|exact Hb].
    - eexists _, _. split; [reflexivity|exact Hb].
    - eexists _, _. split; [reflexivity|exact Hb].
    - assert (Ht : forall i, (i < nseg)%nat -> nth i (times_of nseg x) 0 = nth i x 0).
      { intros i Hi. unfold times_of. rewrite <- (firstn_skipn nseg x) at 2. rewrite app_nth1; [reflexivity|].
        rewrite firstn_length. lia. }
      assert (Lt : length (times_of nseg x) = nseg) by (unfold times_of; rewrite firstn_length; lia).
      destruct (C67_objective_times_and_constraints h inv solve rf dim vs r n x Hrf Hwf Hd Hl Hs ltac:(rewrite Hc; exact HF)
        ltac:(fold nseg nfree; lia)) as (n' & v & peak & E & Er & Et & _).
      { apply List.Forall_forall. intros t Hin. apply (In_nth _ _ 0) in Hin as (i & Hi & <-). fold nseg in Hi |- *. rewrite Lt in Hi.
        rewrite Ht by exact Hi. assert (A := Hlow i Hi). assert (B := Hx i ltac:(lia)). lra. }
      fold nseg in Et, Er. unfold no_gradient at 1. rewrite E. cbn [obind fst snd].
      apply IH.
      + destruct Hs as (pre & times & mid & o0 & o1 & H0 & H1 & HFm & H2).
        eexists pre, times, (mid ++ _), o0, o1. split; [exact H0|]. split; [exact H1|]. split; [|rewrite run_app, H2; exact Er].
        apply Forall_app. split; [exact HFm|]. repeat constructor.
      + destruct (objectiveAll_step h inv rf exp _ _ _ _ E) as (_ & _ & S). cbn [fst] in S. destruct S as (_ & S & _). congruence.
      + intros i Hi. rewrite Et, Ht by exact Hi. apply Hx. lia.
  Qed.
End Total.

Lemma optimize_total (h : nat) (inv : mat R -> mat R) (solve : mat R -> list R -> list R)
        (rf : list R -> bool * list (R * R)) (dim : nat) (p : nl_params R) (vs : list (vertex R)) (r : Z)
        (nlopt : nlopt_algorithm (T := R)) (n : nlo R) (o : opt R) :
  perfect_root_finder rf -> bounded_algorithm nlopt ->
  List.Forall vertex_wf vs -> (0 < dim)%nat -> (2 <= length vs)%nat ->
  nl_set_up h inv solve rf exp dim p vs r n -> opt_solveLinear h solve (nl_opt n) = Ok o ->
  np_method p = kSquaredTimeAndConstraints \/ np_method p = kRichterTimeAndConstraints ->
  List.Forall (fun c => (0 <= fst c < Z.of_nat (2 * h - 1))%Z /\ 0 < snd c) (nl_con n) ->
  List.Forall (fun t => 0 < t) (o_times (nl_opt n)) ->
  exists n' result, nl_optimize h inv solve rf exp nlopt n = Ok (n', result) /\
    (forall i, (i < length vs - 1)%nat ->
      Rmin (1 / 10) (nth i (o_times (nl_opt n)) 0) <= nth i (o_times (nl_opt n')) 0 <=
      Rmax dbl_max (nth i (o_times (nl_opt n)) 0)) /\
    ((forall steps lower upper x0, nlopt steps lower upper x0 = NlReject) -> nl_opt n' = o).
Proof.
  intros Hrf Hal Hwf Hd Hl Hs E Hm HF Ht.
  destruct (nl_set_up_setting h inv solve rf exp dim p vs r n Hwf Hs) as (Hp & Hn & _).
  assert (Hsi := nl_set_up_inner h inv solve rf exp dim p vs r n Hs).
  destruct (C40_bounds h inv solve dim vs r (set_info n info_new) o Hwf Hd Hl Hsi E) as (steps & lower & upper & x0 & Ep & L1 & L2 & L3 & Hb & Hbt & _).
  cbn [set_info nl_opt nl_par] in *.
  assert (Lx : length x0 = (length vs - 1 + length (unconstrained h vs) * dim)%nat).
  { destruct (set_up_prepared h inv solve dim vs r (nl_opt n) Hwf Hsi) as (P & Ed & Er).
    destruct (problem_ok h inv solve vs (set_info n info_new) o ltac:(cbn; lia) Hl P E) as (b & w & Ep' & _ & _ & _ & _ & _ & P' & _ & _ & Ed' & Lp).
    rewrite Ep in Ep'. apply Ok_inj in Ep'. injection Ep' as _ _ Ex. cbn [set_info nl_opt] in Ex, Lp, Ed'. rewrite <- Ex in Lp. rewrite Lp.
    assert (Q := pr_nseg _ _ _ _ P'). rewrite (prepared_nfree h inv vs o P'). rewrite Ed', Ed. lia. }
  assert (Lt : length (o_times (nl_opt n)) = (length vs - 1)%nat).
  { destruct (set_up_prepared h inv solve dim vs r (nl_opt n) Hwf Hsi) as (P & Ed & Er).
    assert (Q := pr_nseg _ _ _ _ P). assert (Q2 := pr_times _ _ _ _ P). lia. }
  assert (Eo : o_times o = o_times (nl_opt n)).
  { destruct (set_up_prepared h inv solve dim vs r (nl_opt n) Hwf Hsi) as (P & Ed & Er).
    destruct (solve_prepared h inv solve vs _ _ P E) as (_ & _ & T). exact T. }
  assert (Kb := Hal steps lower upper x0 L1 L2 Hb).
  assert (Hpos : forall i, (i < length vs - 1)%nat -> 0 < nth i (o_times (nl_opt n)) 0).
  { intros i Hi. rewrite List.Forall_forall in Ht. apply Ht. apply nth_In. lia. }
  destruct (drive_total h inv solve rf dim vs r (nl_con n) lower upper _ Kb Hrf Hwf Hd Hl HF ltac:(lia)) with
    (n := set_opt (set_info n info_new) o) as (n' & e & Ed & Bt).
  - intros i Hi. destruct (Hbt i Hi) as (_ & -> & _). apply Rmin_glb_lt; [lra|exact (Hpos i Hi)].
  - cbn [set_opt nl_opt]. destruct Hsi as (pre & times & mid & o0 & o1 & H0 & H1 & HFm & H2).
    exists pre, times, (mid ++ [CallSolve]), o0, o1. split; [exact H0|]. split; [exact H1|].
    split; [apply Forall_app; split; [exact HFm|repeat constructor]|]. rewrite run_app, H2. cbn [obind run_ocalls run_ocall]. rewrite E. reflexivity.
  - reflexivity.
  - intros i Hi. cbn [set_opt nl_opt]. rewrite Eo. destruct (Hbt i Hi) as (<- & _). apply Hb. lia.
  - assert (Q0 : exists res, nl_optimizeAll h inv solve rf exp nlopt (set_info n info_new) = Ok (n', res)).
    { unfold nl_optimizeAll. rewrite Ep. cbn [obind set_info nl_nlopt]. rewrite Hn. fold (set_info n info_new).
      replace (length steps) with (length vs - 1 + length (unconstrained h vs) * dim)%nat by lia.
      match goal with |- context [negb (Nat.eqb ?a ?b)] => replace b with a by (destruct Hm as [-> | ->]; reflexivity) end.
      rewrite Nat.eqb_refl. cbn [negb fst snd]. rewrite Ed. cbn [obind fst snd]. destruct e; eexists; reflexivity. }
    destruct Q0 as (res & Q0). unfold nl_optimize. rewrite Hp.
    destruct Hm as [Hm|Hm]; rewrite Hm, Q0; cbn [obind fst snd]; eexists _, _; (split; [reflexivity|]); cbn [set_info nl_opt];
      (split; [intros i Hi; destruct (Hbt i Hi) as (_ & <- & <-); apply Bt; exact Hi|]);
      intros HR; rewrite HR in Ed; cbn [nlopt_drive] in Ed; apply Ok_inj in Ed; injection Ed as <- _; reflexivity.
Qed.

(** * The planner *)
Lemma endpoint_inv {T} {ops : NumOps T} dim (pos vel : list T) v : endpoint dim pos vel = Ok v ->
  vertex_wf v /\ v_D v = dim /\ length pos = dim /\ length vel = dim /\
  vertex_get v 0 = Some pos /\ vertex_get v 1 = Some vel /\
  forall k, (2 <= k <= 4)%Z -> vertex_get v k = Some (repeat n0 dim).
Proof.
  unfold endpoint. intros H. destruct (vertex_makeStartOrEnd_spec (vertex_new dim) pos kSnap (vertex_new_wf dim)) as (A & B).
  cbn [vertex_new v_D] in A, B. destruct (Nat.eq_dec (length pos) dim) as [E|E].
  2:{ rewrite (B E) in H. discriminate. }
  destruct (A E) as (v1 & E1 & W1 & D1 & G1). rewrite E1 in H. cbn [obind] in H.
  destruct (vertex_add_wf _ _ _ _ W1 H) as (W & D & L & G). rewrite D1 in L. split; [exact W|]. split; [congruence|].
  split; [exact E|]. split; [exact L|].
  assert (G' : forall k, vertex_get v k = if Z.eq_dec k 1 then Some vel else vertex_get v1 k) by exact G.
  split; [rewrite G', G1; reflexivity|]. split; [rewrite G'; reflexivity|].
  intros k Hk. rewrite G'. destruct (Z.eq_dec k 1); [lia|]. rewrite G1. destruct (Z.eq_dec k 0); [lia|].
  unfold kSnap. destruct (Z_le_dec 1 k); [|lia]. destruct (Z_le_dec k 4); [reflexivity|lia].
Qed.
Lemma endpoint_ok {T} {ops : NumOps T} dim (pos vel : list T) : length pos = dim -> length vel = dim ->
  exists v, endpoint dim pos vel = Ok v.
Proof.
  intros E L. unfold endpoint. destruct (vertex_makeStartOrEnd_spec (vertex_new dim) pos kSnap (vertex_new_wf dim)) as (A & _).
  destruct (A E) as (v1 & E1 & W1 & D1 & G1). rewrite E1. cbn [obind]. unfold vertex_add. rewrite D1. cbn [vertex_new v_D]. rewrite L, Nat.eqb_refl.
  eexists. reflexivity.
Qed.

(** Values of a one-segment trajectory at its ends. *)
Lemma single_state (tr : trajectory R) (s : segment R) (d : nat) (t : R) :
  traj_wf tr -> times_nonneg tr -> tr_segments tr = [s] -> 0 < seg_time s -> (t = 0 \/ t = seg_time s) ->
  traj_evaluate tr t (Z.of_nat d) = Ok (seg_value s t d).
Proof.
  intros Hw Hn Hs Hp Ht.
  assert (HK : (0 < tr_K tr)%nat) by (unfold tr_K; rewrite Hs; cbn; lia).
  assert (Hd : duration tr = seg_time s) by (unfold duration; rewrite Hs; cbn; lra).
  destruct Ht as [-> | ->].
  - rewrite (evaluate_in tr 0 0 _ Hn HK); [|left; reflexivity|unfold start_time; rewrite Hs; cbn; lra].
    unfold seg_at, start_time. rewrite Hs. cbn [nth firstn map lsum]. rewrite Rminus_0_r.
    destruct (traj_wf_seg tr 0 Hw HK) as (_ & _ & W & L). unfold seg_at in W, L. rewrite Hs in W, L. apply seg_evaluate_value; assumption.
  - rewrite (evaluate_end tr _ _ Hn HK) by (symmetry; exact Hd).
    destruct (traj_wf_seg tr 0 Hw HK) as (_ & _ & W & L). unfold seg_at, tr_K in *. rewrite Hs in *. cbn [length Nat.sub nth] in *.
    apply seg_evaluate_value; assumption.
Qed.

(** What a completed call of the shared part returns; nlopt, the root finder and
    exp are arbitrary. *)
Lemma plan_result (inv : mat R -> mat R) (solve : mat R -> list R -> list R) (rf : root_oracle (T := R)) (fexp : R -> R)
        (nlopt : nlopt_algorithm (T := R)) (dim : nat) (sp sv gp gv : list R) (v a : R) (tr tr' : trajectory R) :
  inverse_ok 5 inv -> (0 < dim)%nat ->
  plan_optimized inv solve rf fexp nlopt dim sp sv gp gv v a tr = Ok tr' ->
  / 2 ^ 52 <= duration tr' ->
  exists s, tr_segments tr' = [s] /\ tr_D tr' = dim /\ tr_N tr' = 10%nat /\ traj_wf tr' /\ traj_consistent tr' /\
    seg_time s = duration tr' /\
    length sp = dim /\ length sv = dim /\ length gp = dim /\ length gv = dim /\
    state_at tr' 0 sp sv /\ state_at tr' (duration tr') gp gv.
Proof.
  intros Hinv Hd H Hdur. unfold plan_optimized in H.
  destruct (endpoint dim sp sv) as [s| | |] eqn:Es; cbn [obind] in H; try discriminate.
  destruct (endpoint dim gp gv) as [e| | |] eqn:Ee; cbn [obind] in H; try discriminate.
  destruct (estimateSegmentTimes fexp [s; e] v a) as [times| | |] eqn:Et; cbn [obind] in H; try discriminate.
  destruct (nl_setupFromVertices 5 inv (nl_new dim default_params) [s; e] times kSnap) as [o| | |] eqn:Eo; cbn [obind] in H; try discriminate.
  destruct (nl_addConstraint true o kVelocity v) as [o1| | |] eqn:E1; cbn [obind] in H; try discriminate.
  destruct (nl_addConstraint true (snd o1) kAcceleration a) as [o2| | |] eqn:E2; cbn [obind] in H; try discriminate.
  destruct (nl_optimize 5 inv solve rf fexp nlopt (snd o2)) as [(n' & res)| | |] eqn:E3; cbn [obind fst] in H; try discriminate.
  destruct (endpoint_inv _ _ _ _ Es) as (Ws & Ds & Ls1 & Ls2 & Gs0 & Gs1 & Gs).
  destruct (endpoint_inv _ _ _ _ Ee) as (We & De & Le1 & Le2 & Ge0 & Ge1 & Ge).
  assert (Hwf : List.Forall vertex_wf [s; e]) by (constructor; [exact Ws|constructor; [exact We|constructor]]).
  assert (Hs : nl_set_up 5 inv solve rf fexp dim default_params [s; e] kSnap (snd o2)).
  { exists [], times, [NConstraint true kVelocity v; NConstraint true kAcceleration a], (nl_new dim default_params), o.
    split; [reflexivity|]. split; [exact Eo|]. split; [repeat constructor|]. cbn [run_ncalls run_ncall]. rewrite E1. cbn [obind].
    rewrite E2. reflexivity. }
  destruct (nl_set_up_setting 5 inv solve rf fexp dim _ _ _ _ Hwf Hs) as (Hp & _).
  assert (Hm : np_method (nl_par (snd o2)) = kSquaredTimeAndConstraints) by (rewrite Hp; reflexivity).
  destruct (C66_after_optimize 5 inv solve rf fexp dim _ _ _ nlopt _ _ _ Hs E3) as (_ & _ & _ & Hj & _).
  destruct (Hj (or_introl Hm)) as (o' & c & So & Hc & Er).
  destruct (computed_prepared 5 inv solve dim _ _ _ _ _ Hwf So Hc Er) as (P & S & Ed & _).
  assert (CS := chain_of_shape_R 5 inv _ _ P). rewrite <- (synced_chain 5 inv _ _ P S) in CS by lia. rewrite Ed in CS.
  destruct CS as (CL & CS). assert (Hnt : length (o_times (nl_opt n')) = 1%nat).
  { assert (Q := pr_nseg _ _ _ _ P). assert (Q2 := pr_times _ _ _ _ P). cbn [length] in Q. lia. }
  rewrite Hnt in CL. destruct (o_segments (nl_opt n')) as [|sg [|]] eqn:Eg; cbn [length] in CL; try lia.
  destruct (CS 0%nat ltac:(lia)) as (T0 & N0 & D0 & W0). cbn [nth] in T0, N0, D0, W0.
  unfold nl_getTrajectory, opt_getTrajectory in H. rewrite Eg in H. unfold traj_setSegments, traj_addSegments in H.
  cbn [ofold tr_D tr_N tr_max_time tr_segments] in H. rewrite !Nat.eqb_refl in H. cbn [negb obind app] in H. apply Ok_inj in H. subst tr'.
  set (tr' := mkTraj _ _ _ _) in *.
  assert (Hdu : seg_time sg = duration tr') by (unfold duration; cbn; lra).
  exists sg. split; [reflexivity|]. split; [exact D0|]. split; [exact N0|].
  assert (W : traj_wf tr').
  { split; [|cbn [tr' tr_N]; rewrite N0; lia]. constructor; [|constructor]. cbn [tr' tr_D tr_N]. auto. }
  split; [exact W|].
  split; [split; [constructor; [split; reflexivity|constructor]|reflexivity]|]. split; [exact Hdu|].
  split; [exact Ls1|]. split; [exact Ls2|]. split; [exact Le1|]. split; [exact Le2|].
  assert (H52 : 0 < / 2 ^ 52) by (apply Rinv_0_lt_compat; apply pow_lt; lra).
  assert (Hn : times_nonneg tr') by (constructor; [lra|constructor]).
  assert (Ht : List.Forall (fun t => / 2 ^ 52 <= t) (o_times (nl_opt n'))).
  { destruct (o_times (nl_opt n')) as [|t0 [|]]; cbn [length] in Hnt; try lia. cbn [nth] in T0. constructor; [lra|constructor]. }
  destruct (C66_trajectory_valid 5 inv solve rf fexp dim _ _ _ nlopt _ _ _ Hinv Hwf Hd Hs E3 (or_introl Hm) Ht) as (_ & MC & _).
  rewrite Eg in MC.
  assert (ST : forall vx pos vel t i, nth i [s; e] SpecLinear.no_vertex = vx -> (i < 2)%nat -> length pos = dim -> length vel = dim ->
     vertex_get vx 0 = Some pos -> vertex_get vx 1 = Some vel -> (forall k, (2 <= k <= 4)%Z -> vertex_get vx k = Some (repeat n0 dim)) ->
     t = (if Nat.eqb i 0 then 0 else duration tr') -> state_at tr' t pos vel).
  { intros vx pos vel t i Ev Hi Lp Lv G0 G1 G Etm.
    assert (K : forall k x, (k < 5)%nat -> vertex_get vx (Z.of_nat k) = Some x -> length x = dim ->
        traj_evaluate tr' t (Z.of_nat k) = Ok x).
    { intros k x Hk Hx Lx. rewrite (single_state tr' sg k t W Hn eq_refl ltac:(lra)).
      2:{ rewrite Etm. destruct (Nat.eqb i 0); [left; reflexivity|right; symmetry; exact Hdu]. }
      f_equal. unfold seg_value. apply (nth_ext _ _ 0 0); [rewrite map_length, seq_length; lia|].
      rewrite map_length, seq_length, D0. intros j Hjj. rewrite nth_map_seq by exact Hjj.
      destruct (MC i k x j ltac:(cbn; lia) Hk Hjj ltac:(rewrite Ev; exact Hx)) as (MA & MB).
      destruct i as [|i]; [cbn [Nat.eqb] in Etm; rewrite Etm; apply MA; cbn; lia|].
      assert (i = 0%nat) by lia. subst i. cbn [Nat.eqb] in Etm. rewrite Etm, <- Hdu. apply MB. lia. }
    split; [apply (K 0%nat); [lia|exact G0|exact Lp]|]. split; [apply (K 1%nat); [lia|exact G1|exact Lv]|].
    intros k Hk. rewrite Lp. rewrite <- (Z2Nat.id k) by lia. apply K; [lia|rewrite Z2Nat.id by lia; apply G; exact Hk|apply repeat_length]. }
  split; [apply (ST s sp sv 0 0%nat)|apply (ST e gp gv (duration tr') 1%nat)]; auto.
Qed.

(** The planner completes. *)
Lemma plan_total (inv : mat R -> mat R) (solve : mat R -> list R -> list R) (rf : root_oracle (T := R))
        (nlopt : nlopt_algorithm (T := R)) (dim : nat) (sp sv gp gv : list R) (v a : R) (tr : trajectory R) :
  (forall A b, length (solve A b) = length b) -> perfect_root_finder rf -> bounded_algorithm nlopt ->
  (0 < dim)%nat -> length sp = dim -> length sv = dim -> length gp = dim -> length gv = dim ->
  0 < v -> 0 < a -> sp <> gp ->
  exists tr', plan_optimized inv solve rf exp nlopt dim sp sv gp gv v a tr = Ok tr' /\
    Rmin (1 / 10) (2 * dist sp gp / v) <= duration tr' /\
    ((forall steps lower upper x0, nlopt steps lower upper x0 = NlReject) ->
       duration tr' = nfabian_time exp (dist sp gp) v a (65 / 10)).
Proof.
  intros Hsol Hrf Hal Hd L1 L2 L3 L4 Hv Ha Hne. unfold plan_optimized.
  destruct (endpoint_ok dim sp sv L1 L2) as (s & Es). destruct (endpoint_ok dim gp gv L3 L4) as (e & Ee). rewrite Es. cbn [obind]. rewrite Ee. cbn [obind].
  destruct (endpoint_inv _ _ _ _ Es) as (Ws & Ds & _ & _ & Gs0 & _). destruct (endpoint_inv _ _ _ _ Ee) as (We & De & _ & _ & Ge0 & _).
  assert (Hpos : has_positions dim [s; e]).
  { constructor; [exists sp; auto|]. constructor; [exists gp; auto|constructor]. }
  unfold estimateSegmentTimes. rewrite (nfabian_eq dim) by (auto; cbn; lia). cbn [obind pairs map fst snd].
  unfold pos_of at 1 2. rewrite Gs0, Ge0. set (t0 := nfabian_time exp (dist gp sp) v a _).
  assert (Hdist : 0 < dist sp gp) by (apply dist_pos; congruence).
  assert (Ht0 : 2 * dist sp gp / v <= t0).
  { unfold t0, nfabian_time. rewrite (dist_sym gp sp). rnum. set (q := dist sp gp).
    assert (0 <= q / v * 2 * ((nlit 65 10) * v / a * exp (- q / v * 2))).
    { apply Rmult_le_pos; [apply Rmult_le_pos; [apply Rlt_le, Rdiv_lt_0_compat; assumption|lra]|].
      apply Rmult_le_pos; [|left; apply exp_pos]. unfold nlit. rnum. apply Rlt_le, Rdiv_lt_0_compat; [|assumption]. nra. }
    unfold n1. rnum. replace (2 * q / v) with (q / v * 2 * 1) by (field; lra). lra. }
  assert (Hq : 0 < 2 * dist sp gp / v) by (apply Rdiv_lt_0_compat; lra).
  assert (Hvs : List.Forall (fun x => vertex_wf x /\ v_D x = dim) [s; e]) by (constructor; [auto|constructor; [auto|constructor]]).
  assert (Hwf : List.Forall vertex_wf [s; e]) by (constructor; [exact Ws|constructor; [exact We|constructor]]).
  destruct (C31_setup_and_solve_succeed 5 inv solve dim [s; e] [t0] kSnap [] (opt_new dim)) as (o1 & H1 & T1 & H2);
    try assumption; try reflexivity; try (unfold kSnap; cbn; lia).
  { constructor; [lra|constructor]. }
  destruct (H2 (or_introl eq_refl)) as (o2 & E2 & T2).
  set (n0' := nl_setupFromVertices _ _ _ _ _ _).
  assert (En0 : exists n, n0' = Ok n /\ nl_opt n = o1 /\ nl_par n = default_params /\ nl_con n = []).
  { unfold n0', nl_setupFromVertices. cbn [nl_new nl_opt]. rewrite H1. cbn [obind]. eexists. split; [reflexivity|]. auto. }
  destruct En0 as (n & En & On & Pn & Cn). unfold n0' in *. rewrite En. cbn [obind].
  assert (AC : forall m d x, nl_par m = default_params -> (0 <= d)%Z -> 0 < x -> exists m', nl_addConstraint true m d x = Ok (true, m') /\
     nl_opt m' = nl_opt m /\ nl_par m' = default_params /\ nl_con m' = nl_con m ++ [(d, x)]).
  { intros m d x Hm Hd' Hx. unfold nl_addConstraint. destruct (Z.ltb_spec d 0); [lia|]. unfold n0. rnum.
    destruct (Rleb_spec 0 x); [|lra]. cbn [negb]. rewrite Hm. cbn [default_params np_soft]. eexists. split; [reflexivity|]. auto. }
  destruct (AC n kVelocity v Pn ltac:(unfold kVelocity; lia) Hv) as (m1 & M1 & O1 & P1 & C1). rewrite M1. cbn [obind snd].
  destruct (AC m1 kAcceleration a P1 ltac:(unfold kAcceleration; lia) Ha) as (m2 & M2 & O2 & P2 & C2). rewrite M2. cbn [obind snd].
  assert (Hs : nl_set_up 5 inv solve rf exp dim default_params [s; e] kSnap m2).
  { exists [], [t0], [NConstraint true kVelocity v; NConstraint true kAcceleration a], (nl_new dim default_params), n.
    split; [reflexivity|]. split; [exact En|]. split; [repeat constructor|]. cbn [run_ncalls run_ncall]. rewrite M1. cbn [obind snd].
    rewrite M2. reflexivity. }
  destruct (optimize_total 5 inv solve rf dim default_params [s; e] kSnap nlopt m2 o2) as (n' & res & E3 & Hb & Hrej); auto.
  { rewrite O2, O1, On. exact E2. }
  { rewrite C2, C1, Cn. unfold kVelocity, kAcceleration. constructor; [cbn; split; [lia|exact Hv]|]. constructor; [cbn; split; [lia|exact Ha]|constructor]. }
  { rewrite O2, O1, On, T1. constructor; [lra|constructor]. }
  rewrite E3. cbn [obind fst].
  destruct (C66_after_optimize 5 inv solve rf exp dim _ _ _ nlopt _ _ _ Hs E3) as (_ & _ & _ & Hj & _).
  destruct (Hj ltac:(left; rewrite P2; reflexivity)) as (o' & c & So & Hc & Er).
  destruct (computed_prepared 5 inv solve dim _ _ _ _ _ Hwf So Hc Er) as (P & S & Ed & _).
  assert (CS := chain_of_shape_R 5 inv _ _ P). rewrite <- (synced_chain 5 inv _ _ P S) in CS by lia. rewrite Ed in CS.
  destruct CS as (CL & CS). assert (Hnt : length (o_times (nl_opt n')) = 1%nat).
  { assert (Q := pr_nseg _ _ _ _ P). assert (Q2 := pr_times _ _ _ _ P). cbn [length] in Q. lia. }
  rewrite Hnt in CL. destruct (o_segments (nl_opt n')) as [|sg [|]] eqn:Eg; cbn [length] in CL; try lia.
  destruct (CS 0%nat ltac:(lia)) as (T0 & _). cbn [nth] in T0.
  unfold nl_getTrajectory, opt_getTrajectory. rewrite Eg. unfold traj_setSegments, traj_addSegments.
  cbn [ofold tr_D tr_N tr_max_time tr_segments]. rewrite !Nat.eqb_refl. cbn [negb obind app].
  eexists. split; [reflexivity|]. unfold duration. cbn [tr_segments map lsum]. rewrite T0, Rplus_0_r.
  destruct (Hb 0%nat ltac:(cbn; lia)) as (Hb0 & _). rewrite O2, O1, On, T1 in Hb0. cbn [nth] in Hb0.
  split; [eapply Rle_trans; [|exact Hb0]; apply Rle_min_compat_l; exact Ht0|].
  intros HR. rewrite (Hrej HR), T2. cbn [nth]. unfold t0. rewrite dist_sym. reflexivity.
Qed.
