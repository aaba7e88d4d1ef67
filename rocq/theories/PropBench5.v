(** C90: what the methods of the benchmark compute. *)
From Coq Require Import ZArith Reals List Bool Lia Lra Psatz.
From Coquelicot Require Import Coquelicot.
From Verif Require Import Num RSum SpecPoly ModelPolynomial ModelSegment ModelVertex ModelTrajectory ModelLinear
  SpecSegment SpecVertex SpecTrajectory SpecLinear ProofPolynomial ProofSegment ProofSegment2 ProofVertex ProofVertex2
  ProofTrajectory ProofTrajectory2 ProofTrajectory3 ProofTrajectory4
  ProofRoots ProofMatrix ProofHermite ProofReorder ProofLinear ProofLinear2 ProofLinear3 ProofLinear4 ProofLinear5 ProofLinear6 ProofLinear7
  PropVertex PropLinear PropLinear2
  ModelNonlinear SpecNonlinear ProofNonlinear ProofNonlinear2 ProofNonlinear3 ProofNonlinear4 ProofNonlinear5 ProofNonlinear6 ProofNonlinear7
  PropNonlinear PropNonlinear3 PropNonlinear4 ModelPlanner ModelSampling ModelVis ModelBench SpecVis SpecBench ProofBench2 PropBench2.
Import ListNotations.
Notation length := List.length.
Open Scope R_scope.

(** The distance between two consecutive vertices. *)
Definition leg (vs : list (vertex R)) (i : nat) : R :=
  SpecVertex.dist (pos_of (nth i vs SpecLinear.no_vertex)) (pos_of (nth (S i) vs SpecLinear.no_vertex)).
(** The segment times that a method starts from: the minimum times of the legs
    flown from rest to rest, at least 0.1 s each, or the formula
    2 d / v (1 + 6.5 v / a exp (-2 d / v)). *)
Definition trapezoidal_start (m : bench_method) : bool :=
  match m with Trapezoidal | MellingerTrapezoidalInit => true | _ => false end.
Definition start_times (v a : R) (m : bench_method) (vs : list (vertex R)) (ts : list R) : Prop :=
  length ts = (length vs - 1)%nat /\
  forall i, (S i < length vs)%nat ->
    if trapezoidal_start m then exists T, minimum_time (leg vs i) v a T /\ nth i ts 0 = Rmax (1 / 10) T
    else nth i ts 0 = 2 * leg vs i / v * (1 + 65 / 10 * v / a * exp (- (2 * leg vs i / v))).
(** A trajectory through the vertices. *)
Definition passes (vs : list (vertex R)) (tr : trajectory R) : Prop :=
  traj_wf tr /\ traj_consistent tr /\ tr_D tr = 3%nat /\ tr_N tr = 10%nat /\ length (tr_segments tr) = (length vs - 1)%nat /\
  (List.Forall (fun s => / 2 ^ 52 <= seg_time s) (tr_segments tr) -> meets_constraints 5 3 vs (tr_segments tr) /\ smooth_chain 5 3 (tr_segments tr)).
(** Jerk, 500 T^e and the penalties for exceeding the two limits, each at most cap. *)
Definition has_cost (v a cap : R) (e : nat) (tr : trajectory R) (c : R) : Prop :=
  exists V A, is_peak 3 1 (tr_segments tr) V /\ is_peak 3 2 (tr_segments tr) A /\
    c = integral_cost 3 3 (tr_segments tr) + 500 * duration tr ^ e + (soft_cost 100 cap V v + soft_cost 100 cap A a).

Lemma start_times_exist v a m vs : bench_vertices vs -> 0 < v -> 0 < a ->
  exists ts, start_times v a m vs ts /\ List.Forall (fun t => 0 < t) ts /\
    (if trapezoidal_start m then estimateSegmentTimesVelocityRamp vs v a n1 = Ok ts else estimateSegmentTimes exp vs v a = Ok ts).
Proof.
  intros Hb Hv Ha. destruct (trapezoidal_start m) eqn:Em.
  - destruct Hb as (Hl & _ & Hp & _). destruct (C28_velocity_ramp_times 3 vs v a n1 Hl Hp Hv Ha) as (ts & E & L & N).
    exists ts. unfold start_times. rewrite Em. split; [split; [exact L|intros i Hi; exact (N i SpecLinear.no_vertex Hi)]|]. split; [|exact E].
    apply List.Forall_forall. intros t Ht. apply (In_nth _ _ 0) in Ht as (i & Hi & <-).
    destruct (N i SpecLinear.no_vertex ltac:(lia)) as (T & _ & ->). assert (Q := Rmax_l (1 / 10) T). lra.
  - destruct (nominal_solution (perfect_inv 5) perfect_solve vs v a Hb perfect_solve_length Hv Ha) as (ts & o & E & _ & _ & L & P & _ & N).
    exists ts. unfold start_times. rewrite Em. split; [split; [exact L|]|split; [exact P|exact E]].
    intros i Hi. rewrite (N i Hi), dist_sym. fold (leg vs i). unfold nfabian_time, nlit, n1. rnum.
    replace (- leg vs i / v * 2) with (- (2 * leg vs i / v)) by (field; lra). field. lra.
Qed.

Section Solutions.
  Context (inv : mat R -> mat R) (solve : mat R -> list R -> list R) (rf : root_oracle (T := R)) (vs : list (vertex R)) (v a : R).
  Context (Hrf : perfect_root_finder rf) (Hinv : inverse_ok 5 inv) (Hb : bench_vertices vs) (Hv : 0 < v) (Ha : 0 < a).
  Lemma bench_wf : List.Forall vertex_wf vs.
  Proof. destruct Hb as (_ & H & _). eapply List.Forall_impl; [|exact H]. intros x Hx. apply Hx. Qed.
  Lemma computed_passes o tr : computed 5 inv solve 3 vs 3 o ->
    exists tr', opt_getTrajectory o tr = Ok tr' /\ passes vs tr' /\ tr_segments tr' = o_segments o /\ map seg_time (tr_segments tr') = o_times o.
  Proof.
    intros Hc. destruct Hb as (Hl & _). assert (Hwf := bench_wf).
    destruct (solved_trajectory 5 inv solve vs 3 3 o tr Hwf ltac:(lia) Hl Hc) as (tr' & G & S & D & N & W & _ & C & M & L & _).
    exists tr'. split; [exact G|]. split; [|split; [exact S|rewrite S; exact M]].
    split; [exact W|]. split; [exact C|]. split; [exact D|]. split; [exact N|]. rewrite S.
    split; [rewrite <- L, <- M, map_length; reflexivity|]. intros F.
    assert (F' : List.Forall (fun t => / 2 ^ 52 <= t) (o_times o)) by (rewrite <- M; apply Forall_map; exact F).
    destruct Hc as (q0 & q & Hs & Hq & Hr).
    split; [apply (C31_constraints_met 5 inv solve 3 vs 3 q0 o q); try assumption; lia|].
    apply (C32_continuous 5 inv solve 3 vs 3 q0 o q); try assumption; lia.
  Qed.
  (** The limits as nl_addConstraint stores them. *)
  Definition limits : list (Z * R) := [(1%Z, v); (2%Z, a)].
  Lemma limits_ok : List.Forall (fun c => (0 <= fst c < Z.of_nat (2 * 5 - 1))%Z /\ 0 < snd c) limits.
  Proof. constructor; [cbn; split; [lia|exact Hv]|]. constructor; [cbn; split; [lia|exact Ha]|constructor]. Qed.
  Lemma limits_cost cap e segs tr peak c : peaks_of 3 limits segs peak -> tr_segments tr = segs ->
    c = integral_cost 3 3 segs + 500 * duration tr ^ e + soft_total limits 100 cap peak -> has_cost v a cap e tr c.
  Proof.
    intros Pk Es ->. exists (peak 0%nat), (peak 1%nat). rewrite Es. split; [apply (Pk 0%nat); cbn; lia|]. split; [apply (Pk 1%nat); cbn; lia|].
    unfold soft_total. cbn [length limits rsum nth snd]. ring.
  Qed.
  Lemma total_cost_R n tr : computed 5 inv solve 3 vs 3 (nl_opt n) -> nl_con n = limits -> np_penalty (nl_par n) = 500 -> np_weight (nl_par n) = 100 ->
    tr_segments tr = o_segments (nl_opt n) -> map seg_time (tr_segments tr) = o_times (nl_opt n) ->
    exists n' c, nl_getTotalCost 5 rf exp n = Ok (n', c) /\ has_cost v a (10 ^ 9) 2 tr c.
  Proof.
    intros Hc Ec Ep Ew Es Em. destruct Hb as (Hl & _).
    destruct (C67_total_cost 5 inv solve rf 3 vs 3 n Hrf bench_wf ltac:(lia) Hl Hc) as (n' & c & peak & E & _ & Pk & Q); [rewrite Ec; exact limits_ok|].
    exists n', c. split; [exact E|]. rewrite Ec in *. rewrite Ep, Ew in Q. apply (limits_cost _ _ _ _ _ _ Pk Es).
    unfold duration. rewrite Em. exact Q.
  Qed.
End Solutions.

(** ** C90: the two linear methods. *)
Theorem C90_linear_methods (inv : mat R -> mat R) (solve : mat R -> list R -> list R) (rf : root_oracle (T := R)) (nlopt : nlopt_algorithm (T := R))
        (vs : list (vertex R)) (v a : R) (tr : trajectory R) (m : bench_method) :
  perfect_root_finder rf -> inverse_ok 5 inv -> (forall A b, length (solve A b) = length b) -> bench_vertices vs -> 0 < v -> 0 < a ->
  m = Nfabian \/ m = Trapezoidal ->
  exists tr' c, run_method inv solve rf exp v a nlopt m vs tr = Ok (1%Z, tr', c) /\
    start_times v a m vs (map seg_time (tr_segments tr')) /\ passes vs tr' /\ has_cost v a (10 ^ 9) 2 tr' c.
Proof.
  intros Hrf Hinv Hsol Hb Hv Ha Hm. destruct (start_times_exist v a m vs Hb Hv Ha) as (ts & St & Pt & Et).
  assert (Hl : (2 <= length vs)%nat) by apply Hb. assert (Lt : length ts = (length vs - 1)%nat) by apply St.
  destruct (C31_setup_and_solve_succeed 5 inv solve 3 vs ts kJerk [] (opt_new 3)) as (o1 & H1 & T1 & H2);
    try assumption; try reflexivity; try (unfold kJerk; cbn; lia); try lia; [apply Hb|].
  destruct (H2 (or_introl eq_refl)) as (o2 & E2 & T2).
  assert (Hc : computed 5 inv solve 3 vs 3 o2).
  { exists o1, CallSolve. split; [|split; [exact I|exact E2]]. exists [], ts, [], (opt_new 3), o1. split; [reflexivity|]. split; [exact H1|]. split; [constructor|reflexivity]. }
  destruct (computed_passes inv solve vs Hinv Hb o2 tr Hc) as (tr' & G & P & S & M).
  destruct (linear_cost_R inv solve rf vs 3 v a o2 Hrf (bench_wf vs Hb) Hl Hv Ha Hc) as (c & V & A & Ec & PV & PA & Vc).
  exists tr', c. split; [|split; [rewrite M, T2; exact St|split; [exact P|exists V, A; rewrite S; split; [exact PV|]; split; [exact PA|]; rewrite Vc; unfold duration; rewrite M; reflexivity]]].
  destruct Hm as [-> | ->]; cbn [trapezoidal_start] in Et; unfold run_method, run_linear, linear_run; rewrite Et; cbn [obind]; rewrite H1; cbn [obind]; rewrite E2; cbn [obind];
    rewrite G; cbn [obind]; rewrite Ec; reflexivity.
Qed.
Print Assumptions C90_linear_methods.

(** ** The nonlinear methods *)
Definition allocation (m : bench_method) : time_alloc :=
  match m with
  | NonlinearTimeOnly => kSquaredTime | NonlinearAll => kSquaredTimeAndConstraints | NonlinearRichter => kRichterTimeAndConstraints
  | _ => kMellingerOuterLoop
  end.
Definition nonlinear (m : bench_method) : Prop :=
  In m [NonlinearTimeOnly; NonlinearAll; NonlinearRichter; MellingerOuterLoop; MellingerTrapezoidalInit].
(** The state before optimize(). *)
Definition bench_params (m : bench_method) : nl_params R := mkNlParams (nlit 1 10) (nofZ 500) true (nofZ 100) (allocation m).
Lemma run_nonlinear_start inv solve rf v a m vs : (forall A b, length (solve A b) = length b) -> bench_vertices vs -> 0 < v -> 0 < a -> nonlinear m ->
  exists ts n o, start_times v a m vs ts /\ List.Forall (fun t => 0 < t) ts /\ nl_set_up 5 inv solve rf exp 3 (bench_params m) vs 3 n /\
    nl_con n = limits v a /\ nl_par n = bench_params m /\ o_times (nl_opt n) = ts /\
    opt_solveLinear 5 solve (nl_opt n) = Ok o /\ o_times o = ts /\ List.Forall (fun s => seg_time s = 0) (o_segments (nl_opt n)) /\
    (forall nlopt tr, run_method inv solve rf exp v a nlopt m vs tr =
       (o3 <-- nl_optimize 5 inv solve rf exp nlopt n ;; tr' <-- nl_getTrajectory (fst o3) tr ;;
        r <-- nl_getTotalCost 5 rf exp (fst o3) ;; Ok (snd o3, tr', snd r))).
Proof.
  intros Hsol Hb Hv Ha Hm. destruct (start_times_exist v a m vs Hb Hv Ha) as (ts & St & Pt & Et).
  assert (Hl : (2 <= length vs)%nat) by apply Hb. assert (Lt : length ts = (length vs - 1)%nat) by apply St.
  destruct (C31_setup_and_solve_succeed 5 inv solve 3 vs ts kJerk [] (opt_new 3)) as (o1 & H1 & T1 & H2);
    try assumption; try reflexivity; try (unfold kJerk; cbn; lia); try lia; [apply Hb|].
  destruct (H2 (or_introl eq_refl)) as (o2 & E2 & T2).
  set (n1' := mkNlo o1 (bench_params m) [] (Some (nl_parameters (nl_new 3 (bench_params m)) o1 ts)) [] info_new).
  set (n := mkNlo o1 (bench_params m) (limits v a) (nl_nlopt n1') [] info_new).
  assert (E1 : nl_setupFromVertices 5 inv (nl_new 3 (bench_params m)) vs ts kJerk = Ok n1').
  { unfold nl_setupFromVertices. cbn [nl_new nl_opt]. rewrite H1. reflexivity. }
  assert (AC : forall q d x, nl_par q = bench_params m -> (0 <= d)%Z -> 0 < x -> nl_addConstraint true q d x = Ok (true, mkNlo (nl_opt q) (nl_par q) (nl_con q ++ [(d, x)]) (nl_nlopt q) (nl_hard q) (nl_inf q))).
  { intros q d x Hq Hd' Hx. unfold nl_addConstraint. destruct (Z.ltb_spec d 0); [lia|]. unfold n0. rnum.
    destruct (Rleb_spec 0 x); [|lra]. cbn [negb]. rewrite Hq. reflexivity. }
  assert (A1 := AC n1' kVelocity v eq_refl ltac:(unfold kVelocity; lia) Hv). cbn [nl_opt nl_par nl_con nl_nlopt nl_hard nl_inf n1' app] in A1.
  set (n2' := mkNlo o1 (bench_params m) [(kVelocity, v)] (nl_nlopt n1') [] info_new).
  assert (A2 := AC n2' kAcceleration a eq_refl ltac:(unfold kAcceleration; lia) Ha). cbn [nl_opt nl_par nl_con nl_nlopt nl_hard nl_inf n2' app] in A2.
  exists ts, n, o2. split; [exact St|]. split; [exact Pt|]. split.
  { exists [], ts, [NConstraint true kVelocity v; NConstraint true kAcceleration a], (nl_new 3 (bench_params m)), n1'.
    split; [reflexivity|]. split; [exact E1|]. split; [repeat constructor|]. cbn [run_ncalls run_ncall]. fold n1' in A1. rewrite A1. cbn [obind snd].
    fold n2' in A2. change (mkNlo o1 (bench_params m) [(kVelocity, v)] (Some (nl_parameters (nl_new 3 (bench_params m)) o1 ts)) [] info_new) with n2'.
    rewrite A2. reflexivity. }
  split; [reflexivity|]. split; [reflexivity|]. split; [exact T1|]. split; [exact E2|]. split; [exact T2|]. split.
  { cbn [n nl_opt]. clear -H1 Hl. unfold opt_setupFromVertices in H1. destruct (_ || _); [discriminate|]. destruct vs as [|x rest]; [discriminate|].
    destruct (negb _); [discriminate|]. destruct (omap _ _) as [fv| | |]; cbn [obind] in H1; try discriminate.
    match type of H1 with obind (opt_updateSegmentTimes _ _ ?q _) _ = _ => set (oq := q) in H1 end.
    destruct (opt_updateSegmentTimes 5 inv oq ts) as [ou| | |] eqn:Eu; cbn [obind] in H1; try discriminate.
    assert (S1 : o_segments ou = o_segments oq).
    { unfold opt_updateSegmentTimes in Eu. destruct (negb _); [discriminate|]. destruct (omap _ _); cbn [obind] in Eu; try discriminate. apply Ok_inj in Eu. subst ou. reflexivity. }
    assert (S2 : o_segments o1 = o_segments ou).
    { unfold opt_setupReordering in H1. repeat match type of H1 with obind ?X _ = Ok _ => destruct X; cbn [obind] in H1; try discriminate end.
      apply Ok_inj in H1. subst o1. reflexivity. }
    rewrite S2, S1. cbn [oq o_segments opt_new]. apply List.Forall_forall. intros s Hs. unfold vec_resize in Hs. rewrite firstn_nil in Hs. apply repeat_spec in Hs. subst s. reflexivity. }
  intros nlopt tr.
  assert (G : run_method inv solve rf exp v a nlopt m vs tr = run_nonlinear inv solve rf exp v a nlopt (allocation m) (Ok ts) vs tr).
  { destruct Hm as [<-|[<-|[<-|[<-|[<-|[]]]]]]; cbn [trapezoidal_start] in Et; unfold run_method; rewrite Et; reflexivity. }
  rewrite G. unfold run_nonlinear. cbn [obind]. fold (bench_params m). rewrite E1. cbn [obind]. fold n1' in A1. rewrite A1. cbn [obind snd].
  change (mkNlo o1 (bench_params m) [(kVelocity, v)] (Some (nl_parameters (nl_new 3 (bench_params m)) o1 ts)) [] info_new) with n2'.
  fold n2' in A2. rewrite A2. cbn [obind snd]. reflexivity.
Qed.

(** ** C90: the nonlinear methods, whatever nlopt does. *)
Theorem C90_nonlinear_methods (inv : mat R -> mat R) (solve : mat R -> list R -> list R) (rf : root_oracle (T := R)) (nlopt : nlopt_algorithm (T := R))
        (vs : list (vertex R)) (v a : R) (tr : trajectory R) (m : bench_method) (res : Z) (tr' : trajectory R) (c : R) :
  perfect_root_finder rf -> inverse_ok 5 inv -> (forall A b, length (solve A b) = length b) -> bench_vertices vs -> 0 < v -> 0 < a -> nonlinear m ->
  run_method inv solve rf exp v a nlopt m vs tr = Ok (res, tr', c) ->
  (passes vs tr' /\ has_cost v a (10 ^ 9) 2 tr' c) \/
  (* nlopt failed before it evaluated anything: no segment was computed *)
  (m <> NonlinearAll /\ m <> NonlinearRichter /\ List.Forall (fun s => seg_time s = 0) (tr_segments tr')).
Proof.
  intros Hrf Hinv Hsol Hb Hv Ha Hm H. destruct (run_nonlinear_start inv solve rf v a m vs Hsol Hb Hv Ha Hm) as (ts & n & o & St & Pt & Hs & Cn & Pn & Tn & Eo & To & Z0 & G).
  rewrite G in H. destruct (nl_optimize 5 inv solve rf exp nlopt n) as [(n', res')| | |] eqn:E3; cbn [obind fst snd] in H; try discriminate.
  destruct (C66_after_optimize 5 inv solve rf exp 3 _ _ _ nlopt _ _ _ Hs E3) as (_ & _ & _ & Hj & Hk).
  destruct (setting_optimize 5 inv solve rf exp nlopt n n' res' E3) as (Sp & Sc & _).
  assert (D : computed 5 inv solve 3 vs 3 (nl_opt n') \/ (m <> NonlinearAll /\ m <> NonlinearRichter /\ nl_opt n' = nl_opt n)).
  { rewrite Pn in Hj, Hk. unfold bench_params in Hj, Hk. cbn [np_method] in Hj, Hk.
    destruct Hm as [<-|[<-|[<-|[<-|[<-|[]]]]]]; cbn [allocation] in Hj, Hk.
    2,3: left; destruct Hj as (q & q' & A & B & C'); [auto|]; exists q, q'; auto.
    1-3: destruct Hk as [Hk|(q & A & B)]; try discriminate; [right; split; [discriminate|]; split; [discriminate|exact Hk]|left; exists q, CallSolve; split; [exact A|split; [exact I|exact B]]]. }
  destruct D as [D|(N1 & N2 & D)].
  - left. destruct (computed_passes inv solve vs Hinv Hb (nl_opt n') tr D) as (tr2 & G2 & P & S & M). unfold nl_getTrajectory in H. rewrite G2 in H. cbn [obind] in H.
    assert (Ep : np_penalty (nl_par n') = 500 /\ np_weight (nl_par n') = 100) by (rewrite Sp, Pn; split; reflexivity). destruct Ep as (Ep & Ew).
    destruct (total_cost_R inv solve rf vs v a Hrf Hb Hv Ha n' tr2 D ltac:(rewrite Sc; exact Cn) Ep Ew S M) as (n2 & c2 & E2 & C2).
    rewrite E2 in H. cbn [obind snd] in H. apply Ok_inj in H. injection H as <- <- <-. auto.
  - right. split; [exact N1|]. split; [exact N2|]. unfold nl_getTrajectory in H. rewrite D in H.
    destruct (opt_getTrajectory (nl_opt n) tr) as [tr2| | |] eqn:G2; cbn [obind] in H; try discriminate.
    destruct (nl_getTotalCost 5 rf exp n') as [(n2, c2)| | |]; cbn [obind] in H; try discriminate. apply Ok_inj in H. injection H as <- <- <-.
    destruct (ProofTrajectory.setSegments_inv _ _ _ G2) as (_ & Q & _). rewrite Q. exact Z0.
Qed.
Print Assumptions C90_nonlinear_methods.

Lemma is_peak_unique dim d segs V W : is_peak dim d segs V -> is_peak dim d segs W -> V = W.
Proof. intros (U & j & t & Hj & Ht & ->) (U' & j' & t' & Hj' & Ht' & ->). apply Rle_antisym; auto. Qed.
Lemma has_cost_unique v a cap e tr c c' : has_cost v a cap e tr c -> has_cost v a cap e tr c' -> c = c'.
Proof.
  intros (V & A & PV & PA & ->) (V' & A' & PV' & PA' & ->). rewrite (is_peak_unique _ _ _ _ _ PV PV'), (is_peak_unique _ _ _ _ _ PA PA'). reflexivity.
Qed.
(** An nlopt that evaluates the objective once, at the initial point, and reports a
    code that depends on the value; with gradient: it fails after the evaluation. *)
Definition probe (code : R -> Z) : nlopt_algorithm (T := R) := fun steps lower upper x0 =>
  NlObjective false x0 (fun f _ => NlReturn x0 f (code f)).
Definition probe_gradient : nlopt_algorithm (T := R) := fun steps lower upper x0 =>
  NlObjective true x0 (fun _ _ => NlThrow x0 dbl_max).

Lemma times_of_pack (ts : list R) free k : length ts = k -> times_of k (pack ts free) = ts.
Proof. intros <-. unfold times_of, pack. rewrite firstn_app, firstn_all, Nat.sub_diag, firstn_O, app_nil_r. reflexivity. Qed.

(** The state after the evaluation. *)
Definition probed inv solve rf vs v a m (n : nlo R) (ts : list R) : Prop :=
  exists n' f, (forall code, exists n2, nl_optimize 5 inv solve rf exp (probe code) n = Ok (n2, code f) /\ nl_opt n2 = nl_opt n' /\ nl_con n2 = limits v a /\ nl_par n2 = bench_params m) /\
    computed 5 inv solve 3 vs 3 (nl_opt n') /\ o_times (nl_opt n') = ts /\
    exists peak, peaks_of 3 (limits v a) (o_segments (nl_opt n')) peak /\
      f = integral_cost 3 3 (o_segments (nl_opt n')) + 500 * lsum ts ^ (match m with NonlinearRichter => 1 | _ => 2 end) + soft_total (limits v a) 100 (10 ^ 12) peak.
Section Probes.
  Context (inv : mat R -> mat R) (solve : mat R -> list R -> list R) (rf : root_oracle (T := R)) (vs : list (vertex R)) (v a : R).
  Context (Hrf : perfect_root_finder rf) (Hsol : forall A b, length (solve A b) = length b) (Hb : bench_vertices vs) (Hv : 0 < v) (Ha : 0 < a).
  Context (m : bench_method) (ts : list R) (n : nlo R) (o : opt R) (Pt : List.Forall (fun t => 0 < t) ts) (Lt : length ts = (length vs - 1)%nat).
  Context (Hs : nl_set_up 5 inv solve rf exp 3 (bench_params m) vs 3 n) (Cn : nl_con n = limits v a) (Pn : nl_par n = bench_params m).
  Context (Tn : o_times (nl_opt n) = ts) (Eo : opt_solveLinear 5 solve (nl_opt n) = Ok o) (To : o_times o = ts).
  Lemma probe_inner : set_up 5 inv solve 3 vs 3 (nl_opt n) /\ computed 5 inv solve 3 vs 3 o /\ prepared 5 inv vs (nl_opt n) /\ o_dim (nl_opt n) = 3%nat /\ o_deriv (nl_opt n) = 3%Z /\ o_nseg (nl_opt n) = length ts.
  Proof.
    assert (Hsi := nl_set_up_inner 5 inv solve rf exp 3 _ vs 3 n Hs). destruct (set_up_prepared 5 inv solve 3 vs 3 (nl_opt n) (bench_wf vs Hb) Hsi) as (Pp & Ed & Er).
    split; [exact Hsi|]. split; [exists (nl_opt n), CallSolve; split; [exact Hsi|split; [exact I|exact Eo]]|]. split; [exact Pp|]. split; [exact Ed|]. split; [exact Er|].
    assert (Qn := pr_nseg _ _ _ _ Pp). lia.
  Qed.
  Lemma probe_time : m = NonlinearTimeOnly -> probed inv solve rf vs v a m n ts.
  Proof.
    intros Em. destruct probe_inner as (Hsi & Cs & Pp & Ed & Er & Qn). assert (Hwf := bench_wf vs Hb). assert (Hl : (2 <= length vs)%nat) by apply Hb.
    destruct (nl_set_up_setting 5 inv solve rf exp 3 _ vs 3 n Hwf Hs) as (_ & Hn & _).
    assert (E1 : opt_updateSegmentTimes 5 inv (nl_opt n) ts = Ok (nl_opt n)) by (rewrite <- Tn; apply (update_self 5 inv vs); exact Pp).
    destruct (finish_ok 5 inv solve rf 3 vs 3 (set_opt (set_info n info_new) o) (integral_cost (Z.to_nat (o_deriv o)) (o_dim o) (o_segments o))
      (nmul (nmul (total_time ts) (total_time ts)) (nofZ 500)) Hrf Hwf ltac:(lia) Hl Cs) as (n' & f & peak & F0 & F1 & F2 & _ & F4 & F5 & F6 & F7 & _).
    { cbn [set_opt set_info nl_con]. rewrite Cn. apply limits_ok; assumption. }
    cbn [set_opt set_info nl_opt nl_con nl_par] in F1, F2, F6. rewrite Cn in F2, F6. rewrite Pn in F6. cbn [bench_params np_soft np_weight] in F6.
    destruct (solve_prepared 5 inv solve vs _ _ Pp Eo) as (P2 & S2 & _). destruct (solve_same_problem 5 solve _ _ Eo) as (Sm & _). destruct (same_fields _ _ Sm) as (Yd & Yr & _).
    exists n', f. split; [|split; [rewrite F1; exact Cs|split; [congruence|exists peak; rewrite F1; split; [exact F2|]]]].
    - intros code.
      assert (E : exists n2, nl_optimize 5 inv solve rf exp (probe code) n = Ok (n2, code f) /\ nl_opt n2 = nl_opt n').
      { unfold nl_optimize. rewrite Pn. cbn [bench_params np_method]. rewrite Em. cbn [allocation]. unfold nl_optimizeTime. cbn [set_info nl_opt nl_par nl_nlopt].
        rewrite Hn, Tn, map_length, Lt. rewrite Em. cbn [bench_params allocation np_method]. rewrite Nat.eqb_refl. cbn [negb].
        unfold probe at 1. cbn [nlopt_drive]. unfold no_gradient at 1, nl_objectiveTime. cbn [set_info nl_opt nl_par].
        rewrite Qn, Nat.eqb_refl. cbn [negb]. rewrite E1. cbn [obind]. rewrite Eo. cbn [obind].
        rewrite (synced_cost 5 inv vs o ltac:(lia) P2 S2). cbn [obind]. rewrite Pn. cbn [bench_params np_method np_penalty]. rewrite Em. cbn [allocation].
        rewrite F0. cbn [obind fst snd nlopt_drive]. eexists. split; reflexivity. }
      destruct E as (n2 & E & O2). exists n2. destruct (setting_optimize 5 inv solve rf exp _ n n2 _ E) as (Sp & Sc & _).
      split; [exact E|]. split; [exact O2|]. split; congruence.
    - rewrite F7, F4, F5, F6, total_time_R, Yr, Er, Yd, Ed, Em. rnum. change (Z.to_nat 3) with 3%nat. rnum. ring.
  Qed.
  Lemma probe_all : m = NonlinearAll \/ m = NonlinearRichter -> probed inv solve rf vs v a m n ts.
  Proof.
    intros Em. destruct probe_inner as (Hsi & Cs & Pp & Ed & Er & Qn). assert (Hwf := bench_wf vs Hb). assert (Hl : (2 <= length vs)%nat) by apply Hb.
    destruct (nl_set_up_setting 5 inv solve rf exp 3 _ vs 3 n Hwf Hs) as (_ & Hn & _).
    destruct (problem_ok 5 inv solve vs (set_info n info_new) o ltac:(cbn; lia) Hl Pp Eo) as (b & w & Ep & _ & _ & _ & _ & _ & P' & _ & _ & Ed' & Lp).
    cbn [set_info nl_opt nl_par] in Ep, Lp, Ed'. rewrite Tn in Ep, Lp. set (x0 := pack ts (o_free o)) in *.
    assert (Ex : times_of (length vs - 1) x0 = ts) by (apply times_of_pack; exact Lt).
    assert (Lx : length x0 = (length vs - 1 + length (unconstrained 5 vs) * 3)%nat).
    { rewrite Lp. assert (Q := pr_nseg _ _ _ _ P'). rewrite (prepared_nfree 5 inv vs o P'). rewrite Ed', Ed. lia. }
    assert (So : set_up 5 inv solve 3 vs 3 o).
    { destruct Hsi as (pre & times & mid & o0 & o1 & H0 & H1 & HF & H2). exists pre, times, (mid ++ [CallSolve]), o0, o1.
      split; [exact H0|]. split; [exact H1|]. split; [apply Forall_app; split; [exact HF|repeat constructor]|]. rewrite run_app, H2. cbn [obind run_ocalls run_ocall]. rewrite Eo. reflexivity. }
    destruct (C67_objective_times_and_constraints 5 inv solve rf 3 vs 3 (set_opt (set_info n info_new) o) x0 Hrf Hwf ltac:(lia) Hl So) as (n' & f & peak & E & Er' & Et & Pk & _ & F4 & F5 & F6 & F7 & _).
    { cbn [set_opt set_info nl_con]. rewrite Cn. apply limits_ok; assumption. }
    { exact Lx. } { rewrite Ex. exact Pt. }
    rewrite Ex in Er', Et, F5. cbn [set_opt set_info nl_opt nl_con nl_par] in Er', Pk, F5, F6. rewrite Cn in Pk, F6. rewrite Pn in F5, F6. cbn [bench_params np_soft np_weight np_penalty np_method] in F5, F6.
    exists n', f. split; [|split; [|split; [exact Et|exists peak; split; [exact Pk|]]]].
    - intros code.
      assert (E' : exists n2, nl_optimize 5 inv solve rf exp (probe code) n = Ok (n2, code f) /\ nl_opt n2 = nl_opt n').
      { assert (Q : nl_optimizeAll 5 inv solve rf exp (probe code) (set_info n info_new) = Ok (n', code f)).
        { unfold nl_optimizeAll. rewrite Ep. cbn [obind set_info nl_nlopt]. rewrite Hn. rewrite map_length, Lx. cbn [bench_params np_method].
          replace (match allocation m with kSquaredTime | kRichterTime | kMellingerOuterLoop => (length vs - 1)%nat | _ => (length vs - 1 + length (unconstrained 5 vs) * 3)%nat end)
            with (length vs - 1 + length (unconstrained 5 vs) * 3)%nat by (destruct Em as [-> | ->]; reflexivity). rewrite Nat.eqb_refl. cbn [negb].
          unfold probe at 1. cbn [nlopt_drive]. unfold no_gradient at 1. fold (set_info n info_new). rewrite E. cbn [obind fst snd nlopt_drive]. reflexivity. }
        unfold nl_optimize. rewrite Pn. cbn [bench_params np_method]. destruct Em as [Em|Em]; rewrite Em; cbn [allocation]; rewrite Q; cbn [obind fst snd]; eexists; (split; reflexivity). }
      destruct E' as (n2 & E' & O2). exists n2. destruct (setting_optimize 5 inv solve rf exp _ n n2 _ E') as (Sp & Sc & _).
      split; [exact E'|]. split; [exact O2|]. split; congruence.
    - cbn [run_ocalls run_ocall] in Er'. destruct (opt_updateSegmentTimes 5 inv o ts) as [o1| | |] eqn:E1; cbn [obind] in Er'; try discriminate.
      match type of Er' with obind (opt_setFreeConstraints _ _ ?F) _ = _ => exists o1, (CallFree F) end. split; [|split; [exact I|]].
      + destruct So as (pre & times & mid & q0 & q1 & H0 & H1 & HF & H2). exists pre, times, (mid ++ [CallTimes ts]), q0, q1.
        split; [exact H0|]. split; [exact H1|]. split; [apply Forall_app; split; [exact HF|repeat constructor]|]. rewrite run_app, H2. cbn [obind run_ocalls run_ocall]. rewrite E1. reflexivity.
      + cbn [run_ocall]. destruct (opt_setFreeConstraints 5 o1 _); cbn [obind] in Er'; try discriminate. exact Er'.
    - rewrite F7, F4, F5, F6. rnum. change (Z.to_nat 3) with 3%nat. rnum. destruct Em as [-> | ->]; cbn [allocation]; ring.
  Qed.
  Lemma probe_mellinger : m = MellingerOuterLoop \/ m = MellingerTrapezoidalInit ->
    exists n2, nl_optimize 5 inv solve rf exp probe_gradient n = Ok (n2, kFailure) /\ nl_opt n2 = o.
  Proof.
    intros Em. destruct probe_inner as (Hsi & Cs & Pp & Ed & Er & Qn). assert (Hwf := bench_wf vs Hb). assert (Hl : (2 <= length vs)%nat) by apply Hb.
    destruct (nl_set_up_setting 5 inv solve rf exp 3 _ vs 3 n Hwf Hs) as (_ & Hn & _).
    assert (E1 : opt_updateSegmentTimes 5 inv (nl_opt n) ts = Ok (nl_opt n)) by (rewrite <- Tn; apply (update_self 5 inv vs); exact Pp).
    destruct (solve_prepared 5 inv solve vs _ _ Pp Eo) as (P2 & S2 & _). destruct (solve_same_problem 5 solve _ _ Eo) as (Sm & _). destruct (same_fields _ _ Sm) as (Yd & Yr & _).
    assert (Qo := pr_nseg _ _ _ _ P2).
    destruct (mellinger_ok 5 inv solve Hsol vs o P2 S2 ltac:(lia) ltac:(lia)) as (o' & J & g & Eg); [rewrite To; exact Pt|].
    destruct (mellinger_restores 5 inv solve Hsol vs (nl_opt n) ts o o' J g ltac:(lia) Pp ltac:(exists (nl_opt n); split; assumption) Eg) as (-> & _).
    unfold nl_optimize. rewrite Pn. cbn [bench_params np_method].
    assert (Ea : allocation m = kMellingerOuterLoop) by (destruct Em as [-> | ->]; reflexivity). rewrite Ea. unfold nl_optimizeMellinger. cbn [set_info nl_opt nl_par nl_nlopt].
    rewrite Hn, Tn, Lt. cbn [bench_params np_method]. rewrite Ea, Nat.eqb_refl. cbn [negb]. unfold probe_gradient. cbn [nlopt_drive].
    unfold nl_objectiveMellinger at 1. cbn [negb set_info nl_opt]. rewrite Qn, Nat.eqb_refl. cbn [negb]. rewrite E1. cbn [obind]. rewrite Eo. cbn [obind]. rewrite Eg. cbn [obind fst snd nlopt_drive].
    rnum. destruct (Reqb_spec dbl_max dbl_max) as [_|Hx]; [|contradiction]. cbn [obind fst snd]. eexists. split; reflexivity.
  Qed.
End Probes.

(** ** C90: the initial point and the objective of the gradient-free methods. *)
Theorem C90_initial_objective (inv : mat R -> mat R) (solve : mat R -> list R -> list R) (rf : root_oracle (T := R))
        (vs : list (vertex R)) (v a : R) (tr : trajectory R) (m : bench_method) :
  perfect_root_finder rf -> inverse_ok 5 inv -> (forall A b, length (solve A b) = length b) -> bench_vertices vs -> 0 < v -> 0 < a ->
  In m [NonlinearTimeOnly; NonlinearAll; NonlinearRichter] ->
  exists tr' c f, (forall code, run_method inv solve rf exp v a (probe code) m vs tr = Ok (code f, tr', c)) /\
    start_times v a m vs (map seg_time (tr_segments tr')) /\ passes vs tr' /\ has_cost v a (10 ^ 9) 2 tr' c /\
    has_cost v a (10 ^ 12) (match m with NonlinearRichter => 1 | _ => 2 end) tr' f.
Proof.
  intros Hrf Hinv Hsol Hb Hv Ha Hm. assert (Hm' : nonlinear m) by (unfold nonlinear; cbn [In] in *; tauto).
  destruct (run_nonlinear_start inv solve rf v a m vs Hsol Hb Hv Ha Hm') as (ts & n & o & St & Pt & Hs & Cn & Pn & Tn & Eo & To & _ & G).
  assert (Hwf := bench_wf vs Hb). assert (Hl : (2 <= length vs)%nat) by apply Hb. assert (Lt : length ts = (length vs - 1)%nat) by apply St.
  assert (Hsi := nl_set_up_inner 5 inv solve rf exp 3 _ vs 3 n Hs).
  destruct (nl_set_up_setting 5 inv solve rf exp 3 _ vs 3 n Hwf Hs) as (_ & Hn & _).
  assert (Cs : computed 5 inv solve 3 vs 3 o) by (exists (nl_opt n), CallSolve; split; [exact Hsi|split; [exact I|exact Eo]]).
  assert (K : probed inv solve rf vs v a m n ts).
  { cbn [In] in Hm. destruct Hm as [<-|[<-|[<-|[]]]]; [apply probe_time with o|apply probe_all with o|apply probe_all with o]; auto. }
  destruct K as (n' & f & K & Cm & Tm & peak & Pk & Ef).
  destruct (computed_passes inv solve vs Hinv Hb (nl_opt n') tr Cm) as (tr' & G' & P & S & M).
  destruct (K (fun _ => 0%Z)) as (n0' & E0 & O0 & C0 & P0).
  destruct (total_cost_R inv solve rf vs v a Hrf Hb Hv Ha n0' tr' ltac:(rewrite O0; exact Cm) C0 ltac:(rewrite P0; reflexivity) ltac:(rewrite P0; reflexivity) ltac:(rewrite O0; exact S) ltac:(rewrite O0; exact M)) as (n2 & c & E2 & C2).
  exists tr', c, f. split; [|split; [rewrite M, Tm; exact St|split; [exact P|split; [exact C2|]]]].
  - intros code. destruct (K code) as (n3 & E3 & O3 & C3 & P3). rewrite G, E3. cbn [obind fst snd]. unfold nl_getTrajectory. rewrite O3, G'. cbn [obind].
    destruct (total_cost_R inv solve rf vs v a Hrf Hb Hv Ha n3 tr' ltac:(rewrite O3; exact Cm) C3 ltac:(rewrite P3; reflexivity) ltac:(rewrite P3; reflexivity) ltac:(rewrite O3; exact S) ltac:(rewrite O3; exact M)) as (n4 & c4 & E4 & C4).
    rewrite E4. cbn [obind snd]. rewrite (has_cost_unique _ _ _ _ _ _ _ C4 C2). reflexivity.
  - apply (limits_cost v a _ _ _ _ _ _ Pk S). unfold duration. rewrite M, Tm. exact Ef.
Qed.
Print Assumptions C90_initial_objective.
Example C90_methods_example : perfect_root_finder perfect_rf /\ inverse_ok 5 (perfect_inv 5) /\ (forall A b, length (perfect_solve A b) = length b) /\
  bench_vertices far_vs /\ 0 < 1 /\ 0 < 1 / 100 /\ nonlinear NonlinearTimeOnly /\
  exists res tr' c, run_method (perfect_inv 5) perfect_solve perfect_rf exp 1 (1 / 100) (probe (fun _ => 4%Z)) NonlinearTimeOnly far_vs traj_new = Ok (res, tr', c).
Proof.
  split; [exact perfect_rf_ok|]. split; [apply perfect_inv_ok|]. split; [exact perfect_solve_length|]. split; [exact far_bench|]. split; [lra|]. split; [lra|]. split; [left; reflexivity|].
  destruct (C90_initial_objective (perfect_inv 5) perfect_solve perfect_rf far_vs 1 (1 / 100) traj_new NonlinearTimeOnly) as (tr' & c & f & E & _);
    [exact perfect_rf_ok|apply perfect_inv_ok|exact perfect_solve_length|exact far_bench|lra|lra|left; reflexivity|].
  exists 4%Z, tr', c. apply (E (fun _ => 4%Z)).
Qed.

(** ** C90: the initial point of the methods with a gradient. *)
Theorem C90_mellinger_start (inv : mat R -> mat R) (solve : mat R -> list R -> list R) (rf : root_oracle (T := R))
        (vs : list (vertex R)) (v a : R) (tr : trajectory R) (m : bench_method) :
  perfect_root_finder rf -> inverse_ok 5 inv -> (forall A b, length (solve A b) = length b) -> bench_vertices vs -> 0 < v -> 0 < a ->
  m = MellingerOuterLoop \/ m = MellingerTrapezoidalInit ->
  exists tr' c, run_method inv solve rf exp v a probe_gradient m vs tr = Ok (kFailure, tr', c) /\
    start_times v a m vs (map seg_time (tr_segments tr')) /\ passes vs tr' /\ has_cost v a (10 ^ 9) 2 tr' c.
Proof.
  intros Hrf Hinv Hsol Hb Hv Ha Hm. assert (Hm' : nonlinear m) by (unfold nonlinear; cbn [In]; intuition auto).
  destruct (run_nonlinear_start inv solve rf v a m vs Hsol Hb Hv Ha Hm') as (ts & n & o & St & Pt & Hs & Cn & Pn & Tn & Eo & To & _ & G).
  assert (Lt : length ts = (length vs - 1)%nat) by apply St.
  destruct (probe_mellinger inv solve rf vs Hsol Hb m ts n o Pt Lt Hs Pn Tn Eo To Hm) as (n2 & E2 & O2).
  assert (Hsi := nl_set_up_inner 5 inv solve rf exp 3 _ vs 3 n Hs).
  assert (Cs : computed 5 inv solve 3 vs 3 o) by (exists (nl_opt n), CallSolve; split; [exact Hsi|split; [exact I|exact Eo]]).
  destruct (setting_optimize 5 inv solve rf exp _ n n2 _ E2) as (Sp & Sc & _).
  destruct (computed_passes inv solve vs Hinv Hb o tr Cs) as (tr' & G' & P & S & M).
  destruct (total_cost_R inv solve rf vs v a Hrf Hb Hv Ha n2 tr' ltac:(rewrite O2; exact Cs) ltac:(rewrite Sc; exact Cn) ltac:(rewrite Sp, Pn; reflexivity) ltac:(rewrite Sp, Pn; reflexivity) ltac:(rewrite O2; exact S) ltac:(rewrite O2; exact M)) as (n3 & c & E3 & C3).
  exists tr', c. split; [rewrite G, E2; cbn [obind fst snd]; unfold nl_getTrajectory; rewrite O2, G'; cbn [obind]; rewrite E3; reflexivity|].
  split; [rewrite M, To; exact St|]. split; [exact P|exact C3].
Qed.
Print Assumptions C90_mellinger_start.
