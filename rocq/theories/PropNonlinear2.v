(** Properties C43, C44, C66 and C67: results of the optimisation runs. *)
From Coq Require Import ZArith Reals List Bool Lia Lra Arith.
From Coquelicot Require Import Coquelicot.
From Verif Require Import Num RSum SpecPoly ModelPolynomial ModelSegment ModelVertex ModelTrajectory ModelLinear
  SpecSegment SpecVertex SpecTrajectory SpecLinear ProofPolynomial ProofSegment ProofSegment2 ProofVertex ProofTrajectory3
  ProofRoots ProofMatrix ProofHermite ProofReorder ProofLinear ProofLinear2 ProofLinear3 ProofLinear4 ProofLinear5 ProofLinear6 ProofLinear7
  PropLinear PropLinear2
  ModelNonlinear SpecNonlinear ProofNonlinear ProofNonlinear2 ProofNonlinear3 ProofNonlinear4 ProofNonlinear5 ProofNonlinear6 ProofNonlinear7
  PropNonlinear.
Import ListNotations.
Open Scope R_scope.

(** ** C43: what is stored after optimize() *)
(** For every number type and every behaviour of nlopt: the stored problem is
    the one at the last point at which the objective was evaluated, not the
    point that nlopt reports. *)
Theorem C43_stored_is_last_evaluated_partial {T} {ops : NumOps T} (h : nat) (inv : mat T -> mat T) (solve : mat T -> list T -> list T)
        (rf : root_oracle (T := T)) (fexp : T -> T) (dim : nat) (p : nl_params T) (vs : list (vertex T)) (r : Z)
        (algorithm : nlopt_algorithm (T := T)) (n n' : nlo T) (res : Z) :
  (forall A b, length (solve A b) = length b) -> List.Forall vertex_wf vs -> (0 < dim)%nat ->
  nl_set_up h inv solve rf fexp dim p vs r n ->
  nl_optimize h inv solve rf fexp algorithm n = Ok (n', res) ->
  let nseg := (length vs - 1)%nat in
  let nfree := length (unconstrained h vs) in
  let fresh := set_info n info_new in
  let times := o_times (nl_opt n) in
  let lower := repeat (nlit 1 10) nseg in
  let upper := repeat dbl_max nseg in
  match np_method p with
  | kSquaredTime | kRichterTime =>
      let run := algorithm (map (nmul (np_step p)) times) lower upper times in
      let pts := points_asked h rf (no_gradient (nl_objectiveTime h inv solve rf fexp)) fresh run in
      (pts = [] -> nl_opt n' = nl_opt n) /\
      (pts <> [] -> run_ocalls h inv solve (nl_opt n) [CallTimes (last pts []); CallSolve] = Ok (nl_opt n') /\
                    o_times (nl_opt n') = last pts [])
  | kSquaredTimeAndConstraints | kRichterTimeAndConstraints =>
      exists o steps w x0, nl_problem h solve n = Ok (o, steps, w, x0) /\
      let run := algorithm steps (fst w) (snd w) x0 in
      let pts := points_asked h rf (no_gradient (nl_objectiveAll h inv rf fexp)) (set_opt fresh o) run in
      (length steps = (nseg + nfree * dim)%nat) /\
      (pts = [] -> nl_opt n' = o) /\
      (pts <> [] ->
         run_ocalls h inv solve o [CallTimes (times_of nseg (last pts []));
                                   CallFree (map (fun d => free_of nseg nfree d (last pts [])) (seq 0 dim))] = Ok (nl_opt n') /\
         o_times (nl_opt n') = times_of nseg (last pts []))
  | kMellingerOuterLoop =>
      let run := algorithm [] lower upper times in
      let pts := points_asked h rf (nl_objectiveMellinger h inv solve) fresh run in
      exists m, (m = n' \/ exists m', nl_scaleWithViolation h inv solve rf m = Ok m' /\ nl_opt m' = nl_opt n') /\
        (nl_opt m = nl_opt n' \/ nl_con m = nl_con n) /\
        (pts = [] -> nl_opt m = nl_opt n) /\
        (pts <> [] -> run_ocalls h inv solve (nl_opt n) [CallTimes (last pts []); CallSolve] = Ok (nl_opt m) /\
                      o_times (nl_opt m) = last pts [])
  | kUnknown => nl_opt n' = nl_opt n /\ res = kFailure
  end.
Proof.
  intros Hsol Hwf Hd Hs H nseg nfree fresh times lower upper.
  destruct (nl_set_up_setting h inv solve rf fexp dim p vs r n Hwf Hs) as (Ep & En & Hl).
  assert (Hi := nl_set_up_inner h inv solve rf fexp dim p vs r n Hs).
  destruct (set_up_any h inv solve dim vs r (nl_opt n) Hwf Hi) as (P & Ed & Er).
  assert (Hn : o_nseg (nl_opt n) = nseg) by (unfold nseg; assert (Q := pr_nseg _ _ _ _ P); lia).
  assert (Hf : o_nfree (nl_opt n) = nfree) by (apply (prepared_nfree h inv vs _ P)).
  assert (Ht : length times = nseg) by (unfold times; rewrite (pr_times _ _ _ _ P); exact Hn).
  assert (G : good_time h inv dim vs (nl_opt fresh)) by (split; assumption).
  assert (Etimes : forall pts o', left_by (step_time h inv solve) (nl_opt n) pts o' ->
    (pts = [] -> o' = nl_opt n) /\
    (pts <> [] -> run_ocalls h inv solve (nl_opt n) [CallTimes (last pts []); CallSolve] = Ok o' /\ o_times o' = last pts [])).
  { intros pts o' HL. destruct pts as [|x pts]; [split; [intros _; exact HL|congruence]|]. split; [discriminate|].
    intros _. cbn [left_by] in HL. destruct (step_time_same h inv solve _ _ _ HL) as (_ & Et). split; [|exact Et].
    destruct HL as (o1 & E1 & E2). cbn [run_ocalls run_ocall]. rewrite E1. cbn [obind]. rewrite E2. reflexivity. }
  unfold nl_optimize in H. fold fresh in H. rewrite Ep in H.
  assert (HT : (rr <-- nl_optimizeTime h inv solve rf fexp algorithm fresh ;;
                 (let i := nl_inf (fst rr) in Ok (set_info (fst rr) (mkNlInfo (ni_iterations i) (snd rr) (ni_trajectory i) (ni_time i)
                            (ni_soft i) (ni_maxima i)), snd rr))) = Ok (n', res) ->
    nl_nlopt n = Some nseg ->
    left_by (step_time h inv solve) (nl_opt n) (points_asked h rf (no_gradient (nl_objectiveTime h inv solve rf fexp)) fresh
       (algorithm (map (nmul (np_step p)) times) lower upper times)) (nl_opt n')).
  { intros H1 En'. unfold nl_optimizeTime in H1. cbn [fresh set_info nl_nlopt nl_opt nl_par] in H1. rewrite En' in H1. fold fresh in H1.
    rewrite map_length in H1. fold times in H1. rewrite Ht, Nat.eqb_refl in H1. cbn [negb] in H1. rewrite Ep in H1.
    change (@kTimeLowerBound T ops) with (@nlit T ops 1 10) in H1. fold lower upper in H1.
    destruct (nlopt_drive _ _ _ _ _) as [[m e]| | |] eqn:Edr in H1; cbn [obind] in H1; try discriminate. cbn [fst snd] in H1.
    destruct (drive_time h inv solve rf fexp Hsol dim vs _ _ _ _ Hd G Edr) as (_ & _ & _ & HL).
    assert (Eo : nl_opt n' = nl_opt m).
    { destruct e; cbn [obind fst snd] in H1; apply Ok_inj in H1; injection H1 as <- _; reflexivity. }
    rewrite Eo. exact HL. }
  assert (HA : (rr <-- nl_optimizeAll h inv solve rf fexp algorithm fresh ;;
                 (let i := nl_inf (fst rr) in Ok (set_info (fst rr) (mkNlInfo (ni_iterations i) (snd rr) (ni_trajectory i) (ni_time i)
                            (ni_soft i) (ni_maxima i)), snd rr))) = Ok (n', res) ->
    nl_nlopt n = Some (nseg + nfree * dim)%nat ->
    exists o steps w x0, nl_problem h solve n = Ok (o, steps, w, x0) /\
      let run := algorithm steps (fst w) (snd w) x0 in
      let pts := points_asked h rf (no_gradient (nl_objectiveAll h inv rf fexp)) (set_opt fresh o) run in
      (length steps = (nseg + nfree * dim)%nat) /\
      (pts = [] -> nl_opt n' = o) /\
      (pts <> [] ->
         run_ocalls h inv solve o [CallTimes (times_of nseg (last pts []));
                                   CallFree (map (fun d => free_of nseg nfree d (last pts [])) (seq 0 dim))] = Ok (nl_opt n') /\
         o_times (nl_opt n') = times_of nseg (last pts []))).
  { intros H1 En'. unfold nl_optimizeAll in H1. change (nl_problem h solve fresh) with (nl_problem h solve n) in H1.
    destruct (nl_problem h solve n) as [[[[o steps] w] x0]| | |] eqn:Epr; cbn [obind] in H1; try discriminate.
    exists o, steps, w, x0. split; [reflexivity|]. cbn zeta.
    assert (Eso : opt_solveLinear h solve (nl_opt n) = Ok o).
    { unfold nl_problem in Epr. destruct (opt_solveLinear h solve (nl_opt n)) as [o''| | |]; cbn [obind] in Epr; try discriminate.
      destruct (o_free o''); [discriminate|]. destruct (Nat.eqb _ 0); [discriminate|].
      destruct (endpoint_bounds _ _ _); cbn [obind] in Epr; try discriminate.
      destruct (widen_bounds _ _); cbn [obind] in Epr; try discriminate.
      do 3 (destruct (negb _); [discriminate|]). apply Ok_inj in Epr. injection Epr as -> _ _ _. reflexivity. }
    destruct (solve_prepared h inv solve vs (nl_opt n) o P Eso) as (P' & S' & Et').
    destruct (solve_same_problem h solve _ _ Eso) as (Sm & _).
    destruct (same_fields _ _ Sm) as (Y1 & _ & _ & _ & _ & _ & Y7 & _ & _ & Y10).
    assert (G' : good_time h inv dim vs (nl_opt (set_opt fresh o))) by (split; [exact P'|cbn; congruence]).
    assert (Hsteps : length steps = (nseg + nfree * dim)%nat).
    { unfold nl_problem in Epr. rewrite Eso in Epr. cbn [obind] in Epr.
      destruct (o_free o) as [|f0 fl] eqn:Efr; [discriminate|]. destruct (Nat.eqb _ 0); [discriminate|].
      destruct (endpoint_bounds _ _ _); cbn [obind] in Epr; try discriminate.
      destruct (widen_bounds _ _); cbn [obind] in Epr; try discriminate.
      do 3 (destruct (negb _); [discriminate|]). apply Ok_inj in Epr. injection Epr as <- _ _.
      rewrite map_length. assert (Hfl := synced_free h inv vs o P' S').
      rewrite <- Efr. rewrite (pack_length (o_nfree o)) by exact Hfl. fold times. rewrite Ht, (pr_freelen _ _ _ _ P'). congruence. }
    split; [exact Hsteps|].
    cbn [fresh set_info nl_nlopt] in H1. rewrite En', Hsteps, Nat.eqb_refl in H1. cbn [negb] in H1. fold fresh in H1.
    destruct (nlopt_drive _ _ _ _ _) as [[m e]| | |] eqn:Edr in H1; cbn [obind] in H1; try discriminate. cbn [fst snd] in H1.
    destruct (drive_all h inv rf fexp dim vs _ _ _ _ Hd G' Edr) as (_ & _ & _ & HL).
    assert (Eo : nl_opt n' = nl_opt m).
    { destruct e; cbn [obind fst snd] in H1; apply Ok_inj in H1; injection H1 as <- _; reflexivity. }
    rewrite Eo.
    assert (Eall : forall pts o', left_by (step_all h inv) o pts o' ->
      (pts = [] -> o' = o) /\
      (pts <> [] -> run_ocalls h inv solve o [CallTimes (times_of nseg (last pts []));
                      CallFree (map (fun d => free_of nseg nfree d (last pts [])) (seq 0 dim))] = Ok o' /\
                    o_times o' = times_of nseg (last pts []))).
    { clear HL. intros pts o' HL. destruct pts as [|x pts]; [split; [intros _; exact HL|congruence]|]. split; [discriminate|].
      intros _. cbn [left_by] in HL. destruct (step_all_same h inv _ _ _ HL) as (_ & E1 & E2).
      destruct HL as (Lx & o1 & F1 & F2). rewrite Y1, Y7, Y10, Hn, Hf, Ed in *.
      rewrite unpack_times_spec in E1, F1 by lia. rewrite unpack_free_spec in F2 by lia. split; [|exact E1].
      cbn [run_ocalls run_ocall]. rewrite F1. cbn [obind]. rewrite F2. reflexivity. }
    exact (Eall _ _ HL). }
  destruct (np_method p).
  - apply Etimes. apply HT; assumption.
  - apply Etimes. apply HT; assumption.
  - unfold nl_optimizeMellinger in H. cbn [fresh set_info nl_nlopt nl_opt nl_par] in H. rewrite En in H. fold fresh in H.
    fold times in H. rewrite Ht in H. fold nseg in H. rewrite Nat.eqb_refl in H. cbn [negb] in H.
    change (@kTimeLowerBound T ops) with (@nlit T ops 1 10) in H. fold lower upper in H.
    destruct (nlopt_drive _ _ _ _ _) as [[m e]| | |] eqn:Edr in H; cbn [obind] in H; try discriminate. cbn [fst snd] in H.
    destruct (drive_mellinger h inv solve rf Hsol dim vs _ _ _ _ Hd G Edr) as (St & _ & _ & HL).
    assert (Q := Etimes _ _ HL).
    assert (HS : forall w, (rr <-- (m0 <-- nl_scaleWithViolation h inv solve rf m;; Ok (m0, w));;
                 (let i := nl_inf (fst rr) in Ok (set_info (fst rr) (mkNlInfo (ni_iterations i) (snd rr) (ni_trajectory i) (ni_time i)
                            (ni_soft i) (ni_maxima i)), snd rr))) = Ok (n', res) ->
      exists m', nl_scaleWithViolation h inv solve rf m = Ok m' /\ nl_opt m' = nl_opt n').
    { intros w Hw. destruct (nl_scaleWithViolation h inv solve rf m) as [m0| | |]; cbn [obind] in Hw; try discriminate.
      apply Ok_inj in Hw. injection Hw as <- _. exists m0. split; reflexivity. }
    assert (Ec : nl_con m = nl_con n) by apply St.
    destruct e as [|x f w|x f].
    + cbn [obind fst snd] in H. apply Ok_inj in H. injection H as Hn' _.
      exists n'. split; [left; reflexivity|]. split; [left; reflexivity|].
      assert (Eo : nl_opt n' = nl_opt m) by (rewrite <- Hn'; reflexivity). rewrite Eo. exact Q.
    + exists m. split; [right; exact (HS w H)|]. split; [right; exact Ec|exact Q].
    + destruct (neqb f dbl_max).
      * cbn [obind fst snd] in H. apply Ok_inj in H. injection H as Hn' _.
        exists n'. split; [left; reflexivity|]. split; [left; reflexivity|].
        assert (Eo : nl_opt n' = nl_opt m) by (rewrite <- Hn'; reflexivity). rewrite Eo. exact Q.
      * exists m. split; [right; exact (HS _ H)|]. split; [right; exact Ec|exact Q].
  - apply HA; assumption.
  - apply HA; assumption.
  - cbn [obind fst snd] in H. apply Ok_inj in H. injection H as <- <-. split; reflexivity.
Qed.
Print Assumptions C43_stored_is_last_evaluated_partial.

Section Witness64.
  Local Existing Instance B64_ops.
  (** A root finder for the degenerate cases of the witnesses: it knows the roots
      of no polynomial but the zero polynomial (for which findRoots returns none). *)
  Definition rf64 (l : list b64) : bool * list (b64 * b64) := (forallb (fun c => neqb c n0) l, []).
  Definition exp64 (x : b64) : b64 := n1.   (* not called: no constraints *)
  (** nlopt evaluates the time 1, then 2, and reports the better of both. *)
  Definition two_points : nlopt_algorithm (T := b64) := fun _ _ _ _ =>
    NlObjective false [f64 1] (fun f1 _ => NlObjective false [f64 2] (fun f2 _ =>
      if nleb f1 f2 then NlReturn [f64 1] f1 4 else NlReturn [f64 2] f2 4)).
  Definition lp_par : nl_params b64 := mkNlParams (nlit 1 10) (f64 500) true (f64 100) kSquaredTime.
  Definition lp_start : outcome (nlo b64) := run_ncalls 1 recip div_solve rf64 exp64 (nl_new 1 lp_par) [].
  Definition lp_setup (n : nlo b64) : outcome (nlo b64) := nl_setupFromVertices 1 recip n fx_vs [f64 1] 0.
  Definition lp_optimize (n : nlo b64) : outcome (nlo b64 * Z) := nl_optimize 1 recip div_solve rf64 exp64 two_points n.
  Definition lp_drive (n : nlo b64) : outcome (nlo b64 * nlopt_end b64) :=
    nlopt_drive 1 rf64 (no_gradient (nl_objectiveTime 1 recip div_solve rf64 exp64)) (set_info n info_new) (two_points [] [] [] []).
  Definition lp_value (n : nlo b64) (t : b64) : outcome (nlo b64 * b64) := nl_objectiveTime 1 recip div_solve rf64 exp64 n false [t].
  Lemma lp_bool : on_ok (lp_setup (nl_new 1 lp_par)) (fun n => on_ok (lp_optimize n) (fun r => on_ok (lp_drive n) (fun d =>
    on_ok (lp_value n (f64 1)) (fun v1 => on_ok (lp_value n (f64 2)) (fun v2 =>
      match snd d with
      | EndReturn [x] f z => (z =? 4)%Z && neqb x (f64 1) && neqb f (snd v1) && nltb (snd v1) (snd v2) &&
                             (snd r =? 4)%Z && neqb (nth 0 (o_times (nl_opt (fst r))) (f64 0)) (f64 2)
      | _ => false
      end))))) = true.
  Proof. vm_compute. reflexivity. Qed.
End Witness64.

(** nlopt reports time 1 with the lower cost; the object keeps time 2. *)
Theorem C43_best_point_refuted : exists (n n' : nlo b64) (x f cost2 : b64) (m m1 m2 : nlo b64) (v1 : b64),
  @nl_set_up b64 B64_ops 1 recip div_solve rf64 exp64 1 lp_par fx_vs 0 n /\
  (* the run ends with a report of x and its cost *)
  lp_drive n = Ok (m, EndReturn [x] f 4) /\ lp_value n (f64 1) = Ok (m1, v1) /\ lp_value n (f64 2) = Ok (m2, cost2) /\
  @neqb b64 B64_ops x (f64 1) = true /\ @neqb b64 B64_ops f v1 = true /\ @nltb b64 B64_ops v1 cost2 = true /\
  lp_optimize n = Ok (n', 4%Z) /\ @neqb b64 B64_ops (nth 0 (o_times (nl_opt n')) (f64 0)) (f64 2) = true.
Proof.
  destruct (on_ok_true _ _ lp_bool) as (n & E0 & H0). destruct (on_ok_true _ _ H0) as ((n' & res) & E1 & H1).
  destruct (on_ok_true _ _ H1) as ((m & e) & E2 & H2). destruct (on_ok_true _ _ H2) as ((m1 & v1) & E3 & H3).
  destruct (on_ok_true _ _ H3) as ((m2 & v2) & E4 & H4). clear H0 H1 H2 H3. cbn [fst snd] in H4.
  destruct e as [|[|x [|]] f z|]; try discriminate.
  apply andb_true_iff in H4 as (H4 & Q5). apply andb_true_iff in H4 as (H4 & Q4). apply andb_true_iff in H4 as (H4 & Q3).
  apply andb_true_iff in H4 as (H4 & Q2). apply andb_true_iff in H4 as (Q0 & Q1). apply Z.eqb_eq in Q0. subst z.
  exists n, n', x, f, v2, m, m1, m2, v1. split.
  { exists [], [f64 1], [], (@nl_new b64 B64_ops 1 lp_par), n. split; [reflexivity|]. split; [exact E0|]. split; [constructor|reflexivity]. }
  split; [exact E2|]. split; [exact E3|]. split; [exact E4|]. split; [exact Q1|]. split; [exact Q2|]. split; [exact Q3|].
  split; [|exact Q5]. apply Z.eqb_eq in Q4. rewrite <- Q4. exact E1.
Qed.
Print Assumptions C43_best_point_refuted.
Example C43_example : exists (n n' : nlo b64), (forall A b, length (div_solve A b) = length b) /\ List.Forall vertex_wf fx_vs /\
  @nl_set_up b64 B64_ops 1 recip div_solve rf64 exp64 1 lp_par fx_vs 0 n /\
  @nl_optimize b64 B64_ops 1 recip div_solve rf64 exp64 two_points n = Ok (n', 4%Z).
Proof.
  destruct C43_best_point_refuted as (n & n' & x & f & c2 & m & m1 & m2 & v1 & S & _ & _ & _ & _ & _ & _ & E & _).
  exists n, n'. split; [intros A b; apply map_length|]. split; [repeat constructor|]. split; [exact S|exact E].
Qed.

(** ** C44: getCostAndGradientMellinger *)
(** On an object that has just been solved: one entry per segment, the cost of
    the object, and the object afterwards is exactly the one before.  For every
    number type. *)
Theorem C44_state_and_gradient {T} {ops : NumOps T} (h : nat) (inv : mat T -> mat T) (solve : mat T -> list T -> list T)
        (dim : nat) (vs : list (vertex T)) (r : Z) (o0 o o' : opt T) (J : T) (g : list T) :
  (forall A b, length (solve A b) = length b) -> List.Forall vertex_wf vs -> (0 < dim)%nat ->
  set_up h inv solve dim vs r o0 -> opt_solveLinear h solve o0 = Ok o ->
  mellinger_gradient h inv solve o = Ok (o', J, g) ->
  o' = o /\ length g = (length vs - 1)%nat /\ opt_computeCost h o = Ok J /\
  (length vs = 2%nat -> g = [n0]) /\
  ((2 < length vs)%nat -> forall i, (i < length vs - 1)%nat -> exists oi Ji,
     run_ocalls h inv solve o [CallTimes (clamped_times (o_times o) (length vs - 1) i); CallSolve] = Ok oi /\
     opt_computeCost h oi = Ok Ji /\ nth i g n0 = ndiv (nsub Ji J) (nlit 1 10)).
Proof.
  intros Hsol Hwf Hd Hs E H. destruct (set_up_any h inv solve dim vs r o0 Hwf Hs) as (P & Ed & _).
  assert (St : step_time h inv solve o0 (o_times o0) o).
  { exists o0. split; [exact (update_self h inv vs o0 P)|exact E]. }
  destruct (mellinger_restores h inv solve Hsol vs o0 _ o o' J g ltac:(lia) P St H) as (E1 & E2 & E3).
  destruct (solve_prepared h inv solve vs o0 o P E) as (P' & S' & _).
  assert (Hn : o_nseg o = (length vs - 1)%nat) by (assert (Q := pr_nseg _ _ _ _ P'); lia).
  split; [exact E1|]. rewrite Hn in E2. split; [exact E2|]. split; [exact E3|].
  assert (Ed' : o_dim o = dim) by (destruct (solve_same_problem h solve _ _ E) as (Sm & _); destruct (same_fields _ _ Sm) as (X & _); congruence).
  unfold mellinger_gradient in H. rewrite E3, Hn in H. cbn [obind] in H. split.
  - intros Hl. rewrite Hl in H. cbn [Nat.sub Nat.eqb] in H. apply Ok_inj in H. injection H as _ <-. reflexivity.
  - intros Hl i Hi. destruct (Nat.eqb_spec (length vs - 1) 1) as [|_]; [lia|].
    destruct (ofold _ _ _) as [st| | |] eqn:Ef; cbn [obind] in H; try discriminate.
    destruct (opt_updateSegmentTimes _ _ _ _) as [oa| | |]; cbn [obind] in H; try discriminate.
    destruct (opt_solveLinear h solve oa) as [ob| | |]; cbn [obind] in H; try discriminate. apply Ok_inj in H. injection H as _ <-.
    destruct (mellinger_entries h inv solve vs o (o_times o) (length vs - 1) J Hsol ltac:(lia) P' _ _ (o, []) _ P' (same_refl o) Ef)
      as (g' & Eg & Lg & Hg). cbn [snd app] in Eg. rewrite Eg.
    destruct (Hg i Hi) as (oi & Ji & (o1 & F1 & F2) & F3 & F4). exists oi, Ji. split; [|split; assumption].
    cbn [run_ocalls run_ocall]. cbn [Nat.add] in F1. rewrite F1. cbn [obind]. rewrite F2. reflexivity.
Qed.
Print Assumptions C44_state_and_gradient.

(** The times of the i-th problem: segment i gets 0.1 s, taken evenly from the
    others, so the total is kept; then each is raised to at least 0.1 s. *)
Theorem C44_perturbed_times (times : list R) (i : nat) : (2 <= length times)%nat -> (i < length times)%nat ->
  exists p, clamped_times times (length times) i = map (Rmax (1 / 10)) p /\
    length p = length times /\ lsum p = lsum times /\
    nth i p 0 = nth i times 0 + 1 / 10 /\
    (forall j, (j < length times)%nat -> j <> i ->
       nth j p 0 = nth j times 0 - 1 / 10 / INR (length times - 1)).
Proof.
  intros Hl Hi. exists (perturbed_times times (length times) i). split.
  { unfold clamped_times. apply map_ext. intros x. rewrite kTimeLowerBound_R. unfold nmax. rnum.
    destruct (Rltb_spec (1 / 10) x); [rewrite Rmax_right; lra|rewrite Rmax_left; lra]. }
  split; [unfold perturbed_times; rewrite map_length, seq_length; reflexivity|].
  split; [apply perturbed_sum; assumption|]. unfold perturbed_times.
  change (@n0 R R_ops) with 0. split.
  - rewrite nth_map_seq by exact Hi. cbn [Nat.add]. rewrite Nat.eqb_refl. unfold nlit. rnum. reflexivity.
  - intros j Hj Hne. rewrite nth_map_seq by exact Hj. cbn [Nat.add]. rewrite (proj2 (Nat.eqb_neq j i) Hne). unfold nlit. rnum.
    rewrite minus_INR by lia. rewrite <- INR_IZR_INZ. reflexivity.
Qed.
Print Assumptions C44_perturbed_times.
Example C44_perturbed_example : (2 <= length [1; 2; 3])%nat /\ (1 < length [1; 2; 3])%nat.
Proof. cbn. lia. Qed.
(** Clamping then changes the total. *)
Theorem C44_clamped_total_refuted : exists (times : list R) (i : nat),
  (2 <= length times)%nat /\ (i < length times)%nat /\ List.Forall (fun t => 1 / 10 <= t) times /\
  lsum (clamped_times times (length times) i) <> lsum times.
Proof.
  exists [1 / 10; 1], 1%nat. split; [cbn; lia|]. split; [cbn; lia|]. split; [repeat constructor; lra|].
  destruct (C44_perturbed_times [1 / 10; 1] 1 ltac:(cbn; lia) ltac:(cbn; lia)) as (p & -> & Lp & _ & E1 & E0).
  specialize (E0 0%nat ltac:(cbn; lia) ltac:(lia)). destruct p as [|a [|b [|]]]; try discriminate.
  cbn [nth length Nat.sub INR] in E0, E1. cbn [map lsum]. rewrite E0, E1.
  rewrite Rmax_left by lra. rewrite Rmax_right by lra. lra.
Qed.
Print Assumptions C44_clamped_total_refuted.


(** With positive times and a least-squares solver returning vectors of the right
    size the gradient is computed. *)
Theorem C44_gradient_succeeds (h : nat) (inv : mat R -> mat R) (solve : mat R -> list R -> list R)
        (dim : nat) (vs : list (vertex R)) (r : Z) (o0 o : opt R) :
  (forall A b, length (solve A b) = length b) -> List.Forall vertex_wf vs -> (0 < dim)%nat -> (2 <= length vs)%nat ->
  set_up h inv solve dim vs r o0 -> opt_solveLinear h solve o0 = Ok o ->
  exists J g, mellinger_gradient h inv solve o = Ok (o, J, g).
Proof.
  intros Hsol Hwf Hd Hl Hs E.
  destruct (computed_prepared h inv solve dim vs r o0 CallSolve o Hwf Hs I E) as (P & S & Ed & Er).
  assert (Hn := pr_nseg _ _ _ _ P). assert (Ht := prepared_times_pos h inv vs o P).
  destruct (mellinger_ok h inv solve Hsol vs o P S ltac:(lia) ltac:(lia) Ht) as (o' & J & g & Em).
  exists J, g. destruct (C44_state_and_gradient h inv solve dim vs r o0 o o' J g Hsol Hwf Hd Hs E Em) as (-> & _). exact Em.
Qed.
Print Assumptions C44_gradient_succeeds.
Example C44_example : exists o0 o J g, (forall A b, length (perfect_solve A b) = length b) /\ List.Forall vertex_wf exl_vs /\
  set_up 2 (perfect_inv 2) perfect_solve 1 exl_vs 1 o0 /\ opt_solveLinear 2 perfect_solve o0 = Ok o /\
  mellinger_gradient 2 (perfect_inv 2) perfect_solve o = Ok (o, J, g) /\ (2 < length exl_vs)%nat.
Proof.
  destruct exl_solved as (o1 & o2 & S & H & T1 & T2).
  destruct (C44_gradient_succeeds 2 (perfect_inv 2) perfect_solve 1 exl_vs 1 o1 o2 perfect_solve_length exl_wf' ltac:(lia) ltac:(cbn; lia) S H) as (J & g & E).
  exists o1, o2, J, g. split; [exact perfect_solve_length|]. split; [exact exl_wf'|]. split; [exact S|]. split; [exact H|]. split; [exact E|cbn; lia].
Qed.
