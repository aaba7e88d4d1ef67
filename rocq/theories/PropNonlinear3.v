(** Properties C66 and C67: what a run leaves behind, and the value of the
    objective functions. *)
From Coq Require Import ZArith Reals List Bool Lia Lra Arith.
From Coquelicot Require Import Coquelicot.
From Verif Require Import Num RSum SpecPoly ModelPolynomial ModelSegment ModelVertex ModelTrajectory ModelLinear
  SpecSegment SpecVertex SpecTrajectory SpecLinear ProofPolynomial ProofSegment ProofSegment2 ProofVertex ProofTrajectory3
  ProofRoots ProofMatrix ProofHermite ProofReorder ProofLinear ProofLinear2 ProofLinear3 ProofLinear4 ProofLinear5 ProofLinear6 ProofLinear7
  PropLinear PropLinear2
  ModelNonlinear SpecNonlinear ProofNonlinear ProofNonlinear2 ProofNonlinear3 ProofNonlinear4 ProofNonlinear5 ProofNonlinear6 ProofNonlinear7
  PropNonlinear.
Import ListNotations.
Open Scope R_scope.

(** ** C67: the value of the objective functions *)
(** Sum of the costs of the soft constraints of segs, for the given peaks. *)
Definition soft_total (con : list (Z * R)) (weight cap : R) (peak : nat -> R) : R :=
  rsum (length con) (fun i => soft_cost weight cap (peak i) (snd (nth i con (0%Z, 0)))).
Definition peaks_of (dim : nat) (con : list (Z * R)) (segs : list (segment R)) (peak : nat -> R) : Prop :=
  forall i, (i < length con)%nat -> is_peak dim (Z.to_nat (fst (nth i con (0%Z, 0)))) segs (peak i).

Lemma total_time_R (x : list R) : total_time x = lsum x.
Proof.
  unfold total_time. change (@n0 R R_ops) with 0.
  assert (G : forall l a, fold_left (@nadd R R_ops) l a = a + lsum l).
  { induction l as [|y l IH]; intros a; cbn [fold_left lsum]; [lra|]. rewrite IH. rnum. lra. }
  rewrite G. lra.
Qed.
Lemma soft_info {T} {ops : NumOps T} (h : nat) (rf : root_oracle (T := T)) (fexp : T -> T) (w mc : T) :
  forall con st st', ofold (soft_step h rf fexp w mc) con st = Ok st' ->
  ni_iterations (nl_inf (fst st')) = ni_iterations (nl_inf (fst st)) /\
  forall d, map_find (ni_maxima (nl_inf (fst st'))) d =
    (if existsb (fun c => (fst c =? d)%Z) con
     then match opt_maximumOfMagnitude h rf (nl_opt (fst st)) d with Ok (e, _) => Some e | _ => None end
     else map_find (ni_maxima (nl_inf (fst st))) d).
Proof.
  induction con as [|c con IH]; intros st st' H; cbn [ofold] in H.
  - apply Ok_inj in H. subst st'. split; reflexivity.
  - destruct (soft_step h rf fexp w mc st c) as [s1| | |] eqn:E; cbn [obind] in H; try discriminate.
    unfold soft_step, nl_magnitudeConstraint in E.
    destruct (opt_maximumOfMagnitude h rf (nl_opt (fst st)) (fst c)) as [(e & es)| | |] eqn:Ee; cbn [obind] in E; try discriminate.
    apply Ok_inj in E. destruct (IH s1 st' H) as (A & B). subst s1.
    cbn [fst snd set_info nl_inf nl_opt ni_iterations ni_maxima] in A, B. split; [exact A|]. intros d. rewrite (B d). cbn [existsb].
    destruct (Z.eqb_spec (fst c) d) as [<-|Hne]; cbn [orb].
    + rewrite map_find_set. destruct (Z.eq_dec (fst c) (fst c)) as [_|]; [|congruence]. rewrite Ee. destruct (existsb _ con); reflexivity.
    + destruct (existsb _ con); [reflexivity|]. rewrite map_find_set. destruct (Z.eq_dec d (fst c)); congruence.
Qed.
(** Every constrained order has its peak in the information record. *)
Definition maxima_recorded (dim : nat) (con : list (Z * R)) (segs : list (segment R)) (i : nl_info R) : Prop :=
  forall c, In c con -> exists e, map_find (ni_maxima i) (fst c) = Some e /\ is_peak dim (Z.to_nat (fst c)) segs (ext_value e).
Lemma finish_ok (h : nat) (inv : mat R -> mat R) (solve : mat R -> list R -> list R)
        (rf : list R -> bool * list (R * R)) (dim : nat) (vs : list (vertex R)) (r : Z) (n : nlo R) (c ct : R) :
  perfect_root_finder rf -> List.Forall vertex_wf vs -> (0 < dim)%nat -> (2 <= length vs)%nat ->
  computed h inv solve dim vs r (nl_opt n) ->
  List.Forall (fun c => (0 <= fst c < Z.of_nat (2 * h - 1))%Z /\ 0 < snd c) (nl_con n) ->
  exists n' v peak, nl_finishObjective h rf exp n c ct = Ok (n', v) /\ nl_opt n' = nl_opt n /\
    peaks_of dim (nl_con n) (o_segments (nl_opt n)) peak /\
    (np_soft (nl_par n) = true -> maxima_recorded dim (nl_con n) (o_segments (nl_opt n)) (nl_inf n')) /\
    ni_trajectory (nl_inf n') = c /\ ni_time (nl_inf n') = ct /\
    ni_soft (nl_inf n') = (if np_soft (nl_par n) then soft_total (nl_con n) (np_weight (nl_par n)) (10 ^ 12) peak else 0) /\
    v = ni_trajectory (nl_inf n') + ni_time (nl_inf n') + ni_soft (nl_inf n') /\
    ni_iterations (nl_inf n') = S (ni_iterations (nl_inf n)).
Proof.
  intros Hrf Hwf Hd Hl Hc HF.
  destruct (C42_soft_constraint_cost h inv solve rf dim vs r n (np_weight (nl_par n)) (10 ^ 12) Hrf Hwf Hd Hl Hc HF ltac:(lra))
    as (n' & cost & peak & E & Eo & Pk & Ec & _).
  assert (Ek : @kMaxSoftCost R R_ops = 10 ^ 12).
  { unfold kMaxSoftCost. rnum. change (IZR 1000000000000 = 10 ^ 12). lra. }
  unfold nl_finishObjective. destruct (np_soft (nl_par n)) eqn:Es.
  - rewrite Ek, E. cbn [obind fst snd]. eexists _, _, peak. split; [reflexivity|]. cbn [set_info nl_opt nl_inf ni_trajectory ni_time ni_soft ni_iterations ni_maxima].
    destruct (soft_info h rf exp _ _ (nl_con n) (n, 0) _ E) as (Ei & Em). cbn [fst] in Ei, Em.
    split; [exact Eo|]. split; [exact Pk|]. split.
    { intros _ c0 Hin. unfold maxima_recorded. cbn [ni_maxima].
      assert (Hf := proj1 (List.Forall_forall _ _) HF _ Hin). cbn beta in Hf.
      destruct (computed_peak h inv solve rf dim (Z.to_nat (fst c0)) vs r _ Hrf ltac:(lia) Hwf Hd Hl Hc) as (e & es & Ee & Pe).
      rewrite Z2Nat.id in Ee by lia. exists e. split; [|exact Pe]. rewrite Em.
      assert (X : existsb (fun c => (fst c =? fst c0)%Z) (nl_con n) = true).
      { apply existsb_exists. exists c0. split; [exact Hin|]. apply Z.eqb_refl. }
      rewrite X, Ee. reflexivity. }
    split; [reflexivity|]. split; [reflexivity|]. split; [exact Ec|]. split; [rnum; lra|]. f_equal. exact Ei.
  - cbn [obind fst snd]. eexists _, _, peak. split; [reflexivity|]. cbn [set_info nl_opt nl_inf ni_trajectory ni_time ni_soft ni_iterations].
    split; [reflexivity|]. split; [exact Pk|]. split; [discriminate|]. change (@n0 R R_ops) with 0. repeat split; rnum; lra.
Qed.

Lemma computed_then_times (h : nat) (inv : mat R -> mat R) (solve : mat R -> list R -> list R)
      (dim : nat) (vs : list (vertex R)) (r : Z) (o : opt R) x o1 :
  computed h inv solve dim vs r o -> opt_updateSegmentTimes h inv o x = Ok o1 -> set_up h inv solve dim vs r o1.
Proof.
  intros (o0 & c & Hs & Hc & Hr) E. apply (by_set_up h inv solve any_call dim vs r o0 o1 Hs). right. exists [c], (CallTimes x).
  split; [constructor; [exact (computes_no_setup c Hc)|constructor]|]. split; [exact I|]. split; [exact I|].
  cbn [app run_ocalls]. rewrite Hr. cbn [obind run_ocall]. rewrite E. reflexivity.
Qed.
(** objectiveFunctionTime at positive times x: the linear problem is solved for x
    and the value is the integral cost of the solution, the time cost and the
    costs of the soft constraints, each of them recorded. *)
Theorem C67_objective_time (h : nat) (inv : mat R -> mat R) (solve : mat R -> list R -> list R)
        (rf : list R -> bool * list (R * R)) (dim : nat) (vs : list (vertex R)) (r : Z) (n : nlo R) (x : list R) :
  perfect_root_finder rf -> (forall A b, length (solve A b) = length b) ->
  List.Forall vertex_wf vs -> (0 < dim)%nat -> (2 <= length vs)%nat ->
  computed h inv solve dim vs r (nl_opt n) ->
  List.Forall (fun c => (0 <= fst c < Z.of_nat (2 * h - 1))%Z /\ 0 < snd c) (nl_con n) ->
  length x = (length vs - 1)%nat -> List.Forall (fun t => 0 < t) x ->
  exists n' v peak, nl_objectiveTime h inv solve rf exp n false x = Ok (n', v) /\
    run_ocalls h inv solve (nl_opt n) [CallTimes x; CallSolve] = Ok (nl_opt n') /\ o_times (nl_opt n') = x /\
    peaks_of dim (nl_con n) (o_segments (nl_opt n')) peak /\
    (np_soft (nl_par n) = true -> maxima_recorded dim (nl_con n) (o_segments (nl_opt n')) (nl_inf n')) /\
    ni_trajectory (nl_inf n') = integral_cost (Z.to_nat r) dim (o_segments (nl_opt n')) /\
    ni_time (nl_inf n') = np_penalty (nl_par n) * lsum x ^ (match np_method (nl_par n) with kRichterTime => 1 | _ => 2 end) /\
    ni_soft (nl_inf n') = (if np_soft (nl_par n) then soft_total (nl_con n) (np_weight (nl_par n)) (10 ^ 12) peak else 0) /\
    v = ni_trajectory (nl_inf n') + ni_time (nl_inf n') + ni_soft (nl_inf n') /\
    ni_iterations (nl_inf n') = S (ni_iterations (nl_inf n)).
Proof.
  intros Hrf Hsol Hwf Hd Hl (o0 & c & Hs & Hc & Hr) HF Hx Hp.
  destruct (computed_prepared h inv solve dim vs r o0 c _ Hwf Hs Hc Hr) as (P & S & Ed & Er).
  assert (Hn := pr_nseg _ _ _ _ P).
  destruct (step_time_ok h inv solve Hsol vs (nl_opt n) x P (proj1 S) ltac:(lia) ltac:(lia) Hp) as (o2 & o1 & E1 & E2).
  destruct (times_prepared h inv vs _ _ o1 P E1) as (P1 & T1 & _). destruct (solve_prepared h inv solve vs o1 o2 P1 E2) as (P2 & S2 & T2).
  destruct (step_time_same h inv solve (nl_opt n) x o2 (ex_intro _ o1 (conj E1 E2))) as (Sm & _).
  destruct (same_fields _ _ Sm) as (Yd & Yr & _).
  assert (St : set_up h inv solve dim vs r o1).
  { apply (computed_then_times h inv solve dim vs r (nl_opt n) x); [|exact E1]. exists o0, c. auto. }
  assert (Cm : computed h inv solve dim vs r o2) by (exists o1, CallSolve; split; [exact St|split; [exact I|exact E2]]).
  unfold nl_objectiveTime. replace (Nat.eqb (length x) (o_nseg (nl_opt n))) with true by (symmetry; apply Nat.eqb_eq; lia). cbn [negb].
  rewrite E1. cbn [obind]. rewrite E2. cbn [obind]. rewrite (synced_cost h inv vs o2 ltac:(lia) P2 S2). cbn [obind].
  destruct (finish_ok h inv solve rf dim vs r (set_opt n o2) (integral_cost (Z.to_nat (o_deriv o2)) (o_dim o2) (o_segments o2))
     (match np_method (nl_par n) with kRichterTime => nmul (total_time x) (np_penalty (nl_par n)) | _ => nmul (nmul (total_time x) (total_time x)) (np_penalty (nl_par n)) end)
     Hrf Hwf Hd Hl Cm HF)
    as (n' & v & peak & F0 & F1 & F2 & F3 & F4 & F5 & F6 & F7 & F8).
  exists n', v, peak. split; [exact F0|]. cbn [set_opt nl_opt nl_par nl_con nl_inf] in *. rewrite F1.
  split; [cbn [run_ocalls run_ocall]; rewrite E1; cbn [obind]; rewrite E2; reflexivity|].
  split; [congruence|]. split; [exact F2|]. split; [exact F3|]. split; [rewrite F4; congruence|].
  split; [rewrite F5, total_time_R; destruct (np_method (nl_par n)); rnum; cbn [pow]; lra|].
  split; [exact F6|]. split; [exact F7|exact F8].
Qed.
Print Assumptions C67_objective_time.

(** objectiveFunctionTimeAndConstraints at a vector whose times are positive. *)
Theorem C67_objective_times_and_constraints (h : nat) (inv : mat R -> mat R) (solve : mat R -> list R -> list R)
        (rf : list R -> bool * list (R * R)) (dim : nat) (vs : list (vertex R)) (r : Z) (n : nlo R) (x : list R) :
  perfect_root_finder rf ->
  List.Forall vertex_wf vs -> (0 < dim)%nat -> (2 <= length vs)%nat ->
  set_up h inv solve dim vs r (nl_opt n) ->
  List.Forall (fun c => (0 <= fst c < Z.of_nat (2 * h - 1))%Z /\ 0 < snd c) (nl_con n) ->
  let nseg := (length vs - 1)%nat in
  let nfree := length (unconstrained h vs) in
  length x = (nseg + nfree * dim)%nat -> List.Forall (fun t => 0 < t) (times_of nseg x) ->
  exists n' v peak, nl_objectiveAll h inv rf exp n false x = Ok (n', v) /\
    run_ocalls h inv solve (nl_opt n)
      [CallTimes (times_of nseg x); CallFree (map (fun d => free_of nseg nfree d x) (seq 0 dim))] = Ok (nl_opt n') /\
    o_times (nl_opt n') = times_of nseg x /\
    peaks_of dim (nl_con n) (o_segments (nl_opt n')) peak /\
    (np_soft (nl_par n) = true -> maxima_recorded dim (nl_con n) (o_segments (nl_opt n')) (nl_inf n')) /\
    ni_trajectory (nl_inf n') = integral_cost (Z.to_nat r) dim (o_segments (nl_opt n')) /\
    ni_time (nl_inf n') = np_penalty (nl_par n) * lsum (times_of nseg x) ^
      (match np_method (nl_par n) with kRichterTimeAndConstraints => 1 | _ => 2 end) /\
    ni_soft (nl_inf n') = (if np_soft (nl_par n) then soft_total (nl_con n) (np_weight (nl_par n)) (10 ^ 12) peak else 0) /\
    v = ni_trajectory (nl_inf n') + ni_time (nl_inf n') + ni_soft (nl_inf n') /\
    ni_iterations (nl_inf n') = S (ni_iterations (nl_inf n)).
Proof.
  intros Hrf Hwf Hd Hl Hs HF nseg nfree Hx Hp.
  destruct (set_up_prepared h inv solve dim vs r (nl_opt n) Hwf Hs) as (P & Ed & Er).
  assert (Hn : o_nseg (nl_opt n) = nseg) by (assert (Q := pr_nseg _ _ _ _ P); unfold nseg; lia).
  assert (Hf : o_nfree (nl_opt n) = nfree) by (apply (prepared_nfree h inv vs); exact P).
  destruct (step_all_ok h inv vs (nl_opt n) x P ltac:(unfold nseg in Hn; lia) ltac:(rewrite Hn, Hf, Ed; exact Hx) ltac:(rewrite Hn; exact Hp))
    as (o2 & Hlen & o1 & E1 & E2).
  destruct (times_prepared h inv vs _ _ o1 P E1) as (P1 & T1 & D1 & _ & R1).
  destruct (setFree_prepared h inv vs o1 _ o2 P1 E2) as (P2 & S2 & T2 & _).
  assert (Et : unpack_times (o_nseg (nl_opt n)) x = times_of nseg x) by (rewrite Hn; apply unpack_times_spec; lia).
  assert (Ef : unpack_free (o_nseg (nl_opt n)) (o_nfree (nl_opt n)) (o_dim (nl_opt n)) x = map (fun d => free_of nseg nfree d x) (seq 0 dim))
    by (rewrite Hn, Hf, Ed; apply unpack_free_spec; lia).
  unfold nl_objectiveAll. rewrite (proj2 (Nat.eqb_eq _ _) Hlen). cbn [negb]. rewrite Et, Ef in *. rewrite E1. cbn [obind].
  rewrite E2. cbn [obind].
  assert (St : set_up h inv solve dim vs r o1).
  { apply (by_set_up h inv solve any_call dim vs r (nl_opt n) o1 Hs). right. exists [], (CallTimes (times_of nseg x)).
    split; [constructor|]. split; [exact I|]. split; [exact I|]. cbn [app run_ocalls run_ocall]. rewrite E1. reflexivity. }
  assert (Cm : computed h inv solve dim vs r o2).
  { exists o1, (CallFree (map (fun d => free_of nseg nfree d x) (seq 0 dim))). split; [exact St|split; [exact I|exact E2]]. }
  destruct (computed_prepared h inv solve dim vs r o1 (CallFree (map (fun d => free_of nseg nfree d x) (seq 0 dim))) o2 Hwf St I E2) as (_ & _ & Ed2 & Er2).
  rewrite (synced_cost h inv vs o2 ltac:(lia) P2 S2). cbn [obind].
  destruct (finish_ok h inv solve rf dim vs r (set_opt n o2) (integral_cost (Z.to_nat (o_deriv o2)) (o_dim o2) (o_segments o2))
     (match np_method (nl_par n) with kRichterTimeAndConstraints => nmul (total_time (times_of nseg x)) (np_penalty (nl_par n))
      | _ => nmul (nmul (total_time (times_of nseg x)) (total_time (times_of nseg x))) (np_penalty (nl_par n)) end)
     Hrf Hwf Hd Hl Cm HF)
    as (n' & v & peak & F0 & F1 & F2 & F3 & F4 & F5 & F6 & F7 & F8).
  exists n', v, peak. split; [exact F0|]. cbn [set_opt nl_opt nl_par nl_con nl_inf] in *. rewrite F1.
  split; [cbn [run_ocalls run_ocall]; rewrite E1; cbn [obind]; rewrite E2; reflexivity|].
  split; [congruence|]. split; [exact F2|]. split; [exact F3|]. split; [rewrite F4, Ed2, Er2; reflexivity|].
  split; [rewrite F5, total_time_R; destruct (np_method (nl_par n)); rnum; cbn [pow]; lra|].
  split; [exact F6|]. split; [exact F7|exact F8].
Qed.
Print Assumptions C67_objective_times_and_constraints.

(** getTotalCostWithSoftConstraints: always the quadratic time cost, always the
    soft constraints, with a smaller cap. *)
Theorem C67_total_cost (h : nat) (inv : mat R -> mat R) (solve : mat R -> list R -> list R)
        (rf : list R -> bool * list (R * R)) (dim : nat) (vs : list (vertex R)) (r : Z) (n : nlo R) :
  perfect_root_finder rf -> List.Forall vertex_wf vs -> (0 < dim)%nat -> (2 <= length vs)%nat ->
  computed h inv solve dim vs r (nl_opt n) ->
  List.Forall (fun c => (0 <= fst c < Z.of_nat (2 * h - 1))%Z /\ 0 < snd c) (nl_con n) ->
  exists n' v peak, nl_getTotalCost h rf exp n = Ok (n', v) /\ nl_opt n' = nl_opt n /\
    peaks_of dim (nl_con n) (o_segments (nl_opt n)) peak /\
    v = integral_cost (Z.to_nat r) dim (o_segments (nl_opt n)) + np_penalty (nl_par n) * lsum (o_times (nl_opt n)) ^ 2
        + soft_total (nl_con n) (np_weight (nl_par n)) (10 ^ 9) peak.
Proof.
  intros Hrf Hwf Hd Hl Hc HF.
  destruct (C42_soft_constraint_cost h inv solve rf dim vs r n (np_weight (nl_par n)) (10 ^ 9) Hrf Hwf Hd Hl Hc HF ltac:(lra))
    as (n' & cost & peak & E & Eo & Pk & Ec & _).
  destruct Hc as (o0 & c & Hs & Hc & Hr). destruct (computed_prepared h inv solve dim vs r o0 c _ Hwf Hs Hc Hr) as (P & S & Ed & Er).
  unfold nl_getTotalCost. rewrite (synced_cost h inv vs (nl_opt n) ltac:(lia) P S), Ed, Er. cbn [obind].
  assert (Ek : @nofZ R R_ops (10 ^ 9) = 10 ^ 9) by (rnum; change (IZR 1000000000 = 10 ^ 9); lra).
  rewrite Ek, E. cbn [obind fst snd]. eexists _, _, peak. split; [reflexivity|]. split; [exact Eo|]. split; [exact Pk|].
  rewrite total_time_R. unfold soft_total. rewrite <- Ec. rnum. ring.
Qed.
Print Assumptions C67_total_cost.

(** It is the value of the objective just evaluated with the squared-time methods
    and soft constraints, as long as no constraint costs more than 1e9. *)
Theorem C67_total_cost_is_objective (h : nat) (inv : mat R -> mat R) (solve : mat R -> list R -> list R)
        (rf : list R -> bool * list (R * R)) (dim : nat) (vs : list (vertex R)) (r : Z) (n n' : nlo R) (x : list R) (v : R) :
  perfect_root_finder rf ->
  List.Forall vertex_wf vs -> (0 < dim)%nat -> (2 <= length vs)%nat ->
  set_up h inv solve dim vs r (nl_opt n) -> List.Forall (fun c => (0 <= fst c < Z.of_nat (2 * h - 1))%Z /\ 0 < snd c) (nl_con n) ->
  np_method (nl_par n) = kSquaredTimeAndConstraints -> np_soft (nl_par n) = true ->
  let nseg := (length vs - 1)%nat in
  length x = (nseg + length (unconstrained h vs) * dim)%nat -> List.Forall (fun t => 0 < t) (times_of nseg x) ->
  nl_objectiveAll h inv rf exp n false x = Ok (n', v) ->
  (forall d l V, In (d, l) (nl_con n) -> is_peak dim (Z.to_nat d) (o_segments (nl_opt n')) V ->
     exp (np_weight (nl_par n) * ((V - l) / l)) <= 10 ^ 9) ->
  exists n2, nl_getTotalCost h rf exp n' = Ok (n2, v).
Proof.
  intros Hrf Hwf Hd Hl Hs HF Hm Hsoft nseg Hx Hp E Hb.
  destruct (C67_objective_times_and_constraints h inv solve rf dim vs r n x Hrf Hwf Hd Hl Hs HF Hx Hp)
    as (m' & v' & peak & E' & Er & Et & Pk & _ & G1 & G2 & G3 & G4 & _).
  fold nseg in Er, G2, Et. rewrite E in E'. apply Ok_inj in E'. injection E' as <- <-. rewrite Hm in G2. rewrite Hsoft in G3.
  destruct (objectiveAll_step h inv rf exp _ _ _ _ E) as (_ & _ & (S1 & S2 & _)). cbn [fst] in S1, S2.
  assert (Cm : computed h inv solve dim vs r (nl_opt n')).
  { cbn [run_ocalls run_ocall] in Er. destruct (opt_updateSegmentTimes h inv (nl_opt n) (times_of nseg x)) as [o1| | |] eqn:E1; cbn [obind] in Er; try discriminate.
    exists o1, (CallFree (map (fun d => free_of nseg (length (unconstrained h vs)) d x) (seq 0 dim))).
    split; [|split; [exact I|]].
    - apply (by_set_up h inv solve any_call dim vs r (nl_opt n) o1 Hs). right. exists [], (CallTimes (times_of nseg x)).
      split; [constructor|]. split; [exact I|]. split; [exact I|]. cbn [app run_ocalls run_ocall]. rewrite E1. reflexivity.
    - cbn [run_ocall]. destruct (opt_setFreeConstraints h o1 _); cbn [obind] in Er; try discriminate. exact Er. }
  assert (HF' := HF). rewrite <- S2 in HF'.
  destruct (C67_total_cost h inv solve rf dim vs r n' Hrf Hwf Hd Hl Cm HF') as (n2 & w & peak2 & Ew & _ & Pk2 & W).
  exists n2. rewrite Ew. do 2 f_equal. rewrite S1, S2 in *. rewrite W, G4, G1, G2, G3.
  rewrite Et. f_equal. unfold soft_total. apply rsum_ext. intros i Hi. specialize (Pk i Hi). specialize (Pk2 i Hi).
  rewrite (peak_unique _ _ _ _ _ Pk Pk2) in *. assert (Hin := nth_In (nl_con n) (0%Z, 0) Hi).
  destruct (nth i (nl_con n) (0%Z, 0)) as (d & l). cbn [fst snd] in *. specialize (Hb d l _ Hin Pk2).
  unfold soft_cost. rewrite !Rmin_right; lra.
Qed.
Print Assumptions C67_total_cost_is_objective.

(** The example problem with a limit of 1/100 on the position: evaluated at the
    times 1 and 2, with the middle velocity 1. *)
Lemma exl_evaluated con : List.Forall (fun c => (0 <= fst c < Z.of_nat (2 * 2 - 1))%Z /\ 0 < snd c) con ->
  exists o n' v, let n := ex_nl o con in
  set_up 2 (perfect_inv 2) perfect_solve 1 exl_vs 1 o /\
  nl_objectiveAll 2 (perfect_inv 2) perfect_rf exp n false [1; 2; 1] = Ok (n', v) /\
  computed 2 (perfect_inv 2) perfect_solve 1 exl_vs 1 (nl_opt n') /\
  meets_constraints 2 1 exl_vs (o_segments (nl_opt n')) /\ o_times (nl_opt n') = [1; 2] /\
  length (o_segments (nl_opt n')) = 2%nat /\ seg_time (nth 1 (o_segments (nl_opt n')) no_seg) = 2.
Proof.
  intros HF. destruct exl_solved as (o1 & o2 & S & H & T1 & T2). exists o1.
  destruct (C67_objective_times_and_constraints 2 (perfect_inv 2) perfect_solve perfect_rf 1 exl_vs 1 (ex_nl o1 con) [1; 2; 1])
    as (n' & v & peak & E & Er & Et & _); try assumption.
  - exact perfect_rf_ok.
  - exact exl_wf'.
  - lia.
  - cbn; lia.
  - reflexivity.
  - cbn. repeat constructor; lra.
  - exists n', v. cbv zeta. split; [exact S|]. split; [exact E|].
    cbn [run_ocalls run_ocall] in Er. cbn [ex_nl nl_opt] in Er.
    destruct (opt_updateSegmentTimes 2 (perfect_inv 2) o1 (times_of (length exl_vs - 1) [1; 2; 1])) as [oa| | |] eqn:E1; cbn [obind] in Er; try discriminate.
    destruct (opt_setFreeConstraints 2 oa _) as [ob| | |] eqn:E2 in Er; cbn [obind] in Er; try discriminate. apply Ok_inj in Er. subst ob.
    assert (Sa : set_up 2 (perfect_inv 2) perfect_solve 1 exl_vs 1 oa).
    { apply (by_set_up 2 (perfect_inv 2) perfect_solve any_call 1 exl_vs 1 o1 oa S). right. exists [], (CallTimes (times_of (length exl_vs - 1) [1; 2; 1])).
      split; [constructor|]. split; [exact I|]. split; [exact I|]. cbn [app run_ocalls run_ocall]. rewrite E1. reflexivity. }
    split; [eexists oa, (CallFree _); split; [exact Sa|split; [exact I|exact E2]]|].
    destruct (C31_constraints_met 2 (perfect_inv 2) perfect_solve 1 exl_vs 1 oa (nl_opt n') (CallFree (map (fun d => free_of (length exl_vs - 1) (length (unconstrained 2 exl_vs)) d [1; 2; 1]) (seq 0 1)))
       (perfect_inv_ok 2) exl_wf' ltac:(lia) Sa I E2) as ((Lc & Hsh) & Hm).
    { rewrite Et. exact exl_times_ok. }
    change (times_of (length exl_vs - 1) [1; 2; 1]) with [1; 2] in Et.
    split; [exact Hm|]. split; [exact Et|]. rewrite Et in *. split; [exact Lc|]. apply (Hsh 1%nat). cbn. lia.
Qed.
Lemma exp_big : 10 ^ 12 < exp 9900.
Proof.
  assert (E : exp 9900 = exp 99 ^ 100).
  { replace 9900 with (INR 100 * 99) by (rewrite INR_IZR_INZ; change (Z.of_nat 100) with 100%Z; lra). generalize 100%nat. intros k. induction k as [|k IH].
    - rewrite Rmult_0_l, exp_0. reflexivity.
    - rewrite S_INR, Rmult_plus_distr_r, Rmult_1_l, exp_plus, IH. cbn [pow]. lra. }
  assert (H := exp_ineq1 99 ltac:(lra)). rewrite E. apply Rlt_le_trans with (2 ^ 100); [lra|]. apply pow_incr. lra.
Qed.
(** Beyond that, the reported total cost is not the value that was optimised. *)
Theorem C67_total_cost_refuted : exists (inv : mat R -> mat R) (solve : mat R -> list R -> list R) (rf : root_oracle (T := R)) (n n' n2 : nlo R)
    (x : list R) (v w : R),
  perfect_root_finder rf /\ set_up 2 inv solve 1 exl_vs 1 (nl_opt n) /\
  np_method (nl_par n) = kSquaredTimeAndConstraints /\ np_soft (nl_par n) = true /\
  nl_objectiveAll 2 inv rf exp n false x = Ok (n', v) /\ nl_getTotalCost 2 rf exp n' = Ok (n2, w) /\ w <> v.
Proof.
  set (con := [(0%Z, 1 / 100)]).
  assert (HF : List.Forall (fun c => (0 <= fst c < Z.of_nat (2 * 2 - 1))%Z /\ 0 < snd c) con).
  { constructor; [cbn; split; [lia|lra]|constructor]. }
  destruct (exl_evaluated con HF) as (o & n' & v & S & E & Cm & Hm & Et & Lc & Ht).
  destruct (objectiveAll_step 2 (perfect_inv 2) perfect_rf exp _ _ _ _ E) as (_ & _ & (S1 & S2 & _)). cbn [fst] in S1, S2.
  destruct (C67_total_cost 2 (perfect_inv 2) perfect_solve perfect_rf 1 exl_vs 1 n' perfect_rf_ok exl_wf' ltac:(lia) ltac:(cbn; lia) Cm)
    as (n2 & w & peak2 & Ew & _ & Pk2 & W). { rewrite S2. exact HF. }
  destruct (C67_objective_times_and_constraints 2 (perfect_inv 2) perfect_solve perfect_rf 1 exl_vs 1 (ex_nl o con) [1; 2; 1])
    as (m' & v' & peak & E' & _ & _ & Pk & _ & G1 & G2 & G3 & G4 & _); try assumption.
  - exact perfect_rf_ok.
  - exact exl_wf'.
  - lia.
  - cbn; lia.
  - reflexivity.
  - cbn. repeat constructor; lra.
  - rewrite E in E'. apply Ok_inj in E'. injection E' as <- <-.
    exists (perfect_inv 2), perfect_solve, perfect_rf, (ex_nl o con), n', n2, [1; 2; 1], v, w.
    split; [exact perfect_rf_ok|]. split; [exact S|]. split; [reflexivity|]. split; [reflexivity|]. split; [exact E|]. split; [exact Ew|].
    assert (Pk0 := Pk 0%nat ltac:(cbn; lia)). rewrite S2 in Pk2. assert (Pk20 := Pk2 0%nat ltac:(cbn; lia)).
    rewrite S1, S2 in W. cbn [ex_nl nl_par nl_con np_method np_soft np_penalty np_weight con length] in *.
    rewrite W, G4, G1, G2, G3, Et. unfold soft_total. cbn [con length rsum nth snd fst].
    rewrite (peak_unique _ _ _ _ _ Pk20 Pk0).
    assert (Hpeak : 1 <= peak 0%nat).
    { destruct Pk0 as (U & _). specialize (U 1%nat 2). rewrite Lc, Ht in U. specialize (U ltac:(lia) ltac:(lra)).
      destruct (Hm 2%nat 0%nat [3] 0%nat ltac:(cbn; lia) ltac:(lia) ltac:(lia) eq_refl) as (_ & V). specialize (V ltac:(lia)).
      cbn [Nat.sub nth] in V. rewrite Ht in V. cbn [con nth fst Z.to_nat rsum] in U. cbn [nth] in V. rewrite V in U.
      replace (sqrt (0 + 3 ^ 2)) with 3 in U; [lra|]. replace (0 + 3 ^ 2) with (3 * 3) by lra. rewrite sqrt_square; lra. }
    assert (Hexp : 10 ^ 12 < exp (100 * ((peak 0%nat - 1 / 100) / (1 / 100)))).
    { apply Rlt_le_trans with (exp 9900); [exact exp_big|]. destruct (Rle_lt_or_eq_dec 9900 (100 * ((peak 0%nat - 1 / 100) / (1 / 100)))) as [L|Q]; [lra| |].
      - apply Rlt_le, exp_increasing. exact L.
      - rewrite <- Q. lra. }
    unfold soft_cost. rewrite !Rmin_left by lra.
    change (times_of (length exl_vs - 1) [1; 2; 1]) with [1; 2]. intros Q. lra.
Qed.
Print Assumptions C67_total_cost_refuted.
Example C67_example : exists o n' v, let n := ex_nl o [(1%Z, 3); (2%Z, 4)] in
  perfect_root_finder perfect_rf /\ (forall A b, length (perfect_solve A b) = length b) /\ List.Forall vertex_wf exl_vs /\
  set_up 2 (perfect_inv 2) perfect_solve 1 exl_vs 1 (nl_opt n) /\
  List.Forall (fun c => (0 <= fst c < Z.of_nat (2 * 2 - 1))%Z /\ 0 < snd c) (nl_con n) /\
  length [1; 2; 1] = ((length exl_vs - 1) + length (unconstrained 2 exl_vs) * 1)%nat /\
  nl_objectiveAll 2 (perfect_inv 2) perfect_rf exp n false [1; 2; 1] = Ok (n', v) /\
  computed 2 (perfect_inv 2) perfect_solve 1 exl_vs 1 (nl_opt n').
Proof.
  assert (HF : List.Forall (fun c => (0 <= fst c < Z.of_nat (2 * 2 - 1))%Z /\ 0 < snd c) [(1%Z, 3); (2%Z, 4)]).
  { constructor; [cbn; split; [lia|lra]|]. constructor; [cbn; split; [lia|lra]|constructor]. }
  destruct (exl_evaluated _ HF) as (o & n' & v & S & E & Cm & _). exists o, n', v. cbv zeta.
  split; [exact perfect_rf_ok|]. split; [exact perfect_solve_length|]. split; [exact exl_wf'|]. split; [exact S|]. split; [exact HF|].
  split; [reflexivity|]. split; [exact E|exact Cm].
Qed.

(** ** C66: every run leaves a trajectory that solves the posed problem *)
(** For every number type, every history of calls (runs of optimize() with any
    behaviour of nlopt included): the linear optimiser inside is in a state that
    calls of its own interface reach from the last setup.  After optimize() of the
    methods that also vary the free constraints, its segments have been computed
    from its times and constraints; after the other methods it is unchanged or the
    last step was solveLinear. *)
Theorem C66_after_optimize {T} {ops : NumOps T} (h : nat) (inv : mat T -> mat T) (solve : mat T -> list T -> list T)
        (rf : root_oracle (T := T)) (fexp : T -> T) (dim : nat) (p : nl_params T) (vs : list (vertex T)) (r : Z)
        (algorithm : nlopt_algorithm (T := T)) (n n' : nlo T) (res : Z) :
  nl_set_up h inv solve rf fexp dim p vs r n ->
  nl_optimize h inv solve rf fexp algorithm n = Ok (n', res) ->
  set_up h inv solve dim vs r (nl_opt n) /\
  nl_set_up h inv solve rf fexp dim p vs r n' /\ set_up h inv solve dim vs r (nl_opt n') /\
  (np_method (nl_par n) = kSquaredTimeAndConstraints \/ np_method (nl_par n) = kRichterTimeAndConstraints ->
     exists o c, set_up h inv solve dim vs r o /\ computes_segments c /\ run_ocall h inv solve o c = Ok (nl_opt n')) /\
  (np_method (nl_par n) <> kSquaredTimeAndConstraints -> np_method (nl_par n) <> kRichterTimeAndConstraints ->
     nl_opt n' = nl_opt n \/
     exists o, set_up h inv solve dim vs r o /\ opt_solveLinear h solve o = Ok (nl_opt n')).
Proof.
  intros Hs H. assert (Hs' : nl_set_up h inv solve rf fexp dim p vs r n').
  { destruct Hs as (pre & times & mid & m0 & m1 & H0 & H1 & HF & H2). exists pre, times, (mid ++ [NOptimize algorithm]), m0, m1.
    split; [exact H0|]. split; [exact H1|]. split; [apply Forall_app; split; [exact HF|constructor; [exact I|constructor]]|].
    assert (G : forall l a, run_ncalls h inv solve rf fexp a l = Ok n -> run_ncalls h inv solve rf fexp a (l ++ [NOptimize algorithm]) = Ok n').
    { induction l as [|c l IH]; intros a Ha; cbn [app run_ncalls] in Ha |- *.
      - apply Ok_inj in Ha. subst a. cbn [run_ncall]. rewrite H. reflexivity.
      - destruct (run_ncall h inv solve rf fexp a c) as [a'| | |]; cbn [obind] in Ha |- *; try discriminate. exact (IH a' Ha). }
    exact (G _ _ H2). }
  assert (Si := nl_set_up_inner h inv solve rf fexp dim p vs r n Hs). assert (Si' := nl_set_up_inner h inv solve rf fexp dim p vs r n' Hs').
  split; [exact Si|]. split; [exact Hs'|]. split; [exact Si'|].
  destruct (optimize_calls h inv solve rf fexp algorithm n n' res H) as (C1 & C2). split.
  - intros Hj. destruct (C2 Hj) as (o & Eo & By).
    assert (E0 : ends_with h inv solve computes_segments dim vs r o) by (exists (nl_opt n), CallSolve; split; [exact Si|split; [exact I|exact Eo]]).
    exact (by_ends h inv solve computes_segments dim vs r o (nl_opt n') computes_no_setup E0 By).
  - intros N1 N2. destruct (C1 ltac:(intros [X|X]; contradiction)) as [E|(cs & c & A & Hc & B & E)]; [left; exact E|]. right.
    rewrite run_app in E. destruct (run_ocalls h inv solve (nl_opt n) cs) as [o1| | |] eqn:E1; cbn [obind] in E; try discriminate.
    exists o1. rewrite Hc in E. cbn [run_ocalls run_ocall] in E. destruct (opt_solveLinear h solve o1) as [o2| | |] eqn:E2; cbn [obind] in E; try discriminate.
    apply Ok_inj in E. rewrite E. split; [|reflexivity].
    destruct cs as [|c0 cs'] using rev_ind; [cbn [run_ocalls] in E1; apply Ok_inj in E1; subst o1; exact Si|].
    apply (by_set_up h inv solve any_call dim vs r (nl_opt n) o1 Si). right. apply Forall_app in A as (A1 & A2). apply Forall_cons_iff in A2 as (A2 & _).
    exists cs', c0. split; [exact A1|]. split; [exact I|]. split; [exact A2|exact E1].
Qed.
Print Assumptions C66_after_optimize.

(** In exact arithmetic: the trajectory afterwards meets the vertex constraints and
    is continuous, whatever nlopt did.  The other methods need computed segments
    before the run. *)
Theorem C66_trajectory_valid (h : nat) (inv : mat R -> mat R) (solve : mat R -> list R -> list R)
        (rf : root_oracle (T := R)) (fexp : R -> R) (dim : nat) (p : nl_params R) (vs : list (vertex R)) (r : Z)
        (algorithm : nlopt_algorithm (T := R)) (n n' : nlo R) (res : Z) :
  inverse_ok h inv -> List.Forall vertex_wf vs -> (0 < dim)%nat ->
  nl_set_up h inv solve rf fexp dim p vs r n ->
  nl_optimize h inv solve rf fexp algorithm n = Ok (n', res) ->
  (np_method (nl_par n) = kSquaredTimeAndConstraints \/ np_method (nl_par n) = kRichterTimeAndConstraints \/
   computed h inv solve dim vs r (nl_opt n)) ->
  List.Forall (fun t => / 2 ^ 52 <= t) (o_times (nl_opt n')) ->
  chain_shape (2 * h) dim (o_times (nl_opt n')) (o_segments (nl_opt n')) /\
  meets_constraints h dim vs (o_segments (nl_opt n')) /\ smooth_chain h dim (o_segments (nl_opt n')) /\
  opt_computeCost h (nl_opt n') = Ok (integral_cost (Z.to_nat r) dim (o_segments (nl_opt n'))).
Proof.
  intros Hinv Hwf Hd Hs H Hm Ht.
  destruct (C66_after_optimize h inv solve rf fexp dim p vs r algorithm n n' res Hs H) as (_ & _ & _ & Hj & Hn).
  assert (Cm : computed h inv solve dim vs r (nl_opt n')).
  { assert (D : (np_method (nl_par n) = kSquaredTimeAndConstraints \/ np_method (nl_par n) = kRichterTimeAndConstraints) \/
      (np_method (nl_par n) <> kSquaredTimeAndConstraints /\ np_method (nl_par n) <> kRichterTimeAndConstraints)).
    { destruct (np_method (nl_par n)); (left; left; reflexivity) || (left; right; reflexivity) || (right; split; discriminate). }
    destruct D as [D|(D1 & D2)]; [exact (Hj D)|].
    destruct Hm as [Hm|[Hm|Hm]]; [contradiction|contradiction|]. destruct (Hn D1 D2) as [->|(o & So & Eo)]; [exact Hm|].
    exists o, CallSolve. split; [exact So|split; [exact I|exact Eo]]. }
  destruct Cm as (o0 & c & S0 & Hc & E0).
  destruct (C31_constraints_met h inv solve dim vs r o0 _ c Hinv Hwf Hd S0 Hc E0 Ht) as (A & B).
  split; [exact A|]. split; [exact B|]. split; [exact (C32_continuous h inv solve dim vs r o0 _ c Hinv Hwf Hd S0 Hc E0 Ht)|].
  exact (proj1 (C33_cost_is_integral h inv solve dim vs r o0 _ c Hwf Hd S0 Hc E0)).
Qed.
Print Assumptions C66_trajectory_valid.

(** The methods that only vary the times leave the cheapest trajectory for the
    times they end with. *)
Theorem C66_time_only_optimal (h : nat) (inv : mat R -> mat R) (solve : mat R -> list R -> list R)
        (rf : root_oracle (T := R)) (fexp : R -> R) (dim : nat) (p : nl_params R) (vs : list (vertex R)) (r : Z)
        (algorithm : nlopt_algorithm (T := R)) (n n' : nlo R) (res : Z) (o0 : opt R) (segs : list (segment R)) :
  inverse_ok h inv -> solver_ok solve -> List.Forall vertex_wf vs -> (0 < dim)%nat ->
  nl_set_up h inv solve rf fexp dim p vs r n ->
  set_up h inv solve dim vs r o0 -> opt_solveLinear h solve o0 = Ok (nl_opt n) ->
  nl_optimize h inv solve rf fexp algorithm n = Ok (n', res) ->
  np_method (nl_par n) <> kSquaredTimeAndConstraints -> np_method (nl_par n) <> kRichterTimeAndConstraints ->
  List.Forall (fun t => / 2 ^ 52 <= t) (o_times (nl_opt n')) ->
  chain_shape (2 * h) dim (o_times (nl_opt n')) segs -> meets_constraints h dim vs segs -> smooth_chain h dim segs ->
  integral_cost (Z.to_nat r) dim (o_segments (nl_opt n')) <= integral_cost (Z.to_nat r) dim segs.
Proof.
  intros Hinv Hsol Hwf Hd Hs S0 E0 H N1 N2 Ht Hsh Hm Hsm.
  destruct (C66_after_optimize h inv solve rf fexp dim p vs r algorithm n n' res Hs H) as (_ & _ & _ & _ & Hn).
  destruct (Hn N1 N2) as [E|(o & So & Eo)].
  - rewrite E in *. exact (C34_optimal h inv solve dim vs r o0 (nl_opt n) segs Hinv Hsol Hwf Hd S0 E0 Ht Hsh Hm Hsm).
  - exact (C34_optimal h inv solve dim vs r o (nl_opt n') segs Hinv Hsol Hwf Hd So Eo Ht Hsh Hm Hsm).
Qed.
Print Assumptions C66_time_only_optimal.

(** An algorithm that evaluates two points: the start and the doubled times. *)
Definition two_evaluations : nlopt_algorithm (T := R) := fun steps lower upper x0 =>
  NlObjective false x0 (fun v _ => NlObjective false (map (Rmult 2) x0) (fun w _ => NlReturn x0 (Rmin v w) 3)).
Definition ex_par : nl_params R := mkNlParams (1 / 10) 500 true 100 kSquaredTime.
Example C66_example : exists o0 n n', inverse_ok 2 (perfect_inv 2) /\ solver_ok perfect_solve /\ List.Forall vertex_wf exl_vs /\
  nl_set_up 2 (perfect_inv 2) perfect_solve perfect_rf exp 1 ex_par exl_vs 1 n /\
  set_up 2 (perfect_inv 2) perfect_solve 1 exl_vs 1 o0 /\ opt_solveLinear 2 perfect_solve o0 = Ok (nl_opt n) /\
  nl_optimize 2 (perfect_inv 2) perfect_solve perfect_rf exp two_evaluations n = Ok (n', 3%Z) /\
  np_method (nl_par n) = kSquaredTime /\ o_times (nl_opt n') = [2; 4] /\
  List.Forall (fun t => / 2 ^ 52 <= t) (o_times (nl_opt n')).
Proof.
  destruct (C31_setup_and_solve_succeed 2 (perfect_inv 2) perfect_solve 1 exl_vs exl_times 1 [] (opt_new 1))
    as (o1 & H1 & T1 & H2); try reflexivity; try (cbn; lia).
  { constructor; [lra|]. constructor; [lra|constructor]. }
  { exact exl_wf. }
  { apply perfect_solve_length. }
  destruct (H2 (or_introl eq_refl)) as (o2 & E2 & T2).
  set (n1 := mkNlo o1 ex_par [] (Some 2%nat) [] info_new).
  set (n := mkNlo o2 ex_par [(1%Z, 3)] (Some 2%nat) [] info_new).
  assert (S0 : set_up 2 (perfect_inv 2) perfect_solve 1 exl_vs 1 o1).
  { exists [], exl_times, [], (opt_new 1), o1. split; [reflexivity|]. split; [exact H1|]. split; [constructor|reflexivity]. }
  assert (Hn1 : nl_setupFromVertices 2 (perfect_inv 2) (nl_new 1 ex_par) exl_vs exl_times 1 = Ok n1).
  { unfold nl_setupFromVertices. cbn [nl_new nl_opt]. rewrite H1. reflexivity. }
  assert (Hn : run_ncalls 2 (perfect_inv 2) perfect_solve perfect_rf exp n1 [NSolve; NConstraint true 1 3] = Ok n).
  { cbn [run_ncalls run_ncall]. unfold nl_solveLinear. cbn [n1 nl_opt]. rewrite E2. cbn [obind]. unfold nl_addConstraint.
    change (1 <? 0)%Z with false. cbv iota. unfold n0. rnum.
    replace (Rleb 0 3) with true; [reflexivity|]. symmetry. destruct (Rleb_spec 0 3); [reflexivity|lra]. }
  assert (Hs : nl_set_up 2 (perfect_inv 2) perfect_solve perfect_rf exp 1 ex_par exl_vs 1 n).
  { exists [], exl_times, [NSolve; NConstraint true 1 3], (nl_new 1 ex_par), n1. split; [reflexivity|]. split; [exact Hn1|].
    split; [repeat constructor|exact Hn]. }
  assert (HF : List.Forall (fun c => (0 <= fst c < Z.of_nat (2 * 2 - 1))%Z /\ 0 < snd c) [(1%Z, 3)]).
  { constructor; [cbn; split; [lia|lra]|constructor]. }
  set (fresh := set_info n info_new).
  assert (C0 : computed 2 (perfect_inv 2) perfect_solve 1 exl_vs 1 (nl_opt fresh)).
  { exists o1, CallSolve. split; [exact S0|split; [exact I|exact E2]]. }
  destruct (C67_objective_time 2 (perfect_inv 2) perfect_solve perfect_rf 1 exl_vs 1 fresh [1; 2] perfect_rf_ok perfect_solve_length
     exl_wf' ltac:(lia) ltac:(cbn; lia) C0 HF eq_refl) as (na & va & pa & Ea & Ra & Ta & _).
  { constructor; [lra|]. constructor; [lra|constructor]. }
  destruct (objectiveTime_step 2 (perfect_inv 2) perfect_solve perfect_rf exp _ _ _ _ Ea) as (_ & _ & (Sa1 & Sa2 & _)). cbn [fst] in Sa1, Sa2.
  assert (Ca : computed 2 (perfect_inv 2) perfect_solve 1 exl_vs 1 (nl_opt na)).
  { cbn [run_ocalls run_ocall] in Ra. destruct (opt_updateSegmentTimes 2 (perfect_inv 2) (nl_opt fresh) [1; 2]) as [oa| | |] eqn:Eu; cbn [obind] in Ra; try discriminate.
    exists oa, CallSolve. split; [exact (computed_then_times _ _ _ _ _ _ _ _ _ C0 Eu)|]. split; [exact I|].
    cbn [run_ocall]. destruct (opt_solveLinear 2 perfect_solve oa); cbn [obind] in Ra; try discriminate. exact Ra. }
  destruct (C67_objective_time 2 (perfect_inv 2) perfect_solve perfect_rf 1 exl_vs 1 na [2 * 1; 2 * 2] perfect_rf_ok perfect_solve_length
     exl_wf' ltac:(lia) ltac:(cbn; lia) Ca ltac:(rewrite Sa2; exact HF) eq_refl) as (nb & vb & pb & Eb & Rb & Tb & _).
  { constructor; [lra|]. constructor; [lra|constructor]. }
  assert (Et : o_times o2 = [1; 2]) by exact T2.
  assert (Eopt : exists n', nl_optimize 2 (perfect_inv 2) perfect_solve perfect_rf exp two_evaluations n = Ok (n', 3%Z) /\ nl_opt n' = nl_opt nb).
  { unfold nl_optimize. fold fresh. cbn [n nl_par ex_par np_method]. unfold nl_optimizeTime. cbn [fresh set_info nl_opt nl_nlopt n]. rewrite Et.
    cbn [map length Nat.eqb negb two_evaluations nlopt_drive]. unfold no_gradient at 1. change (mkNlo _ _ _ _ _ _) with fresh. fold n. fold fresh.
    rewrite Ea. cbn [obind fst snd]. unfold no_gradient at 1. rewrite Eb. cbn [obind fst snd nlopt_drive]. eexists. split; reflexivity. }
  destruct Eopt as (n' & Eo & En). exists o1, n, n'. split; [apply perfect_inv_ok|]. split; [apply perfect_solve_ok|]. split; [exact exl_wf'|].
  split; [exact Hs|]. split; [exact S0|]. split; [exact E2|]. split; [exact Eo|]. split; [reflexivity|]. rewrite En, Tb.
  replace (2 * 1) with 2 by lra. replace (2 * 2) with 4 by lra. split; [reflexivity|]. constructor; [lra|]. constructor; [lra|constructor].
Qed.
