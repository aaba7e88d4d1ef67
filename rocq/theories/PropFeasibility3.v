(** C59, C70: the analytic input feasibility check. *)
From Coq Require Import ZArith Reals List Bool Lia Lra.
From Coquelicot Require Import Coquelicot.
From Verif Require Import Num RSum SpecPoly SpecSegment SpecFeasibility ModelPolynomial ModelSegment ModelVertex ModelTrajectory ModelInput ModelFeasibility
  ProofPolynomial ExtremaMath ProofExtrema ProofSegment ProofSegment2 ProofRoots ProofFeasibility ProofFeasibility2 ProofFeasibility3 PropFeasibility2.
Import ListNotations.
Notation length := List.length.
Open Scope R_scope.

(** The polynomials have the declared length, between 4 and 22 coefficients; the
    duration is not negative; the root finder finds the stationary points of the
    squared thrust, speed and jerk and of the yaw rate and acceleration in the
    segment; thrust, jerk, yaw rate and yaw acceleration stay below the largest
    double. *)
Definition analysable (rf : @root_oracle R) (s : segment R) : Prop :=
  seg_wf s /\ (4 <= seg_N s <= 22)%nat /\ 0 <= seg_time s /\
  stationary_found rf s (thrust_vec s) (fun t k => seg_fun s k 3 t) /\
  stationary_found rf s (fun t k => seg_fun s k 1 t) (fun t k => seg_fun s k 2 t) /\
  stationary_found rf s (fun t k => seg_fun s k 3 t) (fun t k => seg_fun s k 4 t) /\
  (forall d cs, (d = 2 \/ d = 3)%nat -> (forall t, poly_fun cs t = seg_fun s 3 d t) -> covers_real_roots (poly_fun cs) 0 (seg_time s) (snd (rf cs))) /\
  (forall t, 0 <= t <= seg_time s -> thrust s t < IZR (2 ^ 1024 - 2 ^ 971) /\ jerk s t < IZR (2 ^ 1024 - 2 ^ 971) /\
     Rabs (seg_fun s 3 1 t) < IZR (2 ^ 1024 - 2 ^ 971) /\ Rabs (seg_fun s 3 2 t) < IZR (2 ^ 1024 - 2 ^ 971)).

(** What the check does, in one place. *)
Lemma analytic_check_spec rf ck m fuel (s : segment R) : analysable rf s -> sane_checker ck -> 0 <= m ->
  exists r, analytic_check rf ck m fuel s = Ok r /\
    (r = Some kInputFeasible -> forall t, 0 <= t <= seg_time s ->
       thrust_within (limits_of (ck_input ck)) s t /\ speed_within (limits_of (ck_input ck)) s t /\ yaw_within (limits_of (ck_input ck)) s t) /\
    (forall v, r = Some v -> v <> kInputFeasible -> v <> kInputIndeterminable -> v <> kInputInfeasibleRollPitchRates /\ exists t, 0 <= t <= seg_time s /\ violated (limits_of (ck_input ck)) s v t) /\
    (r = None -> m * 2 ^ fuel <= seg_time s) /\
    (r = Some kInputFeasible -> forall l, getConstraint (ck_input ck) kOmegaXYMax = Some l -> 0 <= l -> seg_time s < 2 * m ->
       forall t, 0 <= t <= seg_time s -> 0 < thrust s t /\ (forall k, ex_derive (thrust_direction s k) t) /\ roll_pitch_rate s t <= l * l).
Proof.
  intros (Hw & HN & HT & R1 & R2 & R3 & R4 & Hb) (HG & Hm) Hms. unfold analytic_check. destruct (dimension_ok s) eqn:Hd; cbn [negb].
  2:{ eexists. split; [reflexivity|]. split; [discriminate|]. split; [intros v E; apply Some_inj in E; congruence|]. split; discriminate. }
  apply dimension_ok_iff in Hd. assert (HD : (3 <= seg_D s)%nat) by lia.
  rewrite (proj2 (Nat.ltb_ge (seg_N s) 2)) by lia. set (c := ck_input ck) in *.
  assert (Thrust : exists r, (if needs_thrust c then ebind (analytic_thrust rf ck s) (fun r => Ok (inr (snd r))) else Ok (inr [])) = Ok r /\
    match r with
    | inl v => (v = kInputInfeasibleThrustLow \/ v = kInputInfeasibleThrustHigh) /\ exists t, 0 <= t <= seg_time s /\ violated (limits_of c) s v t
    | inr es => (hasConstraint c kOmegaXYMax = true -> extremal (thrust s) (seg_time s) es) /\ forall t, 0 <= t <= seg_time s -> thrust_within (limits_of c) s t
    end).
  { destruct (needs_thrust c) eqn:En.
    - destruct (analytic_thrust_spec rf ck s Hw ltac:(lia) HD HT HG R1) as (r & -> & Q). unfold ebind. cbn [obind]. destruct r as [v|p]; eexists; (split; [reflexivity|]); [exact Q|].
      split; [intros _; apply Q|apply Q].
    - eexists. split; [reflexivity|]. unfold needs_thrust in En. apply orb_false_elim in En. destruct En as (En & E3). apply orb_false_elim in En. destruct En as (E1 & E2).
      split; [rewrite E3; discriminate|]. intros t _. unfold thrust_within, limits_of. cbn [l_thrust_min l_thrust_max]. rewrite has_get in E1, E2.
      destruct (getConstraint c kFMin); [discriminate|]. destruct (getConstraint c kFMax); [discriminate|]. cbn. auto. }
  destruct Thrust as (r1 & -> & Q1). unfold ebind at 1. cbn [obind]. destruct r1 as [v|tc].
  { eexists. split; [reflexivity|]. destruct Q1 as ([-> | ->] & Q); (split; [discriminate|]); (split; [|split; discriminate]); intros w E _ _; apply Some_inj in E; subst w; (split; [discriminate|exact Q]). }
  destruct Q1 as (Xf & Qf).
  destruct (analytic_velocity_spec rf ck s Hw ltac:(lia) HD HT R2) as (r2 & -> & Q2). unfold ebind at 1. cbn [obind]. destruct r2 as [v|[]].
  { eexists. split; [reflexivity|]. destruct Q2 as (-> & Q). split; [discriminate|]. split; [|split; discriminate]. intros w E _ _; apply Some_inj in E; subst w; (split; [discriminate|exact Q]). }
  assert (Hg : good_seg s) by (repeat split; [exact Hw|lia|lia]).
  assert (Mx : @dbl_max R R_ops = IZR (2 ^ 1024 - 2 ^ 971)) by reflexivity.
  destruct (yaw_check_spec rf c s Hg HT) as (ry & Ey & Ny & Ny' & Hy).
  { intros D4 _. split; [intros cs Hcs; apply (R4 2%nat); auto|intros t Ht; rewrite Mx; apply Hb, Ht]. }
  { intros D4 _. split; [intros cs Hcs; apply (R4 3%nat); auto|intros t Ht; rewrite Mx; apply Hb, Ht]. }
  change (@n0 R R_ops) with 0. rewrite Ey. unfold ebind. cbn [obind]. destruct ry as [v|[]].
  { exists (Some v). split; [reflexivity|]. split; [intros E; apply Some_inj in E; congruence|]. split; [|split; [discriminate|intros E; apply Some_inj in E; congruence]].
    intros w E N1 N2. apply Some_inj in E. subst w. destruct Hy as [Hy|(t & T1 & T2)]; [congruence|]. split; [congruence|exists t; auto]. }
  destruct (hasConstraint c kOmegaXYMax) eqn:Eo.
  2:{ eexists. split; [reflexivity|]. split; [intros _ t Ht; split; [apply Qf, Ht|]; split; [apply (Q2 t Ht)|apply Hy, Ht]|].
      split; [congruence|]. split; [discriminate|]. intros _ l El. rewrite has_get, El in Eo. discriminate. }
  destruct (norm_extremal rf s 3 (seg_time s)) as (jc & Ej & Xj); try lia; try assumption. change (Z.of_nat 3) with 3%Z in Ej. rewrite Ej. cbn [obind fst snd negb].
  unfold recursiveRollPitch.
  destruct (halving_spec m (roll_pitch_section c tc jc) (fun _ => True) (fun v _ => v = kInputFeasible) fuel 0 (seg_time s) HT) as (r & Er & F & B & O & S).
  { intros x y X1 X2 X3. destruct (roll_pitch_section_ok c tc jc x y X2) as (r & E & Hr). exists r. split; [exact E|].
    split; [destruct Hr as [-> | ->]; discriminate|]. split; [auto|]. destruct r as [v|]; [|exact I]. destruct Hr as [Hr|Hr]; [|discriminate]. exists x. split; [lra|]. congruence. }
  exists r. split; [exact Er|]. split; [|split; [|split]].
  - intros _ t Ht. split; [apply Qf, Ht|]. split; [apply (Q2 t Ht)|apply Hy, Ht].
  - intros v E N1 N2. destruct (B v E N2) as (t & _ & ?). contradiction.
  - intros E. specialize (O E). lra.
  - intros -> l El Hl HTm. destruct fuel as [|fuel]; cbn [halving] in Er; revert Er; rnum; destruct (Rltb_spec (seg_time s - 0) m) as [L|L]; try discriminate.
    destruct (roll_pitch_section_ok c tc jc 0 (seg_time s) HT) as (r & E & [-> | ->]); rewrite E; cbn [obind].
    + intros _. apply (roll_pitch_whole c s tc jc l HT); [apply Xf, eq_refl|exact Xj| |exact El| |exact Hl|exact E].
      * intros t Ht. rewrite Mx. destruct (Hb t Ht) as (A & A' & _). auto.
      * rewrite Mx. apply Hm, El.
    + replace (halving m (roll_pitch_section c tc jc) fuel 0 ((0 + seg_time s) / 2)) with (@Ok (option feasibility) (Some kInputIndeterminable)); [discriminate|].
      destruct fuel; cbn [halving]; rnum; rewrite (proj2 (Rltb_true ((0 + seg_time s) / 2 - 0) m)) by lra; reflexivity.
Qed.

(** *** C59 *)
(** Full statement: a feasible verdict implies, at every time of the segment,
    thrust_within, speed_within, yaw_within and roll_pitch_within.  The last is
    false (C59_refuted); the other three are proved here. *)
Theorem C59_thrust_speed_yaw_partial rf ck m fuel (s : segment R) : analysable rf s -> sane_checker ck -> 0 <= m ->
  analytic_check rf ck m fuel s = Ok (Some kInputFeasible) -> forall t, 0 <= t <= seg_time s ->
  thrust_within (limits_of (ck_input ck)) s t /\ speed_within (limits_of (ck_input ck)) s t /\ yaw_within (limits_of (ck_input ck)) s t.
Proof.
  intros A B C E t Ht. destruct (analytic_check_spec rf ck m fuel s A B C) as (r & E' & F & _). rewrite E' in E. apply Ok_inj in E. apply (F E t Ht).
Qed.
Print Assumptions C59_thrust_speed_yaw_partial.

(** For a segment shorter than two minimum sections, where the bound is computed
    for the whole segment only, a feasible verdict bounds the roll and pitch rates by
    the square of the limit.  Missing: the limit itself, and longer segments. *)
Theorem C59_rates_partial rf ck m fuel (s : segment R) l : analysable rf s -> sane_checker ck -> 0 <= m ->
  getConstraint (ck_input ck) kOmegaXYMax = Some l -> 0 <= l -> seg_time s < 2 * m ->
  analytic_check rf ck m fuel s = Ok (Some kInputFeasible) -> forall t, 0 <= t <= seg_time s ->
  0 < thrust s t /\ (forall k, ex_derive (thrust_direction s k) t) /\ roll_pitch_rate s t <= l ^ 2.
Proof.
  intros A B C El Hl HT E t Ht. destruct (analytic_check_spec rf ck m fuel s A B C) as (r & E' & _ & _ & _ & F). rewrite E' in E. apply Ok_inj in E.
  cbn [pow]. rewrite Rmult_1_r. apply (F E l El Hl HT t Ht).
Qed.
Print Assumptions C59_rates_partial.
(** With a limit of at most 1 this is the property, for such short segments. *)
Theorem C59_short_segments_partial rf ck m fuel (s : segment R) l : analysable rf s -> sane_checker ck -> 0 <= m ->
  getConstraint (ck_input ck) kOmegaXYMax = Some l -> 0 <= l <= 1 -> seg_time s < 2 * m ->
  analytic_check rf ck m fuel s = Ok (Some kInputFeasible) -> forall t, 0 <= t <= seg_time s ->
  thrust_within (limits_of (ck_input ck)) s t /\ speed_within (limits_of (ck_input ck)) s t /\
  roll_pitch_within (limits_of (ck_input ck)) s t /\ yaw_within (limits_of (ck_input ck)) s t.
Proof.
  intros A B C El Hl HT E t Ht. destruct (C59_thrust_speed_yaw_partial rf ck m fuel s A B C E t Ht) as (X & Y & Z).
  destruct (C59_rates_partial rf ck m fuel s l A B C El ltac:(lra) HT E t Ht) as (U & V & W).
  split; [exact X|]. split; [exact Y|]. split; [|exact Z]. unfold roll_pitch_within, limits_of. cbn [l_roll_pitch]. rewrite El. cbn [holds_for].
  split; [exact U|]. split; [exact V|]. eapply Rle_trans; [exact W|]. cbn [pow]. nra.
Qed.
Print Assumptions C59_short_segments_partial.

(** *** C70 *)
Theorem C70_infeasible_is_justified rf ck m fuel (s : segment R) v : analysable rf s -> sane_checker ck -> 0 <= m ->
  analytic_check rf ck m fuel s = Ok (Some v) -> v <> kInputFeasible -> v <> kInputIndeterminable ->
  exists t, 0 <= t <= seg_time s /\ violated (limits_of (ck_input ck)) s v t.
Proof.
  intros A B C E N1 N2. destruct (analytic_check_spec rf ck m fuel s A B C) as (r & E' & _ & J & _). rewrite E' in E. apply Ok_inj in E. apply (J v E N1 N2).
Qed.
Print Assumptions C70_infeasible_is_justified.
Theorem C70_roll_pitch_never_reported rf ck m fuel (s : segment R) : analysable rf s -> sane_checker ck -> 0 <= m ->
  analytic_check rf ck m fuel s <> Ok (Some kInputInfeasibleRollPitchRates).
Proof.
  intros A B C E. destruct (analytic_check_spec rf ck m fuel s A B C) as (r & E' & _ & J & _). rewrite E' in E.
  apply Ok_inj in E. destruct (J _ E) as (N & _); try discriminate. apply N. reflexivity.
Qed.
Print Assumptions C70_roll_pitch_never_reported.
Theorem C70_terminates rf ck m (s : segment R) : analysable rf s -> sane_checker ck -> 0 < m ->
  exists v depth, seg_time s < m * 2 ^ depth /\ forall fuel, (depth <= fuel)%nat -> analytic_check rf ck m fuel s = Ok (Some v).
Proof.
  intros A B C.
  assert (Hd : exists depth, seg_time s < m * 2 ^ depth).
  { destruct (Pow_x_infinity 2 ltac:(rewrite Rabs_pos_eq; lra) (seg_time s / m + 1)) as (n & Hn). specialize (Hn n (le_n n)).
    exists n. rewrite Rabs_pos_eq in Hn by (apply pow_le; lra).
    apply (Rmult_lt_reg_r (/ m)); [apply Rinv_0_lt_compat, C|]. replace (m * 2 ^ n * / m) with (2 ^ n) by (field; lra). unfold Rdiv in Hn. lra. }
  destruct Hd as (depth & Hd). destruct (analytic_check_spec rf ck m depth s A B ltac:(lra)) as (r & E & _ & _ & O & _).
  destruct r as [v|]; [|specialize (O eq_refl); lra]. exists v, depth. split; [exact Hd|]. intros fuel Hf. revert E. unfold analytic_check.
  destruct (negb _); [auto|]. destruct (Nat.ltb _ _); [auto|].
  match goal with |- obind ?e _ = _ -> _ => destruct e as [[w|tc]| | |]; cbn [obind]; auto end.
  destruct (hasConstraint _ _); [|auto]. destruct (seg_candidates _ _ _ _ _ _) as [[b jc]| | |]; cbn [obind fst snd]; auto. destruct b; cbn [negb]; [|auto].
  unfold recursiveRollPitch. apply halving_enough, Hf.
Qed.
Print Assumptions C70_terminates.

(** Finding: for a negative duration the candidate list is empty, and the element
    std::max_element (std::min_element) points at is read although there is none. *)
Lemma candidates_negative rf (s : segment R) (d : nat) : seg_wf s -> (d < seg_N s <= 22)%nat -> (d < 21)%nat -> (3 <= seg_D s)%nat -> seg_time s < 0 ->
  seg_candidates rf s (Z.of_nat d) 0 (seg_time s) kPosDim = Ok (true, []).
Proof.
  intros Hw HN H21 HD HT. destruct (seg_candidateTimes_multi rf s d kPosDim 0 (seg_time s) Hw (dims3 s HD)) as (cs & _ & _ & E); try lia; [cbn; lia|].
  unfold seg_candidates. rewrite E. unfold selectMinMaxCandidatesFromRoots. rnum. rewrite (proj2 (Rltb_true _ _)) by lra. reflexivity.
Qed.
Theorem C70_negative_time_undefined_finding rf ck m fuel (s : segment R) : seg_wf s -> (4 <= seg_N s <= 22)%nat -> (seg_D s = 3 \/ seg_D s = 4)%nat -> seg_time s < 0 ->
  ck_gravity ck = [0; 0; 980665 / 100000] ->
  (exists l, getConstraint (ck_input ck) kFMin = Some l \/ getConstraint (ck_input ck) kFMax = Some l \/ getConstraint (ck_input ck) kVMax = Some l) ->
  analytic_check rf ck m fuel s = UB.
Proof.
  intros Hw HN HD HT HG (l & Hl). unfold analytic_check. rewrite (proj2 (dimension_ok_iff s) HD). cbn [negb]. rewrite (proj2 (Nat.ltb_ge (seg_N s) 2)) by lia.
  set (c := ck_input ck) in *.
  assert (Th : (getConstraint c kFMin <> None \/ getConstraint c kFMax <> None -> analytic_thrust rf ck s = UB) /\
    (getConstraint c kFMin = None -> getConstraint c kFMax = None -> exists p, analytic_thrust rf ck s = Ok (inr p))).
  { unfold analytic_thrust. destruct (thrust_segment_ok ck s Hw ltac:(lia) ltac:(lia) HG) as (f & E & Fw & FN & FD & FT & _). rewrite E. cbn [obind].
    pose proof (candidates_negative rf f 0 Fw ltac:(lia) ltac:(lia) ltac:(lia) ltac:(lra)) as Cn. change (Z.of_nat 0) with 0%Z in Cn.
    change (@n0 R R_ops) with 0. rewrite Cn.
    cbn [obind fst snd negb min_element max_element]. fold c. destruct (getConstraint c kFMin); [split; [reflexivity|discriminate]|]. unfold ebind. cbn [obind].
    destruct (getConstraint c kFMax); [split; [reflexivity|discriminate]|]. cbn [obind]. split; [intros [N|N]; congruence|]. eauto. }
  destruct Th as (Th1 & Th2).
  assert (Ve : getConstraint c kVMax <> None -> analytic_velocity rf ck s = UB).
  { intros N. unfold analytic_velocity. fold c. destruct (getConstraint c kVMax); [|contradiction]. change (@n0 R R_ops) with 0. change 1%Z with (Z.of_nat 1).
    rewrite (candidates_negative rf s 1 Hw) by (lia || lra). reflexivity. }
  assert (Need : needs_thrust c = hasConstraint c kFMin || hasConstraint c kFMax || hasConstraint c kOmegaXYMax) by reflexivity. rewrite !has_get in Need.
  destruct (getConstraint c kFMin) eqn:E1; [rewrite Need, Th1 by (left; discriminate); reflexivity|]. destruct (getConstraint c kFMax) eqn:E2; [rewrite Need, Th1 by (right; discriminate); reflexivity|].
  assert (E3 : getConstraint c kVMax <> None) by (destruct Hl as [Hl|[Hl|Hl]]; congruence).
  destruct (Th2 eq_refl eq_refl) as (p & ->). rewrite (Ve E3). destruct (needs_thrust c); reflexivity.
Qed.
Print Assumptions C70_negative_time_undefined_finding.

(** *** The turn of PropFeasibility2: jerk 4 g, rate 4 at the start *)
Lemma ex_turn_4 k t : seg_fun ex_turn k 4 t = 0.
Proof. turn. Qed.
Lemma ex_turn_jerk t : jerk ex_turn t = 4 * kg.
Proof.
  unfold jerk, norm3. rewrite !ex_turn_3. unfold cubic, kg. cbn [Nat.eqb]. match goal with |- sqrt ?x = ?y => replace x with (y ^ 2) by field end. apply sqrt_pow2. lra.
Qed.
Lemma ex_turn_thrust_0 : thrust ex_turn 0 = kg.
Proof.
  assert (K : 0 < kg) by (unfold kg; lra). pose proof (ex_turn_thrust 0) as Q. pose proof (ex_turn_thrust_pos 0). cbn [pow] in Q. nra.
Qed.
Lemma ex_turn_thrust_bounds t : 0 <= t <= 1 -> kg <= thrust ex_turn t <= 5 * kg.
Proof.
  intros Ht. assert (K : 0 < kg) by (unfold kg; lra). pose proof (ex_turn_thrust t) as Q. pose proof (ex_turn_thrust_pos t). cbn [pow] in Q.
  assert (T2 : 0 <= t * t <= 1) by nra. assert (K2 : 0 < kg * kg) by nra.
  assert (S : thrust ex_turn t * thrust ex_turn t = 16 * ((kg * kg) * (t * t)) + kg * kg) by lra.
  assert (P : 0 <= (kg * kg) * (t * t) <= kg * kg) by nra. split; [apply Rsqr_incr_0; unfold Rsqr; lra|apply Rsqr_incr_0; unfold Rsqr; lra].
Qed.
Lemma ex_turn_analysable : analysable perfect_rf ex_turn.
Proof.
  split; [repeat constructor|]. split; [cbn; lia|]. split; [cbn; lra|].
  split; [intros cs _; apply perfect_rf_ok|]. split; [intros cs _; apply perfect_rf_ok|]. split; [intros cs _; apply perfect_rf_ok|]. split; [intros d cs _ _; apply perfect_rf_ok|].
  intros t Ht. pose proof big as Hb. pose proof (ex_turn_thrust_bounds t Ht) as Q. pose proof (ex_turn_jerk t) as J. assert (K : kg < 10) by (unfold kg; lra).
  generalize dependent (IZR (2 ^ 1024 - 2 ^ 971)). intros M HM. rewrite ex_turn_1, ex_turn_2. change (cubic 3) with 0. rewrite !Rmult_0_r, !Rmult_0_l, Rabs_R0. lra.
Qed.
(** The check as a function of the limit: the bound on the rate is taken to be
    the square root of jerk over thrust, 2 here, and compared with the limit. *)
Lemma ex_turn_analytic l m fuel : 0 <= l < 1000 -> m <= 1 ->
  exists fc jc, extremal (thrust ex_turn) 1 fc /\ extremal (jerk ex_turn) 1 jc /\
    analytic_check perfect_rf (ex_turn_ck l) m fuel ex_turn = recursiveRollPitch (ck_input (ex_turn_ck l)) m fuel fc jc 0 1.
Proof.
  intros Hl Hm. destruct ex_turn_analysable as (Hw & HN & HT & R1 & _ & R3 & _). destruct (ex_turn_sane l ltac:(lra)) as (HG & _).
  destruct (analytic_thrust_spec perfect_rf (ex_turn_ck l) ex_turn Hw ltac:(lia) ltac:(cbn; lia) HT HG R1) as (r & E & Q).
  destruct (norm_extremal perfect_rf ex_turn 3 (seg_time ex_turn) Hw) as (jc & Ej & Xj); try assumption; try lia; try (cbn; lia).
  destruct r as [v|[f fc]].
  { exfalso. destruct Q as ([-> | ->] & t & _ & Q); exact Q. }
  exists fc, jc. split; [apply Q|]. split; [exact Xj|].
  unfold analytic_check. change (dimension_ok ex_turn) with true. change (Nat.ltb (seg_N ex_turn) 2) with false. change (needs_thrust (ck_input (ex_turn_ck l))) with true.
  change (analytic_velocity perfect_rf (ex_turn_ck l) ex_turn) with (@Ok (feasibility + unit) (inr tt)).
  change (yaw_check perfect_rf (ck_input (ex_turn_ck l)) ex_turn n0 (seg_time ex_turn)) with (@Ok (feasibility + unit) (inr tt)).
  change (hasConstraint (ck_input (ex_turn_ck l)) kOmegaXYMax) with true. cbn [negb]. rewrite E. unfold ebind. cbn [obind snd].
  change (@n0 R R_ops) with 0. change (Z.of_nat 3) with 3%Z in Ej. rewrite Ej. reflexivity.
Qed.
Lemma ex_turn_section l fc jc : extremal (thrust ex_turn) 1 fc -> extremal (jerk ex_turn) 1 jc ->
  roll_pitch_section (ck_input (ex_turn_ck l)) fc jc 0 1 = Ok (if Rltb l 2 then inr tt else inl kInputFeasible).
Proof.
  intros Xf Xj. unfold roll_pitch_section. destruct ex_turn_analysable as (_ & _ & _ & _ & _ & _ & _ & Hb).
  destruct (extremal_select (thrust ex_turn) 1 fc (mkExtremum n0 n0 0%Z) (mkExtremum n0 n0 0%Z) ltac:(lra) Xf) as (fmin & fmax & x & x' & Ef & Wx & _ & Vf & _ & Mf).
  { intros t Ht. rewrite Rabs_pos_eq by apply norm3_pos. apply Hb, Ht. }
  destruct (extremal_select (jerk ex_turn) 1 jc (mkExtremum n0 n0 0%Z) (mkExtremum n0 n0 0%Z) ltac:(lra) Xj) as (jmin & jmax & y' & y & Ej & _ & Wy & _ & Vj & Mj).
  { intros t Ht. rewrite Rabs_pos_eq by apply norm3_pos. apply Hb, Ht. }
  rewrite Ef, Ej, Vf, Vj, ex_turn_jerk. change (getConstraint (ck_input (ex_turn_ck l)) kOmegaXYMax) with (Some l).
  assert (K : 9 < kg) by (unfold kg; lra). pose proof (ex_turn_thrust_bounds x Wx) as Q. pose proof (Mf 0 ltac:(lra)) as Q'. rewrite ex_turn_thrust_0 in Q'.
  assert (Eq : thrust ex_turn x = kg) by lra. rewrite Eq. rnum. rewrite (proj2 (Rltb_true _ kg)) by (unfold nlit; rnum; lra).
  replace (4 * kg / kg) with (2 ^ 2) by (field; lra). rewrite sqrt_pow2 by lra. reflexivity.
Qed.
(** The property is false: a motion whose roll/pitch rate starts at 4 is found
    feasible for a limit of 3, because jerk over thrust is compared with the square of
    the limit. *)
Theorem C59_refuted : exists rf ck s fuel, analysable rf s /\ sane_checker ck /\
  analytic_check rf ck (1 / 20) fuel s = Ok (Some kInputFeasible) /\
  exists t, 0 <= t <= seg_time s /\ 0 < thrust s t /\ broken_for (l_roll_pitch (limits_of (ck_input ck))) (fun l => l < roll_pitch_rate s t).
Proof.
  exists perfect_rf, (ex_turn_ck 3), ex_turn, 1%nat. split; [exact ex_turn_analysable|]. split; [apply ex_turn_sane; lra|]. split.
  - destruct (ex_turn_analytic 3 (1 / 20) 1 ltac:(lra) ltac:(lra)) as (fc & jc & Xf & Xj & ->). unfold recursiveRollPitch. cbn [halving]. rnum.
    rewrite (proj2 (Rltb_false (1 - 0) (1 / 20))) by lra. rewrite (ex_turn_section 3 fc jc Xf Xj). rewrite (proj2 (Rltb_false 3 2)) by lra. reflexivity.
  - exists 0. split; [cbn; lra|]. split; [apply ex_turn_thrust_pos|]. change (limits_of (ck_input (ex_turn_ck 3))) with (mkLimits None None None (Some 3) None None).
    cbn [l_roll_pitch broken_for]. rewrite ex_turn_rate. lra.
Qed.
Print Assumptions C59_refuted.
Example C59_example : let ck := ex_turn_ck 5 in analysable perfect_rf ex_turn /\ sane_checker ck /\ getConstraint (ck_input ck) kOmegaXYMax = Some 5 /\
  seg_time ex_turn < 2 * (3 / 4) /\ analytic_check perfect_rf ck (3 / 4) 1 ex_turn = Ok (Some kInputFeasible) /\ 0 < thrust ex_turn 0 /\ roll_pitch_rate ex_turn 0 = 4.
Proof.
  intros ck. split; [exact ex_turn_analysable|]. split; [apply ex_turn_sane; lra|]. split; [reflexivity|]. split; [cbn; lra|]. split; [|split; [apply ex_turn_thrust_pos|apply ex_turn_rate]].
  unfold ck. destruct (ex_turn_analytic 5 (3 / 4) 1 ltac:(lra) ltac:(lra)) as (fc & jc & Xf & Xj & ->). unfold recursiveRollPitch. cbn [halving]. rnum.
  rewrite (proj2 (Rltb_false (1 - 0) (3 / 4))) by lra. rewrite (ex_turn_section 5 fc jc Xf Xj). rewrite (proj2 (Rltb_false 5 2)) by lra. reflexivity.
Qed.
(** A limit of 1 ends as indeterminable, a lower thrust limit of 2 g is named. *)
Example C70_example : analysable perfect_rf ex_turn /\ sane_checker (ex_turn_ck 1) /\
  analytic_check perfect_rf (ex_turn_ck 1) (3 / 4) 1 ex_turn = Ok (Some kInputIndeterminable).
Proof.
  split; [exact ex_turn_analysable|]. split; [apply ex_turn_sane; lra|].
  destruct (ex_turn_analytic 1 (3 / 4) 1 ltac:(lra) ltac:(lra)) as (fc & jc & Xf & Xj & ->). unfold recursiveRollPitch. cbn [halving]. rnum.
  rewrite (proj2 (Rltb_false (1 - 0) (3 / 4))) by lra. rewrite (ex_turn_section 1 fc jc Xf Xj). rewrite (proj2 (Rltb_true 1 2)) by lra. cbn [obind].
  rewrite (proj2 (Rltb_true ((0 + 1) / 2 - 0) (3 / 4))) by lra. reflexivity.
Qed.
Example C70_thrust_example : let ck := mkChecker [(kFMin, 2 * kg)] [] [0; 0; 980665 / 100000] in
  analysable perfect_rf ex_turn /\ sane_checker ck /\ analytic_check perfect_rf ck (1 / 20) 5 ex_turn = Ok (Some kInputInfeasibleThrustLow).
Proof.
  intros ck. assert (S : sane_checker ck) by (split; [reflexivity|discriminate]). split; [exact ex_turn_analysable|]. split; [exact S|].
  destruct ex_turn_analysable as (Hw & HN & HT & R1 & _).
  destruct (analytic_thrust_spec perfect_rf ck ex_turn Hw ltac:(lia) ltac:(cbn; lia) HT (proj1 S) R1) as (r & E & Q).
  assert (L : limits_of (ck_input ck) = mkLimits (Some (2 * kg)) None None None None None) by reflexivity. rewrite L in Q.
  unfold analytic_check. change (dimension_ok ex_turn) with true. change (Nat.ltb (seg_N ex_turn) 2) with false. assert (Nd : needs_thrust (ck_input ck) = true) by reflexivity. rewrite Nd.
  cbn [negb]. rewrite E. unfold ebind. destruct r as [v|p]; cbn [obind].
  - destruct Q as ([-> | ->] & t & _ & Q); [reflexivity|contradiction].
  - exfalso. destruct Q as (_ & Q). destruct (Q 0) as (Q0 & _); [cbn; lra|]. cbn [l_thrust_min holds_for] in Q0. rewrite ex_turn_thrust_0 in Q0. unfold kg in Q0. lra.
Qed.

(** *** A second cause: sections without a candidate time of the jerk *)
(** The largest jerk of such a section stays at the lowest double, so the section
    is accepted.  x'' = 2 g (t - 5/4): the jerk is constant, its candidates are the
    ends of the segment; the rate at 5/4 is 2. *)
Definition ex_sweep : segment R := mkSegment 4 [[0; 0; - (5 / 4 * kg); kg / 3]; [0; 0; 0; 0]; [0; 0; 0; 0]] 4.
Definition along (k : nat) (x : R) : R := if Nat.eqb k 0 then x else 0.
Ltac sweep := intros; rewrite seg_fun_dpoly; unfold dpoly, along;
  match goal with |- context [nth ?k (seg_polys ex_sweep) []] => destruct k as [|[|[|k]]] end;
  try (match goal with |- context [nth (S (S (S ?k)))] => destruct k end);
  cbn [seg_polys ex_sweep nth length rsum Nat.eqb]; rewrite ?bc_step, ?bc_0; cbn [Nat.sub INR pow]; field.
Lemma ex_sweep_1 k t : seg_fun ex_sweep k 1 t = along k (kg * t ^ 2 - 5 / 2 * kg * t).
Proof. sweep. Qed.
Lemma ex_sweep_2 k t : seg_fun ex_sweep k 2 t = along k (2 * kg * (t - 5 / 4)).
Proof. sweep. Qed.
Lemma ex_sweep_3 k t : seg_fun ex_sweep k 3 t = along k (2 * kg).
Proof. sweep. Qed.
Lemma ex_sweep_4 k t : seg_fun ex_sweep k 4 t = along k 0.
Proof. sweep. Qed.
Lemma ex_sweep_jerk t : jerk ex_sweep t = 2 * kg.
Proof.
  unfold jerk, norm3. rewrite !ex_sweep_3. unfold along. cbn [Nat.eqb]. match goal with |- sqrt ?x = ?y => replace x with (y ^ 2) by field end. apply sqrt_pow2. unfold kg. lra.
Qed.
Lemma ex_sweep_thrust t : thrust ex_sweep t ^ 2 = kg ^ 2 * (4 * (t - 5 / 4) ^ 2 + 1).
Proof. rewrite thrust_sqr. unfold thrust_vec. rewrite !ex_sweep_2. unfold along, gravity, kg. cbn [Nat.eqb]. field. Qed.
Lemma ex_sweep_thrust_between t lo hi : 0 <= lo -> 0 <= hi -> lo ^ 2 <= 4 * (t - 5 / 4) ^ 2 + 1 <= hi ^ 2 -> lo * kg <= thrust ex_sweep t <= hi * kg.
Proof.
  intros Hlo Hhi H. assert (K : 0 < kg) by (unfold kg; lra). assert (P : 0 <= thrust ex_sweep t) by apply norm3_pos. pose proof (ex_sweep_thrust t) as Q.
  assert (K2 : 0 < kg ^ 2) by (apply pow_lt, K).
  assert (A : (lo * kg) ^ 2 <= thrust ex_sweep t ^ 2 <= (hi * kg) ^ 2).
  { rewrite Q, !Rpow_mult_distr. split; (rewrite Rmult_comm; apply Rmult_le_compat_l; lra) || (rewrite (Rmult_comm (hi ^ 2)); apply Rmult_le_compat_l; lra). }
  rewrite <- !Rsqr_pow2 in A. split; apply Rsqr_incr_0; try apply A; try assumption; nra.
Qed.
Lemma ex_sweep_thrust_pos t : kg <= thrust ex_sweep t.
Proof.
  rewrite <- (Rmult_1_l kg). pose proof (pow2_ge_0 (t - 5 / 4)). apply (ex_sweep_thrust_between t 1 (4 * (t - 5 / 4) ^ 2 + 1)); nra.
Qed.
Lemma ex_sweep_rate : roll_pitch_rate ex_sweep (5 / 4) = 2.
Proof.
  assert (K : 0 < kg) by (unfold kg; lra). rewrite roll_pitch_rate_eq by (pose proof (ex_sweep_thrust_pos (5 / 4)); lra).
  rewrite ex_sweep_jerk, ex_sweep_thrust. unfold dot3, thrust_vec. rewrite !ex_sweep_3, !ex_sweep_2. unfold along, gravity. cbn [Nat.eqb].
  match goal with |- sqrt ?x = 2 => replace x with (2 ^ 2) by (field; lra) end. apply sqrt_pow2. lra.
Qed.
Lemma ex_sweep_analysable : analysable perfect_rf ex_sweep.
Proof.
  split; [repeat constructor|]. split; [cbn; lia|]. split; [cbn; lra|].
  split; [intros cs _; apply perfect_rf_ok|]. split; [intros cs _; apply perfect_rf_ok|]. split; [intros cs _; apply perfect_rf_ok|]. split; [intros d cs _ _; apply perfect_rf_ok|].
  intros t Ht. cbn [ex_sweep seg_time] in Ht. pose proof big as Hb. assert (K : 0 < kg < 10) by (unfold kg; lra).
  assert (Q : 1 * kg <= thrust ex_sweep t <= 6 * kg) by (apply ex_sweep_thrust_between; [lra|lra|]; set (u := t - 5 / 4); assert (U : - 5 / 4 <= u <= 11 / 4) by (unfold u; lra); cbn [pow]; nra).
  pose proof (ex_sweep_jerk t) as J.
  generalize dependent (IZR (2 ^ 1024 - 2 ^ 971)). intros M HM. rewrite ex_sweep_1, ex_sweep_2. change (along 3 _) with 0. change (along 3 _) with 0. rewrite Rabs_R0. lra.
Qed.

(** perfect_rf reports zeros only, and none for the zero polynomial. *)
Lemma perfect_rf_zero cs r : In r (snd (perfect_rf cs)) -> poly_fun cs (fst r) = 0.
Proof.
  cbn [perfect_rf snd]. intros H. apply in_map_iff in H. destruct H as (x & <- & H). cbn [fst]. revert H. generalize (length cs) (@None R). intros n. revert x.
  induction n as [|n IH]; intros x b; cbn [roots_below]; [intros []|]. destruct (excluded_middle_dec _) as [E|E]; [|intros []]. cbv zeta.
  destruct (unique_real _ E _) as (y & Hy). cbn [proj1_sig]. intros [<-|H]; [apply Hy|eapply IH; exact H].
Qed.
Lemma perfect_rf_none cs : (forall t, poly_fun cs t = 0) -> snd (perfect_rf cs) = [].
Proof.
  intros H. cbn [perfect_rf snd]. destruct (length cs) as [|n]; cbn [roots_below]; [reflexivity|]. destruct (excluded_middle_dec _) as [E|E]; [|reflexivity].
  exfalso. destruct E as (m & _ & _ & M). specialize (M (m + 1) I (H _)). lra.
Qed.
Definition sweep_ck : checker R := mkChecker [(kOmegaXYMax, 1)] [] [0; 0; 980665 / 100000].
(** The candidates: of the jerk the ends, of the thrust the ends and 5/4. *)
Lemma ex_sweep_candidates : exists ts, (forall t, In t ts <-> t = 5 / 4) /\
  analytic_check perfect_rf sweep_ck (1 / 20) 3 ex_sweep =
  recursiveRollPitch (ck_input sweep_ck) (1 / 20) 3 (map (ext_of (thrust ex_sweep)) (0 :: 4 :: ts)) (map (ext_of (jerk ex_sweep)) [0; 4]) 0 4.
Proof.
  destruct ex_sweep_analysable as (Hw & HN & HT & _).
  destruct (thrust_segment_ok sweep_ck ex_sweep Hw ltac:(cbn; lia) ltac:(cbn; lia) eq_refl) as (f & E & Fw & FN & FD & FT & F0 & F1).
  destruct (norm_candidates perfect_rf f 0 4 Fw) as (ts & Ef & _ & cs & Pf & Qf); try lia; try lra; try (rewrite FN; cbn; lia).
  destruct (norm_candidates perfect_rf ex_sweep 3 4 Hw) as (js & Ej & _ & cj & Pj & Qj); try lia; try lra; try (cbn; lia).
  exists ts. assert (Pf' : forall t, poly_fun cs t = 4 * kg ^ 2 * (t - 5 / 4)).
  { intros t. rewrite Pf. unfold dot3. rewrite !F0, !F1 by lia. unfold thrust_vec. rewrite !ex_sweep_2, !ex_sweep_3. unfold along, gravity. cbn [Nat.eqb]. field. }
  assert (K : 0 < kg) by (unfold kg; lra). assert (K2 : 0 < kg ^ 2) by (apply pow_lt, K).
  split.
  - intros t. rewrite Qf, in_map_iff. split.
    + intros (r & <- & Hr). apply filter_In in Hr. destruct Hr as (Hr & _). apply perfect_rf_zero in Hr. rewrite Pf' in Hr.
      apply Rmult_integral in Hr. destruct Hr as [Hr|Hr]; lra.
    + intros ->. destruct (perfect_rf_ok cs 0 4) as [Z|Z].
      * exfalso. specialize (Z 1 ltac:(lra)). rewrite Pf' in Z. apply Rmult_integral in Z. destruct Z; lra.
      * destruct (Z (5 / 4)) as (im & I1 & I2); [lra|rewrite Pf'; ring|]. exists (5 / 4, im). split; [reflexivity|]. apply filter_In. split; [exact I2|].
        apply is_candidate_iff. cbn [fst snd]. split; [exact I1|lra].
  - assert (J0 : js = []).
    { rewrite Qj, perfect_rf_none; [reflexivity|]. intros t. rewrite Pj. unfold dot3. rewrite !ex_sweep_3, !ex_sweep_4. unfold along. cbn [Nat.eqb]. ring. }
    rewrite J0 in Ej. unfold analytic_check. change (dimension_ok ex_sweep) with true. change (Nat.ltb (seg_N ex_sweep) 2) with false. change (needs_thrust (ck_input sweep_ck)) with true.
    change (analytic_velocity perfect_rf sweep_ck ex_sweep) with (@Ok (feasibility + unit) (inr tt)).
    change (yaw_check perfect_rf (ck_input sweep_ck) ex_sweep n0 (seg_time ex_sweep)) with (@Ok (feasibility + unit) (inr tt)).
    change (hasConstraint (ck_input sweep_ck) kOmegaXYMax) with true. cbn [negb]. unfold analytic_thrust. rewrite E. cbn [obind]. rewrite FT.
    change (seg_time ex_sweep) with 4. change (@n0 R R_ops) with 0. change (Z.of_nat 0) with 0%Z in Ef. change (Z.of_nat 3) with 3%Z in Ej. rewrite Ef. cbn [obind fst snd negb].
    change (getConstraint (ck_input sweep_ck) kFMin) with (@None R). change (getConstraint (ck_input sweep_ck) kFMax) with (@None R). unfold ebind. cbn [obind snd].
    rewrite Ej. cbn [obind fst snd negb].
    assert (Ml : forall l, map (fun t => mkExtremum t (norm3 (fun k => seg_fun f k 0 t)) 0%Z) l = map (ext_of (thrust ex_sweep)) l).
    { intros l. apply map_ext. intros t. unfold ext_of. f_equal. apply norm3_ext. intros k Hk. apply F0, Hk. }
    rewrite Ml. reflexivity.
Qed.
(** The largest value selected is no larger than a bound of all values. *)
Lemma select_max_le a b es mn mx emin emax M : seg_selectMinMax a b es mn mx = Some (emin, emax) -> (forall e, In e es -> ext_value e <= M) -> @dbl_lowest R R_ops <= M ->
  ext_value emax <= M.
Proof.
  unfold seg_selectMinMax. destruct (nltb b a); [discriminate|]. intros E H H0. apply Some_inj in E.
  assert (G : forall es st, (forall e, In e es -> ext_value e <= M) -> ext_value (snd st) <= M ->
    ext_value (snd (fold_left (fun (st : extremum R * extremum R) c => if (nltb (ext_time c) a || nltb b (ext_time c))%bool then st else (ext_min (fst st) c, ext_max (snd st) c)) es st)) <= M).
  { clear. induction es as [|e es IH]; intros st H Hs; cbn [fold_left]; [exact Hs|]. apply IH; [intros; apply H; right; assumption|].
    destruct (nltb (ext_time e) a || nltb b (ext_time e))%bool; [exact Hs|]. cbn [snd]. unfold ext_max. destruct (nltb _ _); [apply H; left; reflexivity|exact Hs]. }
  specialize (G es (mkExtremum (ext_time mn) dbl_max (ext_segment mn), mkExtremum (ext_time mx) dbl_lowest (ext_segment mx)) H H0). rewrite E in G. exact G.
Qed.
Lemma dbl_lowest_neg : @dbl_lowest R R_ops < 0.
Proof. rewrite dbl_lowest_eq. pose proof dbl_max_pos. lra. Qed.

Section Sweep.
  Variable ts : list R.
  Hypothesis ts_ok : forall t, In t ts <-> t = 5 / 4.
  Let fc := map (ext_of (thrust ex_sweep)) (0 :: 4 :: ts).
  Let jc := map (ext_of (jerk ex_sweep)) [0; 4].
  Lemma sweep_in t : In t (0 :: 4 :: ts) <-> t = 0 \/ t = 4 \/ t = 5 / 4.
  Proof. cbn [In]. rewrite ts_ok. intuition. Qed.
  Lemma sweep_min a b x : a <= b -> In x (0 :: 4 :: ts) -> a <= x <= b -> exists fmin fmax y, seg_selectMinMax a b fc (mkExtremum n0 n0 0%Z) (mkExtremum n0 n0 0%Z) = Some (fmin, fmax) /\
    In y (0 :: 4 :: ts) /\ a <= y <= b /\ ext_value fmin = thrust ex_sweep y /\ thrust ex_sweep y <= thrust ex_sweep x.
  Proof.
    intros Hab Hx Wx. destruct (seg_selectMinMax_spec a b fc (mkExtremum n0 n0 0%Z) (mkExtremum n0 n0 0%Z) Hab) as (fmin & fmax & E & I1 & W1 & _ & _ & M).
    - exists (ext_of (thrust ex_sweep) x). split; [apply in_map, Hx|exact Wx].
    - intros e He _. apply in_map_iff in He. destruct He as (t & <- & Ht). cbn [ext_of ext_value]. rewrite Rabs_pos_eq by apply norm3_pos.
      destruct ex_sweep_analysable as (_ & _ & _ & _ & _ & _ & _ & Hb). apply Hb. apply sweep_in in Ht. cbn [ex_sweep seg_time]. destruct Ht as [-> |[-> | ->]]; lra.
    - apply in_map_iff in I1. destruct I1 as (y & <- & Hy). exists (ext_of (thrust ex_sweep) y), fmax, y. split; [exact E|]. split; [exact Hy|]. split; [exact W1|]. split; [reflexivity|].
      apply (M (ext_of (thrust ex_sweep) x)); [apply in_map, Hx|exact Wx].
  Qed.
  Lemma sweep_jerk_select a b : a <= b -> exists jmin jmax, seg_selectMinMax a b jc (mkExtremum n0 n0 0%Z) (mkExtremum n0 n0 0%Z) = Some (jmin, jmax) /\ ext_value jmax <= 2 * kg /\
    (a <= 0 <= b -> ext_value jmax = 2 * kg) /\ (0 < a -> b < 4 -> ext_value jmax = dbl_lowest).
  Proof.
    intros Hab. assert (K : 0 < kg) by (unfold kg; lra). destruct (seg_selectMinMax a b jc (mkExtremum n0 n0 0%Z) (mkExtremum n0 n0 0%Z)) as [[jmin jmax]|] eqn:E.
    2:{ unfold seg_selectMinMax in E. revert E. rnum. rewrite (proj2 (Rltb_false b a)) by lra. discriminate. }
    exists jmin, jmax. split; [reflexivity|].
    assert (Hle : ext_value jmax <= 2 * kg).
    { apply (select_max_le _ _ _ _ _ _ _ (2 * kg) E); [|pose proof dbl_lowest_neg; lra]. intros e He. apply in_map_iff in He. destruct He as (t & <- & _). cbn [ext_of ext_value]. rewrite ex_sweep_jerk. lra. }
    split; [exact Hle|]. split.
    - intros W. destruct (seg_selectMinMax_spec a b jc (mkExtremum n0 n0 0%Z) (mkExtremum n0 n0 0%Z) Hab) as (e1 & e2 & E' & _ & _ & _ & _ & M).
      + exists (ext_of (jerk ex_sweep) 0). split; [left; reflexivity|exact W].
      + intros e He _. apply in_map_iff in He. destruct He as (t & <- & _). cbn [ext_of ext_value]. rewrite ex_sweep_jerk, Rabs_pos_eq by lra.
        pose proof big as Hb. change (@dbl_max R R_ops) with (IZR (2 ^ 1024 - 2 ^ 971)). generalize dependent (IZR (2 ^ 1024 - 2 ^ 971)). intros X HX. unfold kg. lra.
      + rewrite E in E'. apply Some_inj in E'. injection E' as <- <-. pose proof (M (ext_of (jerk ex_sweep) 0) (or_introl eq_refl) W) as Q. cbn [ext_of ext_value] in Q. rewrite ex_sweep_jerk in Q. lra.
    - intros Ha Hb. unfold seg_selectMinMax in E. revert E. rnum. rewrite (proj2 (Rltb_false b a)) by lra. cbn [jc map fold_left ext_of ext_time fst snd ext_segment].
      rewrite (proj2 (Rltb_true 0 a)) by lra. rewrite (proj2 (Rltb_true b 4)) by lra. rewrite orb_true_r. cbn [orb]. intros E. apply Some_inj in E. apply (f_equal snd) in E. cbn [snd] in E. rewrite <- E. reflexivity.
  Qed.
  Lemma sweep_section a b : a <= b -> (exists x, In x (0 :: 4 :: ts) /\ a <= x <= b) ->
    exists y j, In y (0 :: 4 :: ts) /\ a <= y <= b /\ (forall x, In x (0 :: 4 :: ts) -> a <= x <= b -> thrust ex_sweep y <= thrust ex_sweep x) /\
      j <= 2 * kg /\ (a <= 0 <= b -> j = 2 * kg) /\ (0 < a -> b < 4 -> j = dbl_lowest) /\
      roll_pitch_section (ck_input sweep_ck) fc jc a b = Ok (if Rltb 1 (sqrt (j / thrust ex_sweep y)) then inr tt else inl kInputFeasible).
  Proof.
    intros Hab (x & Hx & Wx). destruct (sweep_min a b x Hab Hx Wx) as (fmin & fmax & y & Ef & Hy & Wy & Vf & Ly). destruct (sweep_jerk_select a b Hab) as (jmin & jmax & Ej & J1 & J2 & J3).
    exists y, (ext_value jmax). split; [exact Hy|]. split; [exact Wy|]. split.
    { intros z Hz Wz. destruct (sweep_min a b z Hab Hz Wz) as (fmin' & fmax' & y' & Ef' & _ & _ & Vf' & Lz). rewrite Ef in Ef'. apply Some_inj in Ef'. injection Ef' as <- <-. lra. }
    split; [exact J1|]. split; [exact J2|]. split; [exact J3|]. unfold roll_pitch_section. rewrite Ef, Ej, Vf. change (getConstraint (ck_input sweep_ck) kOmegaXYMax) with (Some 1). rnum.
    rewrite (proj2 (Rltb_true _ (thrust ex_sweep y))); [reflexivity|]. pose proof (ex_sweep_thrust_pos y). unfold nlit. rnum. unfold kg in *. lra.
  Qed.
  Lemma sweep_split b : 5 / 4 <= b -> roll_pitch_section (ck_input sweep_ck) fc jc 0 b = Ok (inr tt).
  Proof.
    intros Hb. destruct (sweep_section 0 b) as (y & j & Hy & Wy & My & _ & J & _ & ->); [lra|exists 0; split; [apply sweep_in; auto|lra]|]. rewrite J by lra.
    assert (K : 0 < kg) by (unfold kg; lra). pose proof (ex_sweep_thrust_pos y) as P. specialize (My (5 / 4)). rewrite sweep_in in My. specialize (My ltac:(auto) ltac:(lra)).
    assert (Q : 1 * kg <= thrust ex_sweep (5 / 4) <= 1 * kg) by (apply ex_sweep_thrust_between; lra). replace (thrust ex_sweep y) with kg by lra.
    rewrite (proj2 (Rltb_true _ _)); [reflexivity|]. rewrite <- sqrt_1. apply sqrt_lt_1_alt. replace (2 * kg / kg) with 2 by (field; lra). lra.
  Qed.
  Lemma sweep_accept a b : a <= b -> (exists x, In x (0 :: 4 :: ts) /\ a <= x <= b) -> (forall x, In x (0 :: 4 :: ts) -> a <= x <= b -> 2 * kg <= thrust ex_sweep x) ->
    roll_pitch_section (ck_input sweep_ck) fc jc a b = Ok (inl kInputFeasible).
  Proof.
    intros Hab Hx Hf. destruct (sweep_section a b Hab Hx) as (y & j & Hy & Wy & My & J & _ & _ & ->). specialize (Hf y Hy Wy). assert (K : 0 < kg) by (unfold kg; lra).
    rewrite (proj2 (Rltb_false _ _)); [reflexivity|]. rewrite <- sqrt_1. apply sqrt_le_1_alt. apply (Rmult_le_reg_r (thrust ex_sweep y)); [lra|]. unfold Rdiv. rewrite Rmult_assoc, Rinv_l by lra. lra.
  Qed.
  Lemma sweep_unseen : roll_pitch_section (ck_input sweep_ck) fc jc 1 2 = Ok (inl kInputFeasible).
  Proof.
    destruct (sweep_section 1 2) as (y & j & Hy & Wy & My & _ & _ & J & ->); [lra|exists (5 / 4); split; [apply sweep_in; auto|lra]|]. rewrite J by lra.
    rewrite (proj2 (Rltb_false _ _)); [reflexivity|]. rewrite sqrt_neg_0; [lra|]. pose proof dbl_lowest_neg. pose proof (ex_sweep_thrust_pos y). assert (K : 0 < kg) by (unfold kg; lra).
    unfold Rdiv. assert (0 < / thrust ex_sweep y) by (apply Rinv_0_lt_compat; lra). nra.
  Qed.
  Lemma sweep_run : recursiveRollPitch (ck_input sweep_ck) (1 / 20) 3 fc jc 0 4 = Ok (Some kInputFeasible).
  Proof.
    unfold recursiveRollPitch. cbn [halving]. rnum.
    assert (H24 : (0 + 4) / 2 = 2) by lra. rewrite H24. assert (H12 : (0 + 2) / 2 = 1) by lra. rewrite H12.
    rewrite !(proj2 (Rltb_false _ (1 / 20))) by lra. rewrite (sweep_split 4), (sweep_split 2) by lra. cbn [obind].
    assert (A1 : roll_pitch_section (ck_input sweep_ck) fc jc 0 1 = Ok (inl kInputFeasible)).
    { apply sweep_accept; [lra|exists 0; split; [apply sweep_in; auto|lra]|]. intros x Hx Wx. apply sweep_in in Hx. destruct Hx as [-> |[-> | ->]]; [|lra|lra]. apply (ex_sweep_thrust_between 0 2 3); lra. }
    assert (A2 : roll_pitch_section (ck_input sweep_ck) fc jc 2 4 = Ok (inl kInputFeasible)).
    { apply sweep_accept; [lra|exists 4; split; [apply sweep_in; auto|lra]|]. intros x Hx Wx. apply sweep_in in Hx. destruct Hx as [-> |[-> | ->]]; [lra| |lra]. apply (ex_sweep_thrust_between 4 2 6); lra. }
    rewrite A1. cbn [obind]. rewrite sweep_unseen. cbn [obind]. rewrite A2. reflexivity.
  Qed.
End Sweep.
(** Accepted although the rate 2 exceeds the limit 1, and its square. *)
Theorem C59_sections_refuted : exists rf ck s fuel, analysable rf s /\ sane_checker ck /\ 
  analytic_check rf ck (1 / 20) fuel s = Ok (Some kInputFeasible) /\
  exists t, 0 <= t <= seg_time s /\ 0 < thrust s t /\ broken_for (l_roll_pitch (limits_of (ck_input ck))) (fun l => l < roll_pitch_rate s t /\ l ^ 2 < roll_pitch_rate s t).
Proof.
  exists perfect_rf, sweep_ck, ex_sweep, 3%nat. split; [exact ex_sweep_analysable|]. split; [exact (ex_turn_sane 1 ltac:(lra))|]. split.
  - destruct ex_sweep_candidates as (ts & Hts & ->). apply sweep_run, Hts.
  - exists (5 / 4). split; [cbn; lra|]. split; [pose proof (ex_sweep_thrust_pos (5 / 4)); unfold kg in *; lra|].
    change (limits_of (ck_input sweep_ck)) with (mkLimits None None None (Some 1) None None). cbn [l_roll_pitch broken_for]. rewrite ex_sweep_rate. lra.
Qed.
Print Assumptions C59_sections_refuted.
Example C70_negative_time_example : let s := mkSegment 4 (seg_polys ex_turn) (-1) in let ck := mkChecker [(kVMax, 3)] [] [0; 0; 980665 / 100000] in
  seg_wf s /\ (4 <= seg_N s <= 22)%nat /\ seg_D s = 3%nat /\ seg_time s < 0 /\ getConstraint (ck_input ck) kVMax = Some 3 /\ analytic_check perfect_rf ck (1 / 20) 5 s = UB.
Proof.
  intros s ck. assert (W : seg_wf s) by (repeat constructor). assert (G : getConstraint (ck_input ck) kVMax = Some 3) by reflexivity.
  split; [exact W|]. split; [cbn; lia|]. split; [reflexivity|]. split; [cbn; lra|]. split; [exact G|].
  apply C70_negative_time_undefined_finding; [exact W|cbn; lia|left; reflexivity|cbn; lra|reflexivity|exists 3; auto].
Qed.
