(** C57, C58: the recursive input feasibility check. *)
From Coq Require Import ZArith Reals List Bool Lia Lra.
From Coquelicot Require Import Coquelicot.
From Verif Require Import Num RSum SpecPoly SpecSegment SpecFeasibility ModelPolynomial ModelSegment ModelVertex ModelTrajectory ModelInput ModelFeasibility
  ProofPolynomial ExtremaMath ProofExtrema ProofSegment ProofSegment2 ProofRoots ProofFeasibility ProofFeasibility2.
Import ListNotations.
Notation length := List.length.
Open Scope R_scope.

(** The polynomials have the declared length, at most 22 coefficients; the root
    finder finds the real zeros in the segment of the derivatives of order 2 to 4;
    the derivatives of order 1 to 3 stay below the largest double. *)
Definition well_posed (rf : @root_oracle R) (s : segment R) : Prop :=
  seg_wf s /\ (seg_N s <= 22)%nat /\
  (forall k d cs, (k < seg_D s)%nat -> (2 <= d <= 4)%nat -> (forall t, poly_fun cs t = seg_fun s k d t) ->
     covers_real_roots (poly_fun cs) 0 (seg_time s) (snd (rf cs))) /\
  (forall k d t, (k < seg_D s)%nat -> (1 <= d <= 3)%nat -> 0 <= t <= seg_time s -> Rabs (seg_fun s k d t) < IZR (2 ^ 1024 - 2 ^ 971)).
(** The gravity vector points along the third axis, and a limit of the roll and
    pitch rates is smaller than the largest double. *)
Definition sane_checker (ck : checker R) : Prop :=
  ck_gravity ck = [0; 0; 980665 / 100000] /\ forall l, getConstraint (ck_input ck) kOmegaXYMax = Some l -> l < IZR (2 ^ 1024 - 2 ^ 971).

Lemma below_of rf s k d : well_posed rf s -> (k < seg_D s)%nat -> (1 <= d <= 3)%nat -> below_max s k d.
Proof. intros (_ & _ & _ & H) Hk Hd t Ht. apply H; assumption. Qed.
Lemma found_of rf s k d : well_posed rf s -> (k < seg_D s)%nat -> (2 <= d <= 4)%nat -> roots_found rf s k d.
Proof. intros (_ & _ & H & _) Hk Hd cs Hcs. apply (H k d); assumption. Qed.
Lemma axis_roots_short rf (s : segment R) (d : nat) : seg_wf s -> (3 <= seg_D s)%nat -> (seg_N s < d)%nat -> axis_roots rf s true (Z.of_nat d) = Abort.
Proof.
  intros Hw HD Hd. unfold axis_roots. cbn [seq ofold]. rewrite seg_index_ok by lia. cbn [obind]. unfold poly_getRoots, poly_getCoefficients.
  rewrite (seg_wf_nth s 0 Hw) by lia. rewrite (proj2 (Z.ltb_lt _ _)) by lia. reflexivity.
Qed.
Lemma axes_of rf s needed (d : nat) : well_posed rf s -> (3 <= seg_D s)%nat -> (1 <= d <= 3)%nat ->
  axis_roots rf s needed (Z.of_nat (S d)) = Abort /\ (seg_N s < S d)%nat /\ needed = true \/
  exists r, axis_roots rf s needed (Z.of_nat (S d)) = Ok r /\ match r with inl v => v = kInputIndeterminable | inr roots => needed = true -> axes_ok s d roots end.
Proof.
  intros Hp HD Hd. assert (Hg : good_seg s) by (destruct Hp as (A & B & _); repeat split; assumption).
  destruct (le_lt_dec (S d) (seg_N s)) as [L|L].
  - right. apply axis_roots_spec; try assumption; try lia. intros _ i Hi. split; [apply found_of; [assumption|lia|lia]|apply (below_of rf); [assumption|lia|lia]].
  - destruct needed.
    + left. split; [|auto]. apply axis_roots_short; [apply Hp|assumption|lia].
    + right. eexists. split; [reflexivity|discriminate].
Qed.

Lemma axis_roots_success rf (s : segment R) : (3 <= seg_D s)%nat -> (forall cs, fst (rf cs) = true) -> forall nd d v, axis_roots rf s nd d <> Ok (inl v).
Proof.
  intros HD Hf nd d v. unfold axis_roots. destruct nd; [|discriminate]. cbn [seq ofold]. rewrite !seg_index_ok by lia. cbn [obind].
  generalize (nth 0 (seg_polys s) []) (nth 1 (seg_polys s) []) (nth 2 (seg_polys s) []). intros p0 p1 p2.
  unfold poly_getRoots. destruct (poly_getCoefficients p0 d) as [c0| | |]; cbn [obind]; try discriminate. rewrite Hf. cbn [obind].
  destruct (poly_getCoefficients p1 d) as [c1| | |]; cbn [obind]; try discriminate. rewrite Hf. cbn [obind].
  destruct (poly_getCoefficients p2 d) as [c2| | |]; cbn [obind]; try discriminate. rewrite Hf. discriminate.
Qed.

(** What the check does, in one place. *)
Lemma recursive_check_spec rf ck m fuel (s : segment R) : well_posed rf s -> sane_checker ck -> 0 <= m ->
  (seg_N s < 4)%nat /\ recursive_check rf ck m fuel s = Abort \/
  exists r, recursive_check rf ck m fuel s = Ok r /\
    (r = Some kInputFeasible -> forall t, 0 <= t <= seg_time s -> motion_within (limits_of (ck_input ck)) s t /\ yaw_within (limits_of (ck_input ck)) s t) /\
    (forall v, r = Some v -> v <> kInputFeasible -> v <> kInputIndeterminable -> v <> kInputInfeasibleRollPitchRates /\ exists t, 0 <= t <= seg_time s /\ violated (limits_of (ck_input ck)) s v t) /\
    (r = None -> m * 2 ^ fuel <= seg_time s).
Proof.
  intros Hp (HG & Hm) Hms. unfold recursive_check. destruct (dimension_ok s) eqn:Hd; cbn [negb].
  2:{ right. eexists. split; [reflexivity|]. split; [discriminate|]. split; [intros v E; apply Some_inj in E; congruence|discriminate]. }
  apply dimension_ok_iff in Hd. assert (HD : (3 <= seg_D s)%nat) by lia.
  assert (Hg : good_seg s) by (destruct Hp as (A & B & _); repeat split; assumption).
  set (c := ck_input ck) in *.
  assert (Ind : forall v, v = kInputIndeterminable -> exists r, @Ok (option feasibility) (Some v) = Ok r /\
    (r = Some kInputFeasible -> forall t, 0 <= t <= seg_time s -> motion_within (limits_of c) s t /\ yaw_within (limits_of c) s t) /\
    (forall v, r = Some v -> v <> kInputFeasible -> v <> kInputIndeterminable -> v <> kInputInfeasibleRollPitchRates /\ exists t, 0 <= t <= seg_time s /\ violated (limits_of c) s v t) /\
    (r = None -> m * 2 ^ fuel <= seg_time s)).
  { intros v ->. eexists. split; [reflexivity|]. split; [discriminate|]. split; [intros w E; apply Some_inj in E; congruence|discriminate]. }
  destruct (axes_of rf s (hasConstraint c kVMax) 1 Hp HD ltac:(lia)) as [(E1 & L & _)|(r1 & E1 & H1)];
    [left; split; [lia|]; change (Z.of_nat 2) with 2%Z in E1; rewrite E1; reflexivity|].
  change (Z.of_nat 2) with 2%Z in E1. rewrite E1. cbn [obind]. destruct r1 as [v|ra]; [right; apply Ind, H1|].
  destruct (axes_of rf s (needs_thrust c) 2 Hp HD ltac:(lia)) as [(E2 & L & _)|(r2 & E2 & H2)];
    [left; split; [lia|]; change (Z.of_nat 3) with 3%Z in E2; rewrite E2; reflexivity|].
  change (Z.of_nat 3) with 3%Z in E2. rewrite E2. cbn [obind]. destruct r2 as [v|rj]; [right; apply Ind, H2|].
  destruct (axes_of rf s (hasConstraint c kOmegaXYMax) 3 Hp HD ltac:(lia)) as [(E3 & L & _)|(r3 & E3 & H3)];
    [left; split; [lia|]; change (Z.of_nat 4) with 4%Z in E3; rewrite E3; reflexivity|].
  change (Z.of_nat 4) with 4%Z in E3. rewrite E3. cbn [obind]. destruct r3 as [v|rs]; [right; apply Ind, H3|].
  right. change (@n0 R R_ops) with 0. unfold recursiveFeasibility.
  destruct (Rle_lt_dec 0 (seg_time s)) as [HT|HT].
  2:{ assert (E : halving m (section_check ck s ra rj rs) fuel 0 (seg_time s) = Ok (Some kInputIndeterminable)).
      { destruct fuel; cbn [halving]; rnum; rewrite (proj2 (Rltb_true (seg_time s - 0) m)) by lra; reflexivity. }
      rewrite E. cbn [obind]. apply Ind. reflexivity. }
  destruct (halving_spec m (section_check ck s ra rj rs) (motion_within (limits_of c) s)
    (fun v t => v <> kInputInfeasibleRollPitchRates /\ violated (limits_of c) s v t) fuel 0 (seg_time s) HT) as (r & Er & F & B & O & _).
  { intros x y X1 X2 X3. destruct (section_check_spec ck s ra rj rs x y) as (r & Er & N & F & J & R); try assumption.
    - unfold section_of. lra.
    - split; [exact H1|split; [exact H2|exact H3]].
    - exists r. split; [exact Er|]. split; [exact N|]. split; [exact F|]. destruct r as [v|]; [|exact I].
      destruct J as (t & T1 & T2). exists t. split; [exact T1|]. split; [congruence|exact T2]. }
  rewrite Er. cbn [obind].
  destruct r as [v|].
  2:{ exists None. split; [reflexivity|]. split; [discriminate|]. split; [discriminate|]. intros _. specialize (O eq_refl). lra. }
  assert (Other : v <> kInputFeasible -> exists r, @Ok (option feasibility) (Some v) = Ok r /\
    (r = Some kInputFeasible -> forall t, 0 <= t <= seg_time s -> motion_within (limits_of c) s t /\ yaw_within (limits_of c) s t) /\
    (forall v, r = Some v -> v <> kInputFeasible -> v <> kInputIndeterminable -> v <> kInputInfeasibleRollPitchRates /\ exists t, 0 <= t <= seg_time s /\ violated (limits_of c) s v t) /\
    (r = None -> m * 2 ^ fuel <= seg_time s)).
  { intros N. exists (Some v). split; [reflexivity|]. split; [intros E; apply Some_inj in E; congruence|]. split; [|discriminate].
    intros w E N1 N2. apply Some_inj in E. subst w. destruct (B v eq_refl N2) as (t & T1 & T2 & T3). split; [exact T2|]. exists t. auto. }
  destruct v; try (apply Other; discriminate).
  destruct (yaw_check_spec rf c s Hg HT) as (ry & Ey & Ny & Ny' & Hy).
  { intros D4 _. split; [apply found_of; [assumption|lia|lia]|apply (below_of rf); [assumption|lia|lia]]. }
  { intros D4 _. split; [apply found_of; [assumption|lia|lia]|apply (below_of rf); [assumption|lia|lia]]. }
  rewrite Ey. unfold finish. cbn [obind]. destruct ry as [v|[]].
  - exists (Some v). split; [reflexivity|]. split; [intros E; apply Some_inj in E; congruence|]. split; [|discriminate].
    intros w E N1 N2. apply Some_inj in E. subst w. destruct Hy as [Hy|(t & T1 & T2)]; [congruence|].
    split; [congruence|exists t; auto].
  - exists (Some kInputFeasible). split; [reflexivity|]. split; [|split; [congruence|discriminate]].
    intros _ t Ht. split; [apply F; [reflexivity|exact Ht]|apply Hy, Ht].
Qed.

(** *** C57 *)
Theorem C57_feasible_is_sound rf ck m fuel (s : segment R) : well_posed rf s -> sane_checker ck -> 0 <= m ->
  recursive_check rf ck m fuel s = Ok (Some kInputFeasible) -> forall t, 0 <= t <= seg_time s ->
  thrust_within (limits_of (ck_input ck)) s t /\ speed_within (limits_of (ck_input ck)) s t /\
  roll_pitch_within (limits_of (ck_input ck)) s t /\ yaw_within (limits_of (ck_input ck)) s t.
Proof.
  intros A B C E t Ht. destruct (recursive_check_spec rf ck m fuel s A B C) as [(_ & E')|(r & E' & F & _)]; rewrite E' in E; [discriminate|].
  apply Ok_inj in E. destruct (F E t Ht) as ((X & Y & Z) & W). auto.
Qed.
Print Assumptions C57_feasible_is_sound.

(** *** C58 *)
Theorem C58_infeasible_is_justified rf ck m fuel (s : segment R) v : well_posed rf s -> sane_checker ck -> 0 <= m ->
  recursive_check rf ck m fuel s = Ok (Some v) -> v <> kInputFeasible -> v <> kInputIndeterminable ->
  exists t, 0 <= t <= seg_time s /\ violated (limits_of (ck_input ck)) s v t.
Proof.
  intros A B C E N1 N2. destruct (recursive_check_spec rf ck m fuel s A B C) as [(_ & E')|(r & E' & _ & J & _)]; rewrite E' in E; [discriminate|].
  apply Ok_inj in E. apply (J v E N1 N2).
Qed.
Print Assumptions C58_infeasible_is_justified.

(** The recursion ends, with the same result for every larger bound on its depth:
    a verdict, or an abort for polynomials with fewer than four coefficients. *)
Theorem C58_terminates rf ck m (s : segment R) : well_posed rf s -> sane_checker ck -> 0 < m ->
  exists result depth, ((exists v, result = Ok (Some v)) \/ (seg_N s < 4)%nat /\ result = Abort) /\ seg_time s < m * 2 ^ depth /\
    forall fuel, (depth <= fuel)%nat -> recursive_check rf ck m fuel s = result.
Proof.
  intros A B C.
  assert (Hd : exists depth, seg_time s < m * 2 ^ depth).
  { destruct (Pow_x_infinity 2 ltac:(rewrite Rabs_pos_eq; lra) (seg_time s / m + 1)) as (n & Hn). specialize (Hn n (le_n n)).
    exists n. rewrite Rabs_pos_eq in Hn by (apply pow_le; lra).
    apply (Rmult_lt_reg_r (/ m)); [apply Rinv_0_lt_compat, C|]. replace (m * 2 ^ n * / m) with (2 ^ n) by (field; lra). unfold Rdiv in Hn. lra. }
  destruct Hd as (depth & Hd). exists (recursive_check rf ck m depth s), depth.
  assert (R : (exists v, recursive_check rf ck m depth s = Ok (Some v)) \/ (seg_N s < 4)%nat /\ recursive_check rf ck m depth s = Abort).
  { destruct (recursive_check_spec rf ck m depth s A B ltac:(lra)) as [L|(r & E & _ & _ & O)]; [right; exact L|].
    destruct r as [v|]; [|specialize (O eq_refl); lra]. left. exists v. exact E. }
  split; [exact R|]. split; [exact Hd|]. intros fuel Hf.
  assert (Q : recursive_check rf ck m depth s <> Ok None /\ forall (r : outcome (option feasibility)), r = recursive_check rf ck m depth s -> r = Abort \/ exists v, r = Ok (Some v)).
  { split; [|intros r ->; tauto]. destruct R as [(v & ->)|(_ & ->)]; discriminate. }
  destruct Q as (_ & Q). specialize (Q _ eq_refl). revert Q. unfold recursive_check. destruct (negb _); [auto|].
  destruct (axis_roots rf s (hasConstraint (ck_input ck) kVMax) 2) as [[|]| | |]; cbn [obind]; try reflexivity.
  destruct (axis_roots rf s (needs_thrust (ck_input ck)) 3) as [[|]| | |]; cbn [obind]; try reflexivity.
  destruct (axis_roots rf s (hasConstraint (ck_input ck) kOmegaXYMax) 4) as [[|]| | |] eqn:E4; cbn [obind]; try reflexivity.
  unfold recursiveFeasibility. destruct (halving m (section_check ck s l l0 l1) depth n0 (seg_time s)) as [[w|]| | |] eqn:E; cbn [obind]; try (intros [Q|(v & Q)]; discriminate).
  - rewrite (halving_enough _ _ _ _ _ _ _ Hf E). reflexivity.
  - intros _. rewrite (halving_abort _ _ _ _ _ _ Hf E). reflexivity.
Qed.
Print Assumptions C58_terminates.

(** The recursive check never names the roll and pitch rates: a motion that turns
    too fast ends as indeterminable, or is halved for ever. *)
Theorem C58_roll_pitch_never_reported rf ck m fuel (s : segment R) : well_posed rf s -> sane_checker ck -> 0 <= m ->
  recursive_check rf ck m fuel s <> Ok (Some kInputInfeasibleRollPitchRates).
Proof.
  intros A B C E. destruct (recursive_check_spec rf ck m fuel s A B C) as [(_ & E')|(r & E' & _ & J & _)]; rewrite E' in E; [discriminate|].
  apply Ok_inj in E. destruct (J _ E) as (N & _); try discriminate. apply N. reflexivity.
Qed.
Print Assumptions C58_roll_pitch_never_reported.

(** Polynomials with fewer than four coefficients abort the check of the roll and
    pitch rates. *)
Theorem C58_short_polynomials_abort rf ck m fuel (s : segment R) l : well_posed rf s -> sane_checker ck -> 0 <= m ->
  (forall cs, fst (rf cs) = true) -> (seg_D s = 3 \/ seg_D s = 4)%nat ->
  getConstraint (ck_input ck) kOmegaXYMax = Some l -> (seg_N s < 4)%nat -> recursive_check rf ck m fuel s = Abort.
Proof.
  intros A B C Hf HD Hl HN. unfold recursive_check. rewrite (proj2 (dimension_ok_iff s) HD). cbn [negb].
  assert (No : hasConstraint (ck_input ck) kOmegaXYMax = true) by (rewrite has_get, Hl; reflexivity). rewrite No.
  pose proof (axis_roots_success rf s ltac:(lia) Hf) as NoInl.
  destruct (axes_of rf s (hasConstraint (ck_input ck) kVMax) 1 A ltac:(lia) ltac:(lia)) as [(E1 & _)|(r1 & E1 & _)]; change (Z.of_nat 2) with 2%Z in E1; rewrite E1; [reflexivity|].
  destruct r1; [exfalso; eapply NoInl; eassumption|]. cbn [obind].
  destruct (axes_of rf s (needs_thrust (ck_input ck)) 2 A ltac:(lia) ltac:(lia)) as [(E2 & _)|(r2 & E2 & _)]; change (Z.of_nat 3) with 3%Z in E2; rewrite E2; [reflexivity|].
  destruct r2; [exfalso; eapply NoInl; eassumption|]. cbn [obind].
  change 4%Z with (Z.of_nat 4). rewrite axis_roots_short; [reflexivity|apply A|lia|lia].
Qed.
Print Assumptions C58_short_polynomials_abort.

(** *** The motion x = (2/3) g t^3 (jerk 4 g), hovering otherwise *)
Definition ex_turn : segment R := mkSegment 4 [[0; 0; 0; 4 * kg / 6]; [0; 0; 0; 0]; [0; 0; 0; 0]] 1.
Definition ex_turn_ck (limit : R) : checker R := mkChecker [(kOmegaXYMax, limit)] [] [0; 0; 980665 / 100000].
Definition cubic (k : nat) : R := if Nat.eqb k 0 then 4 * kg / 6 else 0.
Lemma ex_turn_poly k d t : seg_fun ex_turn k d t = dpoly (nth k (seg_polys ex_turn) []) d t.
Proof. apply seg_fun_dpoly. Qed.
Ltac turn := intros; rewrite ex_turn_poly; unfold dpoly, cubic;
  match goal with |- context [nth ?k (seg_polys ex_turn) []] => destruct k as [|[|[|k]]] end;
  try (match goal with |- context [nth (S (S (S ?k)))] => destruct k end);
  cbn [seg_polys ex_turn nth length rsum Nat.eqb]; rewrite ?bc_step, ?bc_0; cbn [Nat.sub INR pow]; unfold kg; field.
Lemma ex_turn_1 k t : seg_fun ex_turn k 1 t = 3 * cubic k * t ^ 2.
Proof. turn. Qed.
Lemma ex_turn_2 k t : seg_fun ex_turn k 2 t = 6 * cubic k * t.
Proof. turn. Qed.
Lemma ex_turn_3 k t : seg_fun ex_turn k 3 t = 6 * cubic k.
Proof. turn. Qed.
Lemma cubic_bound k : 0 <= cubic k <= 7.
Proof. unfold cubic, kg. destruct (Nat.eqb k 0); lra. Qed.
Lemma big : 1000 < IZR (2 ^ 1024 - 2 ^ 971).
Proof. apply IZR_lt. reflexivity. Qed.
Lemma ex_turn_well_posed : well_posed perfect_rf ex_turn.
Proof.
  split; [repeat constructor|]. split; [cbn; lia|]. split; [intros; apply perfect_rf_ok|].
  intros k d t _ Hd Ht. cbn [ex_turn seg_time] in Ht. eapply Rle_lt_trans; [|apply big]. pose proof (cubic_bound k) as (C1 & C2).
  destruct d as [|[|[|[|d]]]]; try lia; rewrite ?ex_turn_1, ?ex_turn_2, ?ex_turn_3; apply Rabs_le; cbn [pow]; nra.
Qed.
Lemma ex_turn_sane l : l < 1000 -> sane_checker (ex_turn_ck l).
Proof.
  intros H. split; [reflexivity|]. intros l' E. change (Some l = Some l') in E. apply Some_inj in E. subst l'. eapply Rlt_trans; [exact H|exact big].
Qed.
(** A motion with constant acceleration (3 coefficients) meets the hypotheses of [C58_short_polynomials_abort]. *)
Definition ex_short : segment R := mkSegment 3 [[0; 1; 1]; [0; 0; 0]; [0; 0; 0]] 1.
Example C58_short_example : well_posed perfect_rf ex_short /\ sane_checker (ex_turn_ck 3) /\
  recursive_check perfect_rf (ex_turn_ck 3) (setting (1 / 20)) 5 ex_short = Abort.
Proof.
  assert (W : well_posed perfect_rf ex_short).
  { split; [repeat constructor|]. split; [cbn; lia|]. split; [intros; apply perfect_rf_ok|].
    intros k d t _ Hd Ht. cbn [ex_short seg_time] in Ht. eapply Rle_lt_trans; [|apply big]. rewrite seg_fun_dpoly. unfold dpoly.
    destruct k as [|[|[|k]]]; try destruct k as [|k]; destruct d as [|[|[|[|d]]]]; try lia;
      cbn [seg_polys ex_short nth length rsum]; rewrite ?bc_step, ?bc_0; cbn [Nat.sub INR pow]; apply Rabs_le; nra. }
  split; [exact W|]. split; [apply ex_turn_sane; lra|].
  apply (C58_short_polynomials_abort perfect_rf (ex_turn_ck 3) (setting (1 / 20)) 5 ex_short 3 W); try (cbn; lia || reflexivity).
  - apply ex_turn_sane; lra.
  - unfold setting. rnum. apply Rabs_pos.
Qed.
Lemma ex_turn_thrust t : thrust ex_turn t ^ 2 = (4 * kg * t) ^ 2 + kg ^ 2.
Proof. rewrite thrust_sqr. unfold thrust_vec. rewrite !ex_turn_2. unfold cubic, gravity, kg. cbn [Nat.eqb]. field. Qed.
Lemma ex_turn_thrust_pos t : 0 < thrust ex_turn t.
Proof.
  destruct (Rle_lt_or_eq_dec 0 (thrust ex_turn t)) as [|E]; [apply norm3_pos|assumption|]. pose proof (ex_turn_thrust t) as Q. rewrite <- E in Q. unfold kg in Q. cbn [pow] in Q. nra.
Qed.
(** At the start the roll/pitch rate is 4. *)
Lemma ex_turn_rate : roll_pitch_rate ex_turn 0 = 4.
Proof.
  rewrite (roll_pitch_rate_eq ex_turn 0 (ex_turn_thrust_pos 0)). unfold jerk. rewrite norm3_sqr, ex_turn_thrust. unfold dot3, thrust_vec. rewrite !ex_turn_3, !ex_turn_2.
  match goal with |- sqrt ?x = 4 => replace x with (4 ^ 2); [apply sqrt_pow2; lra|] end. unfold cubic, gravity, kg. cbn [Nat.eqb]. field.
Qed.

(** Finding: with a minimum section time of 0 the recursion may go on for ever;
    here for a motion that exceeds the roll/pitch rate limit at its start. *)
Theorem C58_zero_section_finding : exists rf ck s, well_posed rf s /\ sane_checker ck /\ forall fuel, recursive_check rf ck 0 fuel s = Ok None.
Proof.
  exists perfect_rf, (ex_turn_ck 3), ex_turn. split; [exact ex_turn_well_posed|]. split; [apply ex_turn_sane; lra|]. intros fuel.
  pose proof ex_turn_well_posed as Hp. pose proof (ex_turn_sane 3 ltac:(lra)) as (HG & Hm).
  assert (Hg : good_seg ex_turn) by (repeat split; [apply Hp|apply Hp|cbn; lia]).
  unfold recursive_check. cbn [dimension_ok]. change (dimension_ok ex_turn) with true. cbn [negb].
  change (hasConstraint (ck_input (ex_turn_ck 3)) kVMax) with false. change (needs_thrust (ck_input (ex_turn_ck 3))) with true. change (hasConstraint (ck_input (ex_turn_ck 3)) kOmegaXYMax) with true.
  change (axis_roots perfect_rf ex_turn false 2) with (@Ok (feasibility + list (list (R * R))) (inr [])). cbn [obind].
  pose proof (axis_roots_success perfect_rf ex_turn ltac:(cbn; lia) (fun _ => eq_refl)) as NoInl.
  destruct (axes_of perfect_rf ex_turn true 2 Hp ltac:(cbn; lia) ltac:(lia)) as [(_ & L & _)|(r2 & E2 & H2)]; [cbn in L; lia|]. change (Z.of_nat 3) with 3%Z in E2. rewrite E2. cbn [obind].
  destruct r2 as [v|rj]; [exfalso; eapply NoInl; eassumption|].
  destruct (axes_of perfect_rf ex_turn true 3 Hp ltac:(cbn; lia) ltac:(lia)) as [(_ & L & _)|(r3 & E3 & H3)]; [cbn in L; lia|]. change (Z.of_nat 4) with 4%Z in E3. rewrite E3. cbn [obind].
  destruct r3 as [v|rs]; [exfalso; eapply NoInl; eassumption|].
  unfold recursiveFeasibility. change (@n0 R R_ops) with 0.
  destruct (halving_spec 0 (section_check (ex_turn_ck 3) ex_turn [] rj rs) (motion_within (limits_of (ck_input (ex_turn_ck 3))) ex_turn)
    (fun v t => v <> kInputInfeasibleRollPitchRates /\ violated (limits_of (ck_input (ex_turn_ck 3))) ex_turn v t) fuel 0 (seg_time ex_turn) ltac:(cbn; lra)) as (r & Er & F & B & _ & S).
  { intros x y X1 X2 X3. destruct (section_check_spec (ex_turn_ck 3) ex_turn [] rj rs x y) as (r & Er & N & F & J & R); try assumption.
    - unfold section_of. cbn [ex_turn seg_time] in *. lra.
    - split; [discriminate|split; [exact H2|exact H3]].
    - exists r. split; [exact Er|]. split; [exact N|]. split; [exact F|]. destruct r as [v|]; [|exact I].
      destruct J as (t & T1 & T2). exists t. split; [exact T1|]. split; [congruence|exact T2]. }
  rewrite Er. cbn [obind]. destruct r as [v|]; [|reflexivity]. exfalso.
  destruct v.
  - destruct (F eq_refl 0) as (_ & _ & Q); [cbn; lra|]. unfold roll_pitch_within in Q. cbn in Q. rewrite ex_turn_rate in Q. lra.
  - destruct (S eq_refl) as (x & y & X1 & X2 & X3). lra.
  - destruct (B _ eq_refl ltac:(discriminate)) as (t & _ & _ & Q). exact Q.
  - destruct (B _ eq_refl ltac:(discriminate)) as (t & _ & _ & Q). exact Q.
  - destruct (B _ eq_refl ltac:(discriminate)) as (t & _ & _ & Q). exact Q.
  - destruct (B _ eq_refl ltac:(discriminate)) as (t & _ & Q & _). apply Q. reflexivity.
  - destruct (B _ eq_refl ltac:(discriminate)) as (t & _ & _ & Q & _). discriminate Q.
  - destruct (B _ eq_refl ltac:(discriminate)) as (t & _ & _ & Q & _). discriminate Q.
Qed.
Print Assumptions C58_zero_section_finding.

(** A limit of 5 is accepted (in the first section); a lower thrust limit of 2 g
    is refused, with the lower thrust limit named. *)
Lemma ex_turn_axes needed (d : nat) : (1 <= d <= 3)%nat ->
  exists roots, axis_roots perfect_rf ex_turn needed (Z.of_nat (S d)) = Ok (inr roots) /\ (needed = true -> axes_ok ex_turn d roots).
Proof.
  intros Hd. destruct (axes_of perfect_rf ex_turn needed d ex_turn_well_posed ltac:(cbn; lia) Hd) as [(_ & L & _)|(r & E & H)]; [cbn in L; lia|].
  destruct r as [v|roots]; [exfalso; eapply (axis_roots_success perfect_rf ex_turn); [cbn; lia|reflexivity|exact E]|]. exists roots. auto.
Qed.
Lemma ex_turn_good : good_seg ex_turn.
Proof. repeat split; [apply ex_turn_well_posed|apply ex_turn_well_posed|cbn; lia]. Qed.
Lemma ex_turn_extrema roots (d : nat) : axes_ok ex_turn d roots -> (d = 2 \/ d = 3)%nat -> forall i, (i < 3)%nat ->
  axis_extrema ex_turn 0 1 (Z.of_nat d) roots i = Ok (if Nat.eqb d 2 then 0 else 6 * cubic i, 6 * cubic i).
Proof.
  intros H Hd i Hi. destruct (axes_extrema ex_turn 0 1 d roots ex_turn_good ltac:(unfold section_of; cbn; lra) H) as (lo & hi & E).
  destruct (E i Hi) as (-> & (x & X1 & X2) & (y & Y1 & Y2) & B). pose proof (cubic_bound i).
  pose proof (B 0 ltac:(lra)) as B0. pose proof (B 1 ltac:(lra)) as B1. f_equal.
  destruct Hd as [-> | ->]; rewrite ?ex_turn_2, ?ex_turn_3 in *; cbn [Nat.eqb]; f_equal; nra.
Qed.
Example C57_example : well_posed perfect_rf ex_turn /\ sane_checker (ex_turn_ck 5) /\ sane_checker (checker_new [(kOmegaXYMax, 5)]) /\
  recursive_check perfect_rf (ex_turn_ck 5) (setting (1 / 20)) 5 ex_turn = Ok (Some kInputFeasible).
Proof.
  split; [exact ex_turn_well_posed|]. split; [apply ex_turn_sane; lra|]. split; [exact (ex_turn_sane 5 ltac:(lra))|].
  unfold setting. rnum. rewrite Rabs_pos_eq by lra.
  unfold recursive_check. change (dimension_ok ex_turn) with true. cbn [negb].
  change (hasConstraint (ck_input (ex_turn_ck 5)) kVMax) with false. change (needs_thrust (ck_input (ex_turn_ck 5))) with true. change (hasConstraint (ck_input (ex_turn_ck 5)) kOmegaXYMax) with true.
  change (axis_roots perfect_rf ex_turn false 2) with (@Ok (feasibility + list (list (R * R))) (inr [])). cbn [obind].
  destruct (ex_turn_axes true 2 ltac:(lia)) as (rj & E2 & H2). change (Z.of_nat 3) with 3%Z in E2. rewrite E2. cbn [obind].
  destruct (ex_turn_axes true 3 ltac:(lia)) as (rs & E3 & H3). change (Z.of_nat 4) with 4%Z in E3. rewrite E3. cbn [obind].
  pose proof (ex_turn_extrema rj 2 (H2 eq_refl) (or_introl eq_refl)) as X2. pose proof (ex_turn_extrema rs 3 (H3 eq_refl) (or_intror eq_refl)) as X3.
  change (Z.of_nat 2) with 2%Z in X2. change (Z.of_nat 3) with 3%Z in X3. cbn [Nat.eqb] in X2, X3.
  unfold recursiveFeasibility. change (@n0 R R_ops) with 0. change (seg_time ex_turn) with 1. cbn [halving].
  unfold section_check. rnum. rewrite (proj2 (Rltb_false (1 - 0) (1 / 20))) by lra.
  change (boundary_thrust (ex_turn_ck 5) ex_turn 0 1) with (@Ok (feasibility + unit) (inr tt)).
  change (boundary_velocity (ex_turn_ck 5) ex_turn 0 1) with (@Ok (feasibility + unit) (inr tt)).
  change (velocity_bound (ex_turn_ck 5) ex_turn [] 0 1) with (@Ok (feasibility + R) (inr 0)).
  unfold ebind. cbn [obind].
  unfold thrust_bounds, jerk_bound. change (needs_thrust (ck_input (ex_turn_ck 5))) with true. change (hasConstraint (ck_input (ex_turn_ck 5)) kOmegaXYMax) with true.
  cbn [seq ofold]. rewrite !X2, !X3 by lia. cbn [obind fst snd ex_turn_ck ck_gravity oget nth_error].
  change (with_limit (ck_input (ex_turn_ck 5)) kFMax) with (fun _ : R -> bool => false).
  cbn [obind].
  assert (C0 : cubic 0 = 4 * kg / 6) by reflexivity. assert (C1 : cubic 1 = 0) by reflexivity. assert (C2 : cubic 2 = 0) by reflexivity. rewrite C0, C1, C2.
  assert (K : 9 < kg < 10) by (unfold kg; lra).
  rewrite !max_abs_case, !nmin_Rmin'. change (980665 / 100000) with kg. change (@n0 R R_ops) with 0. rnum.
  replace (6 * (4 * kg / 6)) with (4 * kg) by field. replace (6 * 0) with 0 by ring. rewrite !Rplus_0_r, !Rplus_0_l, !Rabs_R0.
  rewrite !(Rabs_pos_eq kg), !(Rabs_pos_eq (4 * kg)) by lra. repeat (rewrite Rmin_left by lra). repeat (rewrite Rmax_right by lra).
  rewrite !(proj2 (Rltb_false (0 * (4 * kg)) 0)), !(proj2 (Rltb_false (0 * 0) 0)), !(proj2 (Rltb_false (kg * kg) 0)) by nra.
  unfold return_if. cbn [obind].
  assert (F1 : with_limit (ck_input (ex_turn_ck 5)) kFMin = fun _ => false) by reflexivity.
  assert (F3 : with_limit (ck_input (ex_turn_ck 5)) kVMax = fun _ => false) by reflexivity.
  assert (F4 : with_limit (ck_input (ex_turn_ck 5)) kOmegaXYMax = fun test => test 5) by reflexivity.
  rewrite F1, F3, F4. cbn [obind orb].
  replace (0 * 0 + 0 * 0 + kg * kg) with (kg * kg) by ring.
  rewrite (proj2 (Rltb_true (nlit 1 1000000) (kg * kg))) by (unfold nlit; rnum; nra).
  rewrite (proj2 (Rltb_false 5 _)); [reflexivity|].
  rewrite <- (sqrt_pow2 5) by lra. apply sqrt_le_1_alt. cbn [fst].
  replace ((4 * kg * (4 * kg) + 0 * 0 + 0 * 0) / (kg * kg)) with 16 by (field; lra). lra.
Qed.
Example C58_example : let ck := mkChecker [(kFMin, 2 * kg)] [] [0; 0; 980665 / 100000] in
  well_posed perfect_rf ex_turn /\ sane_checker ck /\ (4 <= seg_N ex_turn)%nat /\
  recursive_check perfect_rf ck (setting (1 / 20)) 5 ex_turn = Ok (Some kInputInfeasibleThrustLow).
Proof.
  intros ck. split; [exact ex_turn_well_posed|]. split; [split; [reflexivity|discriminate]|]. split; [cbn; lia|].
  unfold setting. rnum. rewrite Rabs_pos_eq by lra. unfold recursive_check. replace (dimension_ok ex_turn) with true by reflexivity. cbn [negb].
  replace (hasConstraint (ck_input ck) kVMax) with false by reflexivity. replace (needs_thrust (ck_input ck)) with true by reflexivity. replace (hasConstraint (ck_input ck) kOmegaXYMax) with false by reflexivity.
  replace (axis_roots perfect_rf ex_turn false 2) with (@Ok (feasibility + list (list (R * R))) (inr [])) by reflexivity. cbn [obind].
  destruct (ex_turn_axes true 2 ltac:(lia)) as (rj & E2 & H2). change (Z.of_nat 3) with 3%Z in E2. rewrite E2. cbn [obind].
  replace (axis_roots perfect_rf ex_turn false 4) with (@Ok (feasibility + list (list (R * R))) (inr [])) by reflexivity. cbn [obind].
  unfold recursiveFeasibility. replace (@n0 R R_ops) with 0 by reflexivity. replace (seg_time ex_turn) with 1 by reflexivity. cbn [halving]. rnum. rewrite (proj2 (Rltb_false (1 - 0) (1 / 20))) by lra.
  unfold section_check, boundary_thrust. replace (hasConstraint (ck_input ck) kFMin) with true by reflexivity. cbn [orb].
  rewrite !evaluateThrust_ok by (exact ex_turn_good || reflexivity). cbn [obind]. rewrite with_limit_spec. replace (getConstraint (ck_input ck) kFMin) with (Some (2 * kg)) by reflexivity.
  cbv beta iota. rewrite nmin_Rmin'. rnum. rewrite (proj2 (Rltb_true _ (2 * kg))); [cbn [return_if ebind obind]; reflexivity|].
  eapply Rle_lt_trans; [apply Rmin_l|]. pose proof (ex_turn_thrust 0) as Q. pose proof (ex_turn_thrust_pos 0). assert (K : 9 < kg < 10) by (unfold kg; lra). cbn [pow] in Q. nra.
Qed.
