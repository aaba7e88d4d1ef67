(** The analytic check. *)
From Coq Require Import ZArith Reals List Bool Lia Lra.
From Coquelicot Require Import Coquelicot.
From Verif Require Import Num RSum SpecPoly SpecSegment SpecFeasibility ModelPolynomial ModelSegment ModelVertex ModelTrajectory ModelInput ModelFeasibility
  ProofPolynomial ExtremaMath ProofExtrema ProofSegment ProofSegment2 ProofFeasibility ProofFeasibility2.
Import ListNotations.
Notation length := List.length.
Open Scope R_scope.

Lemma seg_norm3 (s : segment R) d t : seg_norm s kPosDim d t = norm3 (fun k => seg_fun s k d t).
Proof. unfold seg_norm, kPosDim, norm3. cbn [map lsum Z.to_nat Pos.to_nat Pos.iter_op Init.Nat.add]. change (Pos.to_nat 1) with 1%nat. change (Pos.to_nat 2) with 2%nat. f_equal. ring. Qed.
Lemma half_norm3 (s : segment R) d t : half_norm2' s kPosDim d t = dot3 (fun k => seg_fun s k d t) (fun k => seg_fun s k (S d) t).
Proof. unfold half_norm2', kPosDim, dot3. cbn [map lsum]. change (Z.to_nat 0) with 0%nat. change (Z.to_nat 1) with 1%nat. change (Z.to_nat 2) with 2%nat. ring. Qed.
Lemma dims3 {T} (s : segment T) : (3 <= seg_D s)%nat -> dims_ok s kPosDim.
Proof. intros H. unfold dims_ok, kPosDim. repeat constructor; lia. Qed.

(** ** The candidates of one norm *)
Lemma norm_candidates rf (s : segment R) (d : nat) T : seg_wf s -> (3 <= seg_D s)%nat -> (d < seg_N s <= 22)%nat -> (d < 21)%nat -> 0 <= T ->
  exists ts, seg_candidates rf s (Z.of_nat d) 0 T kPosDim = Ok (true, map (fun t => mkExtremum t (norm3 (fun k => seg_fun s k d t)) 0%Z) (0 :: T :: ts)) /\
    (forall t, In t ts -> 0 <= t <= T) /\
    exists cs, (forall t, poly_fun cs t = dot3 (fun k => seg_fun s k d t) (fun k => seg_fun s k (S d) t)) /\
      ts = map fst (filter (is_candidate 0 T) (snd (rf cs))).
Proof.
  intros Hw HD HN H21 HT. destruct (seg_candidateTimes_multi rf s d kPosDim 0 T Hw (dims3 s HD)) as (cs & P & L & E); try lia; [cbn; lia|].
  rewrite (proj2 (selectCandidates_spec 0 T _) HT) in E.
  eexists. split; [|split; [|exists cs; split; [intros t; rewrite P; apply half_norm3|reflexivity]]].
  - rewrite (seg_candidates_of_times rf s d kPosDim 0 T _ Hw (dims3 s HD) ltac:(lia) E). do 2 f_equal. apply map_ext. intros t. rewrite seg_norm3. reflexivity.
  - intros t Ht. apply in_map_iff in Ht. destruct Ht as ((re & im) & <- & Hf). apply filter_In in Hf. destruct Hf as (_ & Hc).
    cbn [fst]. apply is_candidate_iff in Hc. exact (proj2 Hc).
Qed.

Lemma norm_candidates_good (s : segment R) (rf : @root_oracle R) d T cs ts : 0 <= T ->
  (forall t, poly_fun cs t = dot3 (fun k => seg_fun s k d t) (fun k => seg_fun s k (S d) t)) ->
  covers_real_roots (poly_fun cs) 0 T (snd (rf cs)) -> ts = map fst (filter (is_candidate 0 T) (snd (rf cs))) ->
  (exists x, In x (0 :: T :: ts) /\ 0 <= x <= T /\ forall t, 0 <= t <= T -> norm3 (fun k => seg_fun s k d t) <= norm3 (fun k => seg_fun s k d x)) /\
  (exists x, In x (0 :: T :: ts) /\ 0 <= x <= T /\ forall t, 0 <= t <= T -> norm3 (fun k => seg_fun s k d x) <= norm3 (fun k => seg_fun s k d t)).
Proof.
  intros HT P Hc ->. assert (Hc' : covers_real_roots (half_norm2' s kPosDim d) 0 T (snd (rf cs))).
  { eapply covers_ext; [|exact Hc]. intros t. rewrite half_norm3. apply P. }
  destruct (selectCandidates_good _ _ _ _ _ Hc' (proj2 (selectCandidates_spec 0 T _) HT)) as (_ & Hg & _).
  destruct (norm_multi_candidates s kPosDim d 0 T _ HT Hg) as ((x & X1 & X2 & X3) & (y & Y1 & Y2 & Y3)).
  split; [exists x|exists y]; (split; [assumption|]); (split; [assumption|]); intros t Ht; rewrite <- !seg_norm3; auto.
Qed.

(** ** std::min_element, std::max_element *)
Lemma min_element_spec (e : extremum R) es : exists m, min_element (e :: es) = Ok m /\ In m (e :: es) /\ forall x, In x (e :: es) -> ext_value m <= ext_value x.
Proof.
  cbn [min_element]. exists (fold_left ext_min es e). split; [reflexivity|]. revert e. induction es as [|a es IH]; intros e; cbn [fold_left].
  - split; [left; reflexivity|]. intros x [<-|[]]. lra.
  - destruct (IH (ext_min e a)) as (I & M). assert (Q : ext_value (ext_min e a) <= ext_value e /\ ext_value (ext_min e a) <= ext_value a /\ (ext_min e a = e \/ ext_min e a = a)).
    { unfold ext_min. rnum. destruct (Rltb_spec (ext_value a) (ext_value e)); repeat split; try lra; auto. }
    destruct Q as (Q1 & Q2 & Q3). split.
    + destruct I as [I|I]; [|right; right; exact I]. rewrite <- I. destruct Q3 as [-> | ->]; [left; reflexivity|right; left; reflexivity].
    + pose proof (M _ (or_introl eq_refl)). intros x [<-|[<-|Hx]]; [lra|lra|apply M; right; exact Hx].
Qed.
Lemma max_element_spec (e : extremum R) es : exists m, max_element (e :: es) = Ok m /\ In m (e :: es) /\ forall x, In x (e :: es) -> ext_value x <= ext_value m.
Proof.
  cbn [max_element]. exists (fold_left ext_max es e). split; [reflexivity|]. revert e. induction es as [|a es IH]; intros e; cbn [fold_left].
  - split; [left; reflexivity|]. intros x [<-|[]]. lra.
  - destruct (IH (ext_max e a)) as (I & M). assert (Q : ext_value e <= ext_value (ext_max e a) /\ ext_value a <= ext_value (ext_max e a) /\ (ext_max e a = e \/ ext_max e a = a)).
    { unfold ext_max. rnum. destruct (Rltb_spec (ext_value e) (ext_value a)); repeat split; try lra; auto. }
    destruct Q as (Q1 & Q2 & Q3). split.
    + destruct I as [I|I]; [|right; right; exact I]. rewrite <- I. destruct Q3 as [-> | ->]; [left; reflexivity|right; left; reflexivity].
    + pose proof (M _ (or_introl eq_refl)). intros x [<-|[<-|Hx]]; [lra|lra|apply M; right; exact Hx].
Qed.

(** ** The thrust segment *)
Lemma poly_fun_cons' x h t : poly_fun (x :: h) t = x + t * poly_fun h t.
Proof.
  unfold poly_fun. cbn [length]. rewrite rsum_S_l. cbn [nth pow]. rewrite Rmult_1_r. f_equal. rewrite <- rsum_scal. apply rsum_ext. intros i _. cbn [pow]. ring.
Qed.
Lemma Derive_n_add_const f c d t : (forall x, ex_derive f x) -> Derive_n (fun x => f x + c) (S d) t = Derive_n f (S d) t.
Proof.
  intros Hf. replace (S d) with (d + 1)%nat by lia. rewrite <- !(Derive_n_comp _ d 1). apply Derive_n_ext. intros x. cbn [Derive_n].
  rewrite Derive_plus; [|apply Hf|apply ex_derive_const]. rewrite Derive_const. apply Rplus_0_r.
Qed.
Lemma thrust_segment_ok ck (s : segment R) : seg_wf s -> (3 <= seg_N s <= 22)%nat -> (3 <= seg_D s)%nat -> ck_gravity ck = [0; 0; kg] ->
  exists f, thrust_segment ck s = Ok f /\ seg_wf f /\ seg_N f = (seg_N s - 2)%nat /\ seg_D f = 3%nat /\ seg_time f = seg_time s /\
    (forall k t, (k < 3)%nat -> seg_fun f k 0 t = thrust_vec s t k) /\ (forall k t, (k < 3)%nat -> seg_fun f k 1 t = seg_fun s k 3 t).
Proof.
  intros Hw HN HD HG.
  assert (Q : forall i, (i < 3)%nat -> exists h, thrust_coefficients ck s i = Ok h /\ length h = (seg_N s - 2)%nat /\
    forall t, poly_fun h t = thrust_vec s t i).
  { intros i Hi. unfold thrust_coefficients. rewrite seg_index_ok by lia. cbn [obind]. set (p := nth i (seg_polys s) []).
    assert (Lp : length p = seg_N s) by (apply seg_wf_nth; [exact Hw|lia]).
    destruct (head_coefficients p 2 ltac:(lia) ltac:(lia) ltac:(lia)) as (cs & h & E1 & E2 & L & P). change (Z.of_nat 2) with 2%Z in E1, E2. rewrite E1. cbn [obind].
    rewrite Lp in E2. rewrite E2. cbn [obind]. assert (G : oget (ck_gravity ck) i = Ok (gravity i)) by (rewrite HG; destruct i as [|[|[|i]]]; [reflexivity..|lia]).
    rewrite G. cbn [obind]. destruct h as [|x h]; [cbn in L; lia|]. eexists. split; [reflexivity|]. split; [cbn [length] in *; lia|].
    intros t. unfold thrust_vec. rewrite seg_fun_dpoly. fold p. rewrite <- P, !poly_fun_cons'. rnum. ring. }
  destruct (Q 0%nat) as (h0 & E0 & L0 & P0); [lia|]. destruct (Q 1%nat) as (h1 & E1 & L1 & P1); [lia|]. destruct (Q 2%nat) as (h2 & E2 & L2 & P2); [lia|].
  unfold thrust_segment. cbn [seq omap]. rewrite E0, E1, E2. cbn [obind]. eexists. split; [reflexivity|].
  split; [repeat constructor; assumption|]. split; [reflexivity|]. split; [reflexivity|]. split; [reflexivity|].
  assert (F0 : forall k t, (k < 3)%nat -> poly_fun (nth k [h0; h1; h2] []) t = thrust_vec s t k) by (intros k t Hk; destruct k as [|[|[|k]]]; [apply P0|apply P1|apply P2|lia]).
  split; [intros k t Hk; apply F0, Hk|]. intros k t Hk. unfold seg_fun at 1. cbn [seg_polys Derive_n].
  rewrite (Derive_ext _ (fun x => thrust_vec s x k)) by (intros x; apply F0, Hk). apply is_derive_unique, is_derive_thrust_vec.
Qed.

Lemma norm3_ext v w : (forall k, (k < 3)%nat -> v k = w k) -> norm3 v = norm3 w.
Proof. intros H. unfold norm3. rewrite !H by lia. reflexivity. Qed.
Lemma dot3_ext v w v' w' : (forall k, (k < 3)%nat -> v k = v' k /\ w k = w' k) -> dot3 v w = dot3 v' w'.
Proof. intros H. unfold dot3. rewrite !(fun k Hk => proj1 (H k Hk)), !(fun k Hk => proj2 (H k Hk)) by lia. reflexivity. Qed.

(** ** Roll and pitch rates of a section *)
Lemma roll_pitch_section_ok (c : @constraints R) fc jc a b : a <= b -> exists r, roll_pitch_section c fc jc a b = Ok r /\ (r = inl kInputFeasible \/ r = inr tt).
Proof.
  intros Hab. unfold roll_pitch_section, seg_selectMinMax. rnum. rewrite (proj2 (Rltb_false b a)) by lra.
  destruct (fold_left _ fc _) as [fm fM]. destruct (fold_left _ jc _) as [jm jM].
  destruct (getConstraint c kOmegaXYMax); [destruct (Rltb _ _)|]; eexists; (split; [reflexivity|]); auto.
Qed.

(** ** The parts of the check *)
Definition rates_of (s : segment R) (d : nat) (t : R) : R := norm3 (fun k => seg_fun s k d t).
Definition ext_of (g : R -> R) (t : R) : extremum R := mkExtremum t (g t) 0%Z.
(** The candidates are times in the segment, with the ends, a largest and a
    smallest value among them. *)
Definition extremal (g : R -> R) (T : R) (es : list (extremum R)) : Prop :=
  exists ts, es = map (ext_of g) (0 :: T :: ts) /\ (forall t, In t (0 :: T :: ts) -> 0 <= t <= T) /\
    (exists x, In x (0 :: T :: ts) /\ forall t, 0 <= t <= T -> g t <= g x) /\ (exists x, In x (0 :: T :: ts) /\ forall t, 0 <= t <= T -> g x <= g t).
Lemma norm_extremal rf (s : segment R) (d : nat) T : seg_wf s -> (3 <= seg_D s)%nat -> (d < seg_N s <= 22)%nat -> (d < 21)%nat -> 0 <= T ->
  (forall cs, (forall t, poly_fun cs t = dot3 (fun k => seg_fun s k d t) (fun k => seg_fun s k (S d) t)) -> covers_real_roots (poly_fun cs) 0 T (snd (rf cs))) ->
  exists es, seg_candidates rf s (Z.of_nat d) 0 T kPosDim = Ok (true, es) /\ extremal (rates_of s d) T es.
Proof.
  intros Hw HD HN H21 HT Hc. destruct (norm_candidates rf s d T Hw HD HN H21 HT) as (ts & E & W & cs & P & Q).
  eexists. split; [exact E|]. exists ts. split; [reflexivity|]. split; [intros t [<-|[<-|Ht]]; [lra|lra|apply W, Ht]|].
  destruct (norm_candidates_good s rf d T cs ts HT P (Hc cs P) Q) as ((x & X1 & X2 & X3) & (y & Y1 & Y2 & Y3)). split; [exists x|exists y]; auto.
Qed.
Lemma extremal_ext g h T es : (forall t, g t = h t) -> extremal g T es -> extremal h T es.
Proof.
  intros H (ts & E & W & (x & X1 & X2) & (y & Y1 & Y2)). exists ts. split; [rewrite E; apply map_ext; intros t; unfold ext_of; rewrite H; reflexivity|].
  split; [exact W|]. split; [exists x|exists y]; (split; [assumption|]); intros t Ht; rewrite <- !H; auto.
Qed.
Lemma extremal_max g T es : extremal g T es -> exists m x, max_element es = Ok m /\ 0 <= x <= T /\ ext_value m = g x /\ forall t, 0 <= t <= T -> g t <= g x.
Proof.
  intros (ts & -> & W & (x & X1 & X2) & _). cbn [map]. destruct (max_element_spec (ext_of g 0) (map (ext_of g) (T :: ts))) as (m & E & I & M). exists m.
  change (ext_of g 0 :: map (ext_of g) (T :: ts)) with (map (ext_of g) (0 :: T :: ts)) in I, M. apply in_map_iff in I. destruct I as (y & <- & Y).
  exists y. split; [exact E|]. split; [apply W, Y|]. split; [reflexivity|]. intros t Ht. apply Rle_trans with (g x); [apply X2, Ht|].
  apply (M (ext_of g x)). apply in_map, X1.
Qed.
Lemma extremal_min g T es : extremal g T es -> exists m x, min_element es = Ok m /\ 0 <= x <= T /\ ext_value m = g x /\ forall t, 0 <= t <= T -> g x <= g t.
Proof.
  intros (ts & -> & W & _ & (x & X1 & X2)). cbn [map]. destruct (min_element_spec (ext_of g 0) (map (ext_of g) (T :: ts))) as (m & E & I & M). exists m.
  change (ext_of g 0 :: map (ext_of g) (T :: ts)) with (map (ext_of g) (0 :: T :: ts)) in I, M. apply in_map_iff in I. destruct I as (y & <- & Y).
  exists y. split; [exact E|]. split; [apply W, Y|]. split; [reflexivity|]. intros t Ht. apply Rle_trans with (g x); [|apply X2, Ht].
  apply (M (ext_of g x)). apply in_map, X1.
Qed.
(** The extrema selected for the whole segment. *)
Lemma extremal_select g T es mn mx : 0 <= T -> extremal g T es -> (forall t, 0 <= t <= T -> Rabs (g t) < @dbl_max R R_ops) ->
  exists emin emax x y, seg_selectMinMax 0 T es mn mx = Some (emin, emax) /\ 0 <= x <= T /\ 0 <= y <= T /\ ext_value emin = g x /\ ext_value emax = g y /\
    forall t, 0 <= t <= T -> g x <= g t <= g y.
Proof.
  intros HT (ts & -> & W & (x & X1 & X2) & (y & Y1 & Y2)) Hb.
  destruct (seg_selectMinMax_spec 0 T (map (ext_of g) (0 :: T :: ts)) mn mx HT) as (emin & emax & E & I1 & W1 & I2 & W2 & M).
  - exists (ext_of g 0). split; [left; reflexivity|cbn; lra].
  - intros e He _. apply in_map_iff in He. destruct He as (t & <- & Ht). apply Hb, W, Ht.
  - apply in_map_iff in I1. destruct I1 as (u & <- & U). apply in_map_iff in I2. destruct I2 as (v & <- & V).
    exists (ext_of g u), (ext_of g v), u, v. split; [exact E|]. split; [apply W, U|]. split; [apply W, V|]. split; [reflexivity|]. split; [reflexivity|].
    assert (M' : forall t, In t (0 :: T :: ts) -> g u <= g t <= g v) by (intros t Ht; apply (M (ext_of g t)); [apply in_map, Ht|apply W, Ht]).
    intros t Ht. specialize (X2 t Ht). specialize (Y2 t Ht). pose proof (M' x X1). pose proof (M' y Y1). lra.
Qed.

(** The root finder finds the stationary points of the squared thrust, speed and
    jerk in the segment. *)
Definition stationary_found (rf : @root_oracle R) (s : segment R) (v w : R -> nat -> R) : Prop :=
  forall cs, (forall t, poly_fun cs t = dot3 (v t) (w t)) -> covers_real_roots (poly_fun cs) 0 (seg_time s) (snd (rf cs)).

Lemma analytic_thrust_spec rf ck (s : segment R) : seg_wf s -> (3 <= seg_N s <= 22)%nat -> (3 <= seg_D s)%nat -> 0 <= seg_time s -> ck_gravity ck = [0; 0; kg] ->
  stationary_found rf s (thrust_vec s) (fun t k => seg_fun s k 3 t) ->
  exists r, analytic_thrust rf ck s = Ok r /\
    match r with
    | inl v => (v = kInputInfeasibleThrustLow \/ v = kInputInfeasibleThrustHigh) /\ exists t, 0 <= t <= seg_time s /\ violated (limits_of (ck_input ck)) s v t
    | inr p => extremal (thrust s) (seg_time s) (snd p) /\ forall t, 0 <= t <= seg_time s -> thrust_within (limits_of (ck_input ck)) s t
    end.
Proof.
  intros Hw HN HD HT HG Hc. unfold analytic_thrust. destruct (thrust_segment_ok ck s Hw HN HD HG) as (f & E & Fw & FN & FD & FT & F0 & F1). rewrite E. cbn [obind].
  destruct (norm_extremal rf f 0 (seg_time f)) as (es & Ee & X); try lia; try assumption; [rewrite FT; assumption| |].
  { intros cs Hcs. rewrite FT. apply Hc. intros t. rewrite Hcs. apply dot3_ext. intros k Hk. rewrite F0, F1 by exact Hk. auto. }
  apply (extremal_ext _ (thrust s)) in X; [|intros t; apply norm3_ext; intros k Hk; apply F0, Hk].
  change (@n0 R R_ops) with 0. change (Z.of_nat 0) with 0%Z in Ee. rewrite Ee. cbn [obind fst snd negb]. rewrite FT in X.
  destruct (extremal_max _ _ _ X) as (mx & y & My & Y1 & Y2 & Y3). destruct (extremal_min _ _ _ X) as (mn & x & Mx & X1 & X2 & X3).
  unfold thrust_within, limits_of. cbn [l_thrust_min l_thrust_max].
  destruct (getConstraint (ck_input ck) kFMin) as [lo|] eqn:EL; destruct (getConstraint (ck_input ck) kFMax) as [hi|] eqn:EH;
    rewrite ?Mx, ?My; unfold ebind, return_if; cbn [obind]; rnum.
  - destruct (Rltb_spec (ext_value mn) lo) as [L|L].
    { eexists. split; [reflexivity|]. split; [auto|]. exists x. split; [exact X1|]. cbn [violated l_thrust_min l_thrust_max broken_for]. lra. }
    destruct (Rltb_spec hi (ext_value mx)) as [H|H]; cbn [obind].
    { eexists. split; [reflexivity|]. split; [auto|]. exists y. split; [exact Y1|]. cbn [violated l_thrust_min l_thrust_max broken_for]. lra. }
    eexists. split; [reflexivity|]. split; [exact X|]. intros t Ht. specialize (X3 t Ht). specialize (Y3 t Ht). cbn. lra.
  - destruct (Rltb_spec (ext_value mn) lo) as [L|L].
    { eexists. split; [reflexivity|]. split; [auto|]. exists x. split; [exact X1|]. cbn [violated l_thrust_min l_thrust_max broken_for]. lra. }
    eexists. split; [reflexivity|]. split; [exact X|]. intros t Ht. specialize (X3 t Ht). cbn. split; [lra|exact I].
  - destruct (Rltb_spec hi (ext_value mx)) as [H|H]; cbn [obind].
    { eexists. split; [reflexivity|]. split; [auto|]. exists y. split; [exact Y1|]. cbn [violated l_thrust_min l_thrust_max broken_for]. lra. }
    eexists. split; [reflexivity|]. split; [exact X|]. intros t Ht. specialize (Y3 t Ht). cbn. split; [exact I|lra].
  - eexists. split; [reflexivity|]. split; [exact X|]. intros t Ht. cbn. auto.
Qed.
Lemma analytic_velocity_spec rf ck (s : segment R) : seg_wf s -> (3 <= seg_N s <= 22)%nat -> (3 <= seg_D s)%nat -> 0 <= seg_time s ->
  stationary_found rf s (fun t k => seg_fun s k 1 t) (fun t k => seg_fun s k 2 t) ->
  exists r, analytic_velocity rf ck s = Ok r /\
    match r with
    | inl v => v = kInputInfeasibleVelocity /\ exists t, 0 <= t <= seg_time s /\ violated (limits_of (ck_input ck)) s v t
    | inr _ => forall t, 0 <= t <= seg_time s -> speed_within (limits_of (ck_input ck)) s t
    end.
Proof.
  intros Hw HN HD HT Hc. unfold analytic_velocity, speed_within, limits_of. cbn [l_speed].
  destruct (getConstraint (ck_input ck) kVMax) as [l|] eqn:EL; [|eexists; split; [reflexivity|]; intros t _; exact I].
  destruct (norm_extremal rf s 1 (seg_time s)) as (es & Ee & X); try lia; try assumption.
  change (@n0 R R_ops) with 0. change (Z.of_nat 1) with 1%Z in Ee. rewrite Ee. cbn [obind fst snd negb].
  destruct (extremal_max _ _ _ X) as (mx & y & My & Y1 & Y2 & Y3). rewrite My. cbn [obind]. unfold return_if. rnum.
  destruct (Rltb_spec l (ext_value mx)) as [H|H].
  - eexists. split; [reflexivity|]. split; [reflexivity|]. exists y. split; [exact Y1|]. cbn [violated l_speed broken_for]. unfold rates_of in Y2. unfold speed. lra.
  - eexists. split; [reflexivity|]. intros t Ht. specialize (Y3 t Ht). unfold rates_of in *. cbn. unfold speed. lra.
Qed.

(** The section is the whole segment: the bound used. *)
Lemma roll_pitch_whole (c : @constraints R) (s : segment R) fc jc l : 0 <= seg_time s -> extremal (thrust s) (seg_time s) fc -> extremal (jerk s) (seg_time s) jc ->
  (forall t, 0 <= t <= seg_time s -> thrust s t < @dbl_max R R_ops /\ jerk s t < @dbl_max R R_ops) ->
  getConstraint c kOmegaXYMax = Some l -> l < @dbl_max R R_ops -> 0 <= l ->
  roll_pitch_section c fc jc 0 (seg_time s) = Ok (inl kInputFeasible) -> forall t, 0 <= t <= seg_time s ->
  0 < thrust s t /\ (forall k, ex_derive (thrust_direction s k) t) /\ roll_pitch_rate s t <= l * l.
Proof.
  intros HT Xf Xj Hb El Hl Hl0. unfold roll_pitch_section.
  destruct (extremal_select (thrust s) (seg_time s) fc (mkExtremum n0 n0 0%Z) (mkExtremum n0 n0 0%Z) HT Xf) as (fmin & fmax & x & x' & Ef & Wx & _ & Vf & _ & Mf).
  { intros t Ht. rewrite Rabs_pos_eq by apply norm3_pos. apply Hb, Ht. }
  destruct (extremal_select (jerk s) (seg_time s) jc (mkExtremum n0 n0 0%Z) (mkExtremum n0 n0 0%Z) HT Xj) as (jmin & jmax & y' & y & Ej & _ & Wy & _ & Vj & Mj).
  { intros t Ht. rewrite Rabs_pos_eq by apply norm3_pos. apply Hb, Ht. }
  rewrite Ef, Ej, El, Vf, Vj. rnum. destruct (Rltb_spec (nlit 1 1000000) (thrust s x)) as [F|F].
  2:{ rewrite (proj2 (Rltb_true _ _)) by exact Hl. discriminate. }
  destruct (Rltb_spec l (sqrt (jerk s y / thrust s x))) as [Q|Q]; [discriminate|]. intros _ t Ht.
  assert (K : 0 < @nlit R R_ops 1 1000000) by (unfold nlit; rnum; lra).
  assert (Fp : 0 < thrust s t) by (pose proof (Mf t Ht); lra).
  split; [exact Fp|]. split; [intros k; eexists; apply is_derive_direction, Fp|].
  apply Rle_trans with (jerk s t / thrust s t); [apply roll_pitch_rate_le, Fp|].
  assert (J0 : 0 <= jerk s y) by apply norm3_pos. assert (Jt : 0 <= jerk s t) by apply norm3_pos. pose proof (Mj t Ht) as MJ. pose proof (Mf t Ht) as MF.
  apply Rle_trans with (jerk s y / thrust s x).
  - unfold Rdiv. apply Rmult_le_compat; [exact Jt|apply Rlt_le, Rinv_0_lt_compat, Fp|lra|apply Rinv_le_contravar; lra].
  - assert (P : 0 <= jerk s y / thrust s x) by (apply Rdiv_le_0_compat; lra). rewrite <- (sqrt_sqrt _ P). pose proof (sqrt_pos (jerk s y / thrust s x)). apply Rmult_le_compat; lra.
Qed.
