(** The planner with scaling, and the combination of position and orientation. *)
From Coq Require Import ZArith Reals List Bool Lia Lra Arith.
From Coquelicot Require Import Coquelicot.
From Verif Require Import Num RSum SpecPoly ModelPolynomial ModelSegment ModelVertex ModelTrajectory ModelLinear
  SpecSegment SpecVertex SpecTrajectory SpecLinear ProofPolynomial ProofSegment ProofSegment2 ProofVertex ProofVertex2
  ProofTrajectory ProofTrajectory2 ProofTrajectory3 ProofTrajectory4 ProofLinear2 ModelNonlinear ModelPlanner SpecPlanner ProofPlanner.
Import ListNotations.
Open Scope R_scope.

Lemma state_stretch tr c t pos vel : 1 <= c -> traj_wf tr -> state_at tr t pos vel ->
  state_at (traj_stretch tr c) (c * t) pos (map (fun x => x / c) vel).
Proof.
  intros Hc Hw (S0 & S1 & S2). split; [|split].
  - change 0%Z with (Z.of_nat 0) in S0 |- *. rewrite (evaluate_stretch tr c t 0 pos ltac:(lra) Hw S0). f_equal.
    rewrite <- (map_id pos) at 2. apply map_ext. intros x. cbn. lra.
  - change 1%Z with (Z.of_nat 1) in S1 |- *. rewrite (evaluate_stretch tr c t 1 vel ltac:(lra) Hw S1). f_equal.
    apply map_ext. intros x. rewrite pow_1. reflexivity.
  - intros d Hd. specialize (S2 d Hd). rewrite <- (Z2Nat.id d) in S2 |- * by lia.
    rewrite (evaluate_stretch tr c t _ _ ltac:(lra) Hw S2). f_equal.
    clear S2. induction (length pos) as [|n IH]; [reflexivity|]. cbn [repeat map]. f_equal; [unfold Rdiv; ring|exact IH].
Qed.

(** The result of planTrajectory with explicit start: the optimised trajectory,
    run slower by a factor c >= 1. *)
Lemma from_to_total (inv : mat R -> mat R) (solve : mat R -> list R -> list R) (rf : root_oracle (T := R))
        (nlopt : nlopt_algorithm (T := R)) (sp sv gp gv : list R) (v a : R) (tr : trajectory R) :
  inverse_ok 5 inv -> (forall A b, length (solve A b) = length b) -> perfect_root_finder rf -> bounded_algorithm nlopt ->
  (0 < length gp)%nat -> length sp = length gp -> length sv = length gp -> length gv = length gp ->
  0 < v -> 0 < a -> v / 2 ^ 53 <= dist sp gp ->
  exists tr1 tr' g c,
    plan_optimized inv solve rf exp nlopt (length gp) sp sv gp gv v a tr = Ok tr1 /\
    plan_from_to inv solve rf exp nlopt gp gv sp sv v a tr = Ok (true, tr') /\
    1 <= c /\ duration tr' = c * duration tr1 /\ 0 < duration tr1 /\
    tr_segments tr' = [g] /\ tr_D tr' = length gp /\ tr_N tr' = 10%nat /\ traj_wf tr' /\ traj_consistent tr' /\
    seg_time g = duration tr' /\
    norm_at_most tr' (all_dims tr') 1 ((1 + 1 / 1000) * v) /\
    norm_at_most tr' (all_dims tr') 2 ((1 + 1 / 1000) * a) /\
    state_at tr' 0 sp (map (fun x => x / c) sv) /\
    state_at tr' (duration tr') gp (map (fun x => x / c) gv).
Proof.
  intros Hinv Hsol Hrf Hal Hd L1 L2 L4 Hv Ha Hdist.
  assert (H53 : 0 < / 2 ^ 53) by (apply Rinv_0_lt_compat, pow_lt; lra).
  assert (Hdp : 0 < dist sp gp) by (eapply Rlt_le_trans; [|exact Hdist]; apply Rmult_lt_0_compat; assumption).
  assert (Hne : sp <> gp) by (intros E; rewrite (dist_zero _ _ E) in Hdp; lra).
  destruct (plan_total inv solve rf nlopt (length gp) sp sv gp gv v a tr Hsol Hrf Hal Hd L1 L2 eq_refl L4 Hv Ha Hne) as (tr1 & E1 & Hlow & _).
  assert (H52 : / 2 ^ 52 <= duration tr1).
  { eapply Rle_trans; [|exact Hlow]. apply Rmin_glb.
    - apply Rle_trans with (/ 16); [|lra]. apply Rinv_le_contravar; [lra|]. replace 16 with (2 ^ 4) by lra. apply Rle_pow; [lra|lia].
    - apply Rmult_le_reg_r with v; [exact Hv|]. replace (2 * dist sp gp / v * v) with (2 * dist sp gp) by (field; lra).
      replace (2 ^ 53) with (2 * 2 ^ 52) in Hdist by ring. unfold Rdiv in Hdist. rewrite Rinv_mult in Hdist. lra. }
  assert (Hpos : 0 < duration tr1) by (eapply Rlt_le_trans; [|exact H52]; apply Rinv_0_lt_compat, pow_lt; lra).
  destruct (plan_result inv solve rf exp nlopt (length gp) sp sv gp gv v a tr tr1 Hinv Hd E1 H52)
    as (s & Es & ED & EN & W & C & Et & _ & _ & _ & _ & S0 & S1).
  assert (Sc : scalable tr1).
  { split; [exact W|]. split; [unfold times_nonneg; rewrite Es; constructor; [lra|constructor]|]. split; lia. }
  destruct (scaleToMeet_spec rf tr1 v a Hrf Sc Hv Ha) as (tr' & c & E2 & Hc & Hor & B1 & B2).
  assert (EP : plan_from_to inv solve rf exp nlopt gp gv sp sv v a tr = Ok (true, tr')).
  { unfold plan_from_to. rewrite E1. cbn [obind]. rewrite E2. reflexivity. }
  assert (Hid : forall l, map (fun x => x / 1) l = l) by (intros l; rewrite <- (map_id l) at 2; apply map_ext; intros; lra).
  destruct Hor as [(-> & ->)| ->].
  - exists tr1, tr1, s, 1. rewrite !Hid. split; [exact E1|]. split; [exact EP|]. split; [lra|]. split; [lra|]. auto 20.
  - exists tr1, (traj_stretch tr1 c), (seg_stretch c (1 / c) s), c. split; [exact E1|]. split; [exact EP|]. split; [exact Hc|].
    split; [apply stretch_duration|]. split; [exact Hpos|]. split; [unfold traj_stretch; cbn [tr_segments]; rewrite Es; reflexivity|].
    split; [exact ED|]. split; [exact EN|]. split; [apply stretch_wf; exact W|].
    split. { destruct C as (C1 & C2). split.
      - unfold traj_stretch. cbn [tr_segments tr_D tr_N]. apply List.Forall_map. eapply List.Forall_impl; [|exact C1].
        cbn beta. intros x (X1 & X2). unfold seg_stretch, seg_D. cbn [seg_polys seg_N]. rewrite map_length. auto.
      - unfold traj_stretch. cbn [tr_max_time tr_segments]. reflexivity. }
    split; [rewrite stretch_duration, <- Et; unfold seg_stretch; cbn [seg_time]; rnum; ring|].
    split; [exact B1|]. split; [exact B2|].
    split; [replace 0 with (c * 0) by ring; apply state_stretch; assumption|].
    rewrite stretch_duration. apply state_stretch; assumption.
Qed.

(** Appending the dimensions of a one-segment trajectory. *)
Lemma seg_fun_rescaled s r k j c d t :
  (forall x, poly_fun (nth j (seg_polys r) []) x = poly_fun (nth k (seg_polys s) []) (x * c)) ->
  seg_fun r j d t = c ^ d * seg_fun s k d (t * c).
Proof.
  intros H. rewrite (seg_fun_dpoly s k), (Rmult_comm t c), <- dpoly_scale_time, <- dpoly_ext_derive_n.
  unfold seg_fun. apply Derive_n_ext. intros x. rewrite H, <- !dpoly_0, dpoly_scale_time. cbn [pow]. rewrite (Rmult_comm x c). ring.
Qed.

Lemma append_single (a b : trajectory R) (sa sb : segment R) :
  tr_segments a = [sa] -> tr_segments b = [sb] -> traj_wf a -> traj_wf b -> tr_N a = tr_N b ->
  (1 <= tr_N a)%nat -> (1 <= tr_D a)%nat -> (1 <= tr_D b)%nat -> 0 < seg_time sa -> 0 < seg_time sb ->
  exists r g, traj_append a b = Ok (Some r) /\ tr_segments r = [g] /\ tr_D r = (tr_D a + tr_D b)%nat /\ tr_N r = tr_N a /\
    traj_wf r /\ traj_consistent r /\ seg_time g = Rmax (seg_time sa) (seg_time sb) /\ duration r = seg_time g /\
    (forall k d t, (k < tr_D a)%nat -> seg_fun g k d t = (seg_time sa / seg_time g) ^ d * seg_fun sa k d (t * (seg_time sa / seg_time g))) /\
    (forall k d t, (k < tr_D b)%nat -> seg_fun g (tr_D a + k) d t = (seg_time sb / seg_time g) ^ d * seg_fun sb k d (t * (seg_time sb / seg_time g))).
Proof.
  intros Ea Eb Wa Wb HN N1 Da Db Ta Tb. unfold traj_append.
  destruct (Nat.eqb_spec (tr_N a) 0); [lia|]. destruct (Nat.eqb_spec (tr_D a) 0); [lia|].
  destruct (Nat.eqb_spec (tr_N b) 0); [lia|]. destruct (Nat.eqb_spec (tr_D b) 0); [lia|].
  cbn [orb]. unfold tr_K. rewrite Ea, Eb. cbn [length Nat.eqb negb append_segments].
  assert (A : seg_D sa = tr_D a /\ seg_N sa = tr_N a /\ seg_wf sa) by (destruct Wa as (Wa & _); rewrite Ea in Wa; exact (List.Forall_inv Wa)).
  assert (B : seg_D sb = tr_D b /\ seg_N sb = tr_N b /\ seg_wf sb) by (destruct Wb as (Wb & _); rewrite Eb in Wb; exact (List.Forall_inv Wb)).
  destruct A as (A1 & A2 & A3). destruct B as (B1 & B2 & B3).
  destruct (seg_append_spec sa sb) as (g & Eg & Wg & Ng & Dg & Tg & Pa & Pb); try assumption; try lia.
  rewrite Eg. cbn [obind option_map]. unfold traj_setSegments, traj_addSegments.
  cbn [ofold tr_D tr_N tr_max_time tr_segments traj_new]. rewrite !Nat.eqb_refl. cbn [negb obind app].
  eexists. exists g. split; [reflexivity|]. cbn [tr_segments tr_D tr_N]. split; [reflexivity|]. split; [lia|]. split; [rewrite Ng, A2, B2, HN; lia|].
  split. { split; [constructor; [cbn; auto|constructor]|]. cbn [tr_N]. rewrite Ng, A2, B2. destruct Wa as (_ & ?). destruct Wb as (_ & ?). lia. }
  split. { split; [constructor; [split; reflexivity|constructor]|]. reflexivity. }
  split; [exact Tg|]. split; [unfold duration; cbn; lra|]. split.
  - intros k d t Hk. apply seg_fun_rescaled. intros x. apply Pa. lia.
  - intros k d t Hk. apply seg_fun_rescaled. intros x. rewrite <- A1. apply Pb. lia.
Qed.

Lemma append_evaluate (a b r : trajectory R) (sa sb g : segment R) (d : nat) (x y : list R) (e : bool) :
  tr_segments a = [sa] -> tr_segments b = [sb] -> traj_wf a -> traj_wf b -> 0 < seg_time sa -> 0 < seg_time sb ->
  tr_segments r = [g] -> tr_D r = (tr_D a + tr_D b)%nat -> traj_wf r -> seg_time g = Rmax (seg_time sa) (seg_time sb) ->
  (forall k d t, (k < tr_D a)%nat -> seg_fun g k d t = (seg_time sa / seg_time g) ^ d * seg_fun sa k d (t * (seg_time sa / seg_time g))) ->
  (forall k d t, (k < tr_D b)%nat -> seg_fun g (tr_D a + k) d t = (seg_time sb / seg_time g) ^ d * seg_fun sb k d (t * (seg_time sb / seg_time g))) ->
  traj_evaluate a (if e then seg_time sa else 0) (Z.of_nat d) = Ok x ->
  traj_evaluate b (if e then seg_time sb else 0) (Z.of_nat d) = Ok y ->
  traj_evaluate r (if e then seg_time g else 0) (Z.of_nat d) =
    Ok (map (fun z => (seg_time sa / seg_time g) ^ d * z) x ++ map (fun z => (seg_time sb / seg_time g) ^ d * z) y).
Proof.
  intros Ea Eb Wa Wb Ta Tb Er Dr Wr Tg Fa Fb Ha Hb.
  assert (Tp : 0 < seg_time g) by (rewrite Tg; eapply Rlt_le_trans; [exact Ta|apply Rmax_l]).
  assert (Na : times_nonneg a) by (unfold times_nonneg; rewrite Ea; constructor; [lra|constructor]).
  assert (Nb : times_nonneg b) by (unfold times_nonneg; rewrite Eb; constructor; [lra|constructor]).
  assert (Nr : times_nonneg r) by (unfold times_nonneg; rewrite Er; constructor; [lra|constructor]).
  rewrite (single_state a sa) in Ha by (auto; destruct e; auto). rewrite (single_state b sb) in Hb by (auto; destruct e; auto).
  rewrite (single_state r g) by (auto; destruct e; auto). apply Ok_inj in Ha. apply Ok_inj in Hb. subst x y. f_equal.
  assert (A1 : seg_D sa = tr_D a) by (destruct Wa as (Wa & _); rewrite Ea in Wa; exact (proj1 (List.Forall_inv Wa))).
  assert (B1 : seg_D sb = tr_D b) by (destruct Wb as (Wb & _); rewrite Eb in Wb; exact (proj1 (List.Forall_inv Wb))).
  assert (R1 : seg_D g = tr_D r) by (destruct Wr as (Wr & _); rewrite Er in Wr; exact (proj1 (List.Forall_inv Wr))).
  unfold seg_value. rewrite R1, Dr, seq_app, map_app, A1, B1, !map_map. cbn [Nat.add].
  assert (Hend : forall T, (if e then seg_time g else 0) * (T / seg_time g) = if e then T else 0).
  { intros T. destruct e; [field; lra|lra]. }
  f_equal.
  - apply map_ext_in. intros k Hk. apply in_seq in Hk. rewrite Fa by lia. rewrite Hend. reflexivity.
  - apply (nth_ext _ _ 0 0); rewrite !map_length, !seq_length; [reflexivity|]. intros k Hk.
    rewrite !nth_map_seq by exact Hk. rewrite Fb by lia. cbn [Nat.add]. rewrite Hend. reflexivity.
Qed.

Lemma map_zero (f : R -> R) n : f 0 = 0 -> map f (repeat 0 n) = repeat 0 n.
Proof. intros H. induction n as [|n IH]; cbn [repeat map]; [reflexivity|]. rewrite H, IH. reflexivity. Qed.

Lemma append_state (a b r : trajectory R) (sa sb g : segment R) (pa va pb vb : list R) (e : bool) :
  tr_segments a = [sa] -> tr_segments b = [sb] -> traj_wf a -> traj_wf b -> 0 < seg_time sa -> 0 < seg_time sb ->
  tr_segments r = [g] -> tr_D r = (tr_D a + tr_D b)%nat -> traj_wf r -> seg_time g = Rmax (seg_time sa) (seg_time sb) ->
  (forall k d t, (k < tr_D a)%nat -> seg_fun g k d t = (seg_time sa / seg_time g) ^ d * seg_fun sa k d (t * (seg_time sa / seg_time g))) ->
  (forall k d t, (k < tr_D b)%nat -> seg_fun g (tr_D a + k) d t = (seg_time sb / seg_time g) ^ d * seg_fun sb k d (t * (seg_time sb / seg_time g))) ->
  state_at a (if e then seg_time sa else 0) pa va -> state_at b (if e then seg_time sb else 0) pb vb ->
  state_at r (if e then seg_time g else 0) (pa ++ pb)
    (map (fun z => seg_time sa / seg_time g * z) va ++ map (fun z => seg_time sb / seg_time g * z) vb).
Proof.
  intros Ea Eb Wa Wb Ta Tb Er Dr Wr Tg Fa Fb (A0 & A1 & A2) (B0 & B1 & B2).
  assert (Q := fun d x y => append_evaluate a b r sa sb g d x y e Ea Eb Wa Wb Ta Tb Er Dr Wr Tg Fa Fb).
  split; [|split].
  - refine (eq_trans (Q 0%nat _ _ A0 B0) _). f_equal.
    f_equal; match goal with |- map _ ?l = _ => rewrite <- (map_id l) at 2 end; apply map_ext; intros; cbn; lra.
  - refine (eq_trans (Q 1%nat _ _ A1 B1) _). f_equal.
    f_equal; apply map_ext; intros; rewrite pow_1; reflexivity.
  - intros d Hd. specialize (A2 d Hd). specialize (B2 d Hd). rewrite <- (Z2Nat.id d) in A2, B2 |- * by lia.
    rewrite (Q _ _ _ A2 B2), !map_zero by lra. rewrite app_length, repeat_app. reflexivity.
Qed.

(** The norms over a block of dimensions. *)
Lemma block_norm (g s : segment R) (off n d : nat) (t u c : R) : 0 <= c ->
  (forall k, (k < n)%nat -> seg_fun g (off + k) d t = c ^ d * seg_fun s k d u) ->
  seg_norm g (map Z.of_nat (seq off n)) d t = c ^ d * seg_norm s (map Z.of_nat (seq 0 n)) d u.
Proof.
  intros Hc H. unfold seg_norm. rewrite !map_map.
  replace (map (fun x => seg_fun g (Z.to_nat (Z.of_nat x)) d t ^ 2) (seq off n))
    with (map (fun z => z * (c ^ d) ^ 2) (map (fun x => seg_fun s (Z.to_nat (Z.of_nat x)) d u ^ 2) (seq 0 n))).
  - rewrite lsum_map_scal, sqrt_mult_alt by apply lsum_sq_nonneg.
    rewrite sqrt_pow2 by (apply pow_le; exact Hc). ring.
  - rewrite map_map. apply (nth_ext _ _ 0 0); rewrite !map_length, !seq_length; [reflexivity|]. intros k Hk.
    rewrite !nth_map_seq by exact Hk. rewrite !Nat2Z.id, H by exact Hk. cbn [Nat.add]. ring.
Qed.
Lemma block_limit (g s : segment R) (off n d : nat) (T c b : R) : 0 <= c <= 1 -> 0 <= b ->
  (forall k t, (k < n)%nat -> seg_fun g (off + k) d t = c ^ d * seg_fun s k d (t * c)) ->
  seg_time s = c * T ->
  (forall t, 0 <= t <= seg_time s -> seg_norm s (map Z.of_nat (seq 0 n)) d t <= b) ->
  forall t, 0 <= t <= T -> seg_norm g (map Z.of_nat (seq off n)) d t <= b.
Proof.
  intros Hc Hb H HT HB t Ht. rewrite (block_norm g s off n d t (t * c) c (proj1 Hc)) by (intros; apply H; assumption).
  assert (Hn := seg_norm_nonneg s (map Z.of_nat (seq 0 n)) d (t * c)).
  assert (HB' : seg_norm s (map Z.of_nat (seq 0 n)) d (t * c) <= b).
  { apply HB. rewrite HT. split; [apply Rmult_le_pos; lra|]. rewrite (Rmult_comm c T). apply Rmult_le_compat_r; lra. }
  assert (Hp : 0 <= c ^ d <= 1). { split; [apply pow_le; lra|]. rewrite <- (pow1 d). apply pow_incr. lra. }
  apply Rle_trans with (1 * seg_norm s (map Z.of_nat (seq 0 n)) d (t * c)); [apply Rmult_le_compat_r; lra|lra].
Qed.
