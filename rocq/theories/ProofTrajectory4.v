(** Global extrema and scaling to meet limits. *)
From Coq Require Import ZArith Reals List Bool Lia Lra.
From Coquelicot Require Import Coquelicot.
From Verif Require Import Num RSum SpecPoly ModelPolynomial ModelSegment SpecSegment ModelVertex
  ModelTrajectory SpecTrajectory ProofPolynomial ProofSegment ProofSegment2 ProofTrajectory ProofTrajectory3.
Import ListNotations.
Open Scope R_scope.

Section Loop.
  Variables (rf : @root_oracle R) (d : nat) (dims : list Z) (full : bool).

  Definition seg_ok (s : segment R) : Prop :=
    exists cands emin emax,
      seg_candidates rf s (Z.of_nat d) 0 (seg_time s) dims = Ok (true, cands) /\
      seg_selectMinMax 0 (seg_time s) cands extremum_zero extremum_zero = Some (emin, emax) /\
      is_max_on (seg_norm s dims d) 0 (seg_time s) (ext_time emax) (ext_value emax) /\
      (full = true -> is_min_on (seg_norm s dims d) 0 (seg_time s) (ext_time emin) (ext_value emin)).

  Definition attained (segs : list (segment R)) (idx : nat) (e : extremum R) : Prop :=
    exists j, ext_segment e = Z.of_nat (idx + j) /\ (j < length segs)%nat /\
      0 <= ext_time e <= seg_time (nth j segs no_segment) /\
      seg_norm (nth j segs no_segment) dims d (ext_time e) = ext_value e.

  Lemma attained_cons s segs idx e : attained segs (S idx) e -> attained (s :: segs) idx e.
  Proof.
    intros (j & H1 & H2 & H3). exists (S j). rewrite Nat.add_succ_r. simpl. split; auto. split; auto. lia.
  Qed.

  Lemma minmax_loop_spec : forall segs idx mn mx, List.Forall seg_ok segs ->
    exists mn' mx', minmax_loop rf segs idx (Z.of_nat d) dims mn mx = Ok (true, mn', mx') /\
      (mx' = mx \/ attained segs idx mx') /\ ext_value mx <= ext_value mx' /\
      (forall j t, (j < length segs)%nat -> 0 <= t <= seg_time (nth j segs no_segment) ->
         seg_norm (nth j segs no_segment) dims d t <= ext_value mx') /\
      (full = true ->
        (mn' = mn \/ attained segs idx mn') /\ ext_value mn' <= ext_value mn /\
        (forall j t, (j < length segs)%nat -> 0 <= t <= seg_time (nth j segs no_segment) ->
         ext_value mn' <= seg_norm (nth j segs no_segment) dims d t)).
  Proof.
    induction segs as [|s segs IH]; intros idx mn mx Hok.
    - exists mn, mx. split; [reflexivity|]. split; [auto|]. split; [lra|]. split; [simpl; lia|].
      intros _. split; auto. split; [lra|]. simpl. lia.
    - apply Forall_cons_iff in Hok as [(cands & emin & emax & E1 & E2 & Hmax & Hmin) Hok].
      cbn [minmax_loop]. rnum. rewrite E1. cbn [obind fst snd]. rewrite E2.
      set (mn1 := if Rltb (ext_value emin) (ext_value mn)
                  then mkExtremum (ext_time emin) (ext_value emin) (Z.of_nat idx) else mn).
      set (mx1 := if Rltb (ext_value mx) (ext_value emax)
                  then mkExtremum (ext_time emax) (ext_value emax) (Z.of_nat idx) else mx).
      destruct (IH (S idx) mn1 mx1 Hok) as (mn' & mx' & E & A1 & A2 & A3 & B).
      exists mn', mx'. split; [exact E|].
      destruct Hmax as (M1 & M2 & M3).
      assert (Hx1 : ext_value mx <= ext_value mx1 /\ ext_value emax <= ext_value mx1 /\ (mx1 = mx \/ attained (s :: segs) idx mx1)).
      { unfold mx1. destruct (Rltb_spec (ext_value mx) (ext_value emax)); simpl.
        - split; [lra|]. split; [lra|]. right. exists 0%nat. simpl. rewrite Nat.add_0_r. split; auto. split; [lia|auto].
        - split; [lra|]. split; [lra|]. auto. }
      destruct Hx1 as (X1 & X2 & X3).
      split; [|split; [|split]].
      + destruct A1 as [->|A1]; [destruct X3; auto|]. right. now apply attained_cons.
      + lra.
      + intros [|j] t Hj Ht; cbn [nth] in *.
        * specialize (M3 t Ht). lra.
        * apply A3; auto. simpl in Hj. lia.
      + intro Hf. destruct (B Hf) as (B1 & B2 & B3). destruct (Hmin Hf) as (N1 & N2 & N3).
        assert (Hy1 : ext_value mn1 <= ext_value mn /\ ext_value mn1 <= ext_value emin /\ (mn1 = mn \/ attained (s :: segs) idx mn1)).
        { unfold mn1. destruct (Rltb_spec (ext_value emin) (ext_value mn)); simpl.
          - split; [lra|]. split; [lra|]. right. exists 0%nat. simpl. rewrite Nat.add_0_r. split; auto. split; [lia|auto].
          - split; [lra|]. split; [lra|]. auto. }
        destruct Hy1 as (Y1 & Y2 & Y3).
        split; [|split].
        * destruct B1 as [->|B1]; [destruct Y3; auto|]. right. now apply attained_cons.
        * lra.
        * intros [|j] t Hj Ht; cbn [nth] in *.
          -- specialize (N3 t Ht). lra.
          -- apply B3; auto. simpl in Hj. lia.
  Qed.
End Loop.

Lemma seg_ok_multi rf d dims s : perfect_root_finder rf ->
  seg_wf s -> dims_ok s dims -> (2 <= length dims)%nat -> (d < seg_N s <= 22)%nat -> (d < 21)%nat ->
  0 <= seg_time s ->
  (forall t, 0 <= t <= seg_time s -> seg_norm s dims d t < IZR (2 ^ 1024 - 2 ^ 971)) ->
  seg_ok rf d dims true s.
Proof.
  intros Hrf Hw Hd H2 HN Hd21 Ht Hb.
  destruct (multi_dim_extrema rf s d dims 0 (seg_time s) extremum_zero extremum_zero)
    as (cands & emin & emax & E1 & E2 & E3 & E4); auto.
  - intros cs _ _. apply Hrf.
  - exists cands, emin, emax. auto.
Qed.

Lemma seg_ok_single rf d k s : perfect_root_finder rf ->
  seg_wf s -> dims_ok s [k] -> (d < seg_N s <= 22)%nat -> (d < 21)%nat ->
  0 <= seg_time s ->
  (forall t, 0 <= t <= seg_time s -> seg_norm s [k] d t < IZR (2 ^ 1024 - 2 ^ 971)) ->
  seg_ok rf d [k] false s.
Proof.
  intros Hrf Hw Hd HN Hd21 Ht Hb. apply List.Forall_inv in Hd.
  destruct (single_dim_maximum rf s d k 0 (seg_time s) extremum_zero extremum_zero)
    as (cands & emin & emax & E1 & E2 & (M1 & M2 & M3) & _); auto.
  - intros t Ht'. rewrite <- seg_norm_single. now apply Hb.
  - exists cands, emin, emax. split; auto. split; auto. split; [|discriminate].
    split; auto. split; [rewrite seg_norm_single; auto|]. intros t Ht'. rewrite seg_norm_single. auto.
Qed.

Lemma seg_ok_weaken rf d dims s : seg_ok rf d dims true s -> seg_ok rf d dims false s.
Proof.
  intros (c & e1 & e2 & H1 & H2 & H3 & _). exists c, e1, e2. split; auto. split; auto. split; auto. discriminate.
Qed.

Definition dims_in (tr : trajectory R) (dims : list Z) : Prop :=
  List.Forall (fun k => (0 <= k < Z.of_nat (tr_D tr))%Z) dims.

Lemma traj_segs_forall tr (P : segment R -> Prop) :
  (forall i, (i < tr_K tr)%nat -> P (seg_at tr i)) -> List.Forall P (tr_segments tr).
Proof.
  intro H. apply List.Forall_forall. intros s Hs. destruct (In_nth _ _ no_segment Hs) as (i & Hi & <-).
  now apply H.
Qed.
Lemma times_nonneg_at tr i : times_nonneg tr -> (i < tr_K tr)%nat -> 0 <= seg_time (seg_at tr i).
Proof. intros H Hi. apply (nonneg_nth (tr_segments tr) i no_segment H Hi). Qed.

Lemma all_seg_ok rf tr d dims : perfect_root_finder rf -> traj_wf tr -> times_nonneg tr ->
  dims_in tr dims -> (1 <= length dims)%nat -> (d < tr_N tr)%nat -> (d < 21)%nat -> norm_finite tr dims d ->
  List.Forall (seg_ok rf d dims (Nat.leb 2 (length dims))) (tr_segments tr).
Proof.
  intros Hrf Hw Hn Hd Hl HN Hd21 Hb. apply traj_segs_forall. intros i Hi.
  destruct (traj_wf_seg tr i Hw Hi) as (D' & N' & W & N22).
  assert (Hdo : dims_ok (seg_at tr i) dims) by (unfold dims_ok; rewrite D'; exact Hd).
  pose proof (times_nonneg_at tr i Hn Hi).
  assert (Hb' : forall t, 0 <= t <= seg_time (seg_at tr i) -> seg_norm (seg_at tr i) dims d t < IZR (2 ^ 1024 - 2 ^ 971))
    by (intros; now apply Hb).
  destruct (Nat.leb_spec 2 (length dims)).
  - apply seg_ok_multi; auto. lia.
  - destruct dims as [|k [|k' dims]]; simpl in *; try lia. apply seg_ok_single; auto. lia.
Qed.

Lemma dbl_max_val : @dbl_max R R_ops = IZR (2 ^ 1024 - 2 ^ 971).
Proof. reflexivity. Qed.

Lemma traj_minmax_spec rf tr d dims mn mx :
  perfect_root_finder rf -> traj_wf tr -> times_nonneg tr ->
  dims_in tr dims -> (1 <= length dims)%nat -> (d < tr_N tr)%nat -> (d < 21)%nat -> norm_finite tr dims d ->
  exists mn' mx', traj_minmax rf tr (Z.of_nat d) dims mn mx = Ok (true, mn', mx') /\
    norm_at_most tr dims d (ext_value mx') /\
    ((0 < tr_K tr)%nat -> attained_at tr dims d mx') /\
    (tr_K tr = 0%nat -> ext_value mx' < 0) /\
    ((2 <= length dims)%nat -> norm_at_least tr dims d (ext_value mn') /\
       ((0 < tr_K tr)%nat -> attained_at tr dims d mn')).
Proof.
  intros Hrf Hw Hn Hd Hl HN Hd21 Hb. unfold traj_minmax.
  destruct (minmax_loop_spec rf d dims (Nat.leb 2 (length dims)) (tr_segments tr) 0
     (mkExtremum (ext_time mn) dbl_max (ext_segment mn))
     (mkExtremum (ext_time mx) dbl_lowest (ext_segment mx)) (all_seg_ok rf tr d dims Hrf Hw Hn Hd Hl HN Hd21 Hb))
    as (mn' & mx' & E & A1 & A2 & A3 & B).
  pose proof dbl_max_pos as Hdm.
  exists mn', mx'. split; [exact E|]. split; [exact A3|].
  assert (H0 : forall i, (i < tr_K tr)%nat -> 0 <= 0 <= seg_time (seg_at tr i)).
  { intros i Hi. pose proof (times_nonneg_at tr i Hn Hi). lra. }
  split; [|split].
  - intro HK. destruct A1 as [->|A1]; [|exact A1]. exfalso.
    specialize (A3 0%nat 0 HK (H0 0%nat HK)). cbn [ext_value] in A3. rewrite dbl_lowest_eq in A3.
    pose proof (seg_norm_nonneg (nth 0 (tr_segments tr) no_segment) dims d 0). lra.
  - intro HK. destruct A1 as [->|(j & _ & Hj & _)].
    + cbn [ext_value]. rewrite dbl_lowest_eq. lra.
    + unfold tr_K in HK. lia.
  - intro H2. destruct B as (B1 & B2 & B3); [destruct (Nat.leb_spec 2 (length dims)); auto; lia|].
    split; [exact B3|]. intro HK. destruct B1 as [->|B1]; [|exact B1]. exfalso.
    specialize (B3 0%nat 0 HK (H0 0%nat HK)). cbn [ext_value] in B3. rewrite dbl_max_val in B3.
    specialize (Hb 0%nat 0 HK (H0 0%nat HK)). unfold seg_at in Hb. lra.
Qed.

(** The maximum alone, without a bound on the values. *)
Lemma seg_ok_maximum rf d dims s : perfect_root_finder rf ->
  seg_wf s -> dims_ok s dims -> (1 <= length dims)%nat -> (d < seg_N s <= 22)%nat -> (d < 21)%nat ->
  0 <= seg_time s -> seg_ok rf d dims false s.
Proof.
  intros Hrf Hw Hd Hl HN Hd21 Ht. destruct dims as [|k [|k' dims]]; [simpl in Hl; lia| |].
  - apply List.Forall_inv in Hd.
    destruct (single_dim_maximum_any rf s d k 0 (seg_time s) extremum_zero extremum_zero)
      as (cands & emin & emax & E1 & E2 & M1 & M2 & M3); auto.
    exists cands, emin, emax. split; auto. split; auto. split; [|discriminate].
    split; auto. split; [rewrite seg_norm_single; auto|]. intros t Ht'. rewrite seg_norm_single. auto.
  - destruct (multi_dim_maximum rf s d (k :: k' :: dims) 0 (seg_time s) extremum_zero extremum_zero)
      as (cands & emin & emax & E1 & E2 & M); auto.
    + simpl. lia.
    + intros cs _ _. apply Hrf.
    + exists cands, emin, emax. split; auto. split; auto. split; [auto|discriminate].
Qed.

Lemma traj_maximum_spec rf tr d dims mn mx :
  perfect_root_finder rf -> traj_wf tr -> times_nonneg tr ->
  dims_in tr dims -> (1 <= length dims)%nat -> (d < tr_N tr)%nat -> (d < 21)%nat ->
  exists mn' mx', traj_minmax rf tr (Z.of_nat d) dims mn mx = Ok (true, mn', mx') /\
    norm_at_most tr dims d (ext_value mx') /\
    ((0 < tr_K tr)%nat -> attained_at tr dims d mx') /\
    (tr_K tr = 0%nat -> ext_value mx' < 0).
Proof.
  intros Hrf Hw Hn Hd Hl HN Hd21. unfold traj_minmax.
  assert (Hok : List.Forall (seg_ok rf d dims false) (tr_segments tr)).
  { apply traj_segs_forall. intros i Hi. destruct (traj_wf_seg tr i Hw Hi) as (D' & N' & W & N22).
    apply seg_ok_maximum; auto; [unfold dims_ok; rewrite D'; exact Hd|lia|now apply times_nonneg_at]. }
  destruct (minmax_loop_spec rf d dims false (tr_segments tr) 0
     (mkExtremum (ext_time mn) dbl_max (ext_segment mn))
     (mkExtremum (ext_time mx) dbl_lowest (ext_segment mx)) Hok)
    as (mn' & mx' & E & A1 & A2 & A3 & _).
  pose proof dbl_max_pos as Hdm.
  exists mn', mx'. split; [exact E|]. split; [exact A3|].
  assert (H0 : forall i, (i < tr_K tr)%nat -> 0 <= 0 <= seg_time (seg_at tr i)).
  { intros i Hi. pose proof (times_nonneg_at tr i Hn Hi). lra. }
  split.
  - intro HK. destruct A1 as [->|A1]; [|exact A1]. exfalso.
    specialize (A3 0%nat 0 HK (H0 0%nat HK)). cbn [ext_value] in A3. rewrite dbl_lowest_eq in A3.
    pose proof (seg_norm_nonneg (nth 0 (tr_segments tr) no_segment) dims d 0). lra.
  - intro HK. destruct A1 as [->|(j & _ & Hj & _)].
    + cbn [ext_value]. rewrite dbl_lowest_eq. lra.
    + unfold tr_K in HK. lia.
Qed.

(** * Scaling to meet limits *)
Definition all_dims (tr : trajectory R) : list Z := map Z.of_nat (seq 0 (tr_D tr)).
Lemma all_dims_in tr : dims_in tr (all_dims tr).
Proof.
  unfold dims_in, all_dims. apply List.Forall_forall. intros k Hk. apply in_map_iff in Hk as (j & <- & Hj).
  apply in_seq in Hj. lia.
Qed.

Definition scalable (tr : trajectory R) : Prop :=
  traj_wf tr /\ times_nonneg tr /\ (3 <= tr_N tr)%nat /\ (1 <= tr_D tr)%nat.

Definition is_sup (tr : trajectory R) (d : nat) (V : R) : Prop :=
  norm_at_most tr (all_dims tr) d V /\
  ((exists i t, (i < tr_K tr)%nat /\ 0 <= t <= seg_time (seg_at tr i) /\ seg_norm (seg_at tr i) (all_dims tr) d t = V) \/
   (tr_K tr = 0%nat /\ V < 0)).

Lemma maxVelAcc_spec rf tr : perfect_root_finder rf -> scalable tr ->
  exists V A, traj_maxVelAcc rf tr = Ok (true, V, A) /\ is_sup tr 1 V /\ is_sup tr 2 A.
Proof.
  intros Hrf (Hw & Hn & HN & HD). unfold traj_maxVelAcc. fold (all_dims tr).
  assert (Hl : (1 <= length (all_dims tr))%nat) by (unfold all_dims; rewrite map_length, seq_length; auto).
  destruct (traj_maximum_spec rf tr 1 (all_dims tr) extremum_zero extremum_zero Hrf Hw Hn (all_dims_in tr) Hl)
    as (mn1 & mx1 & E1 & U1 & T1 & Z1); auto; try lia.
  destruct (traj_maximum_spec rf tr 2 (all_dims tr) extremum_zero extremum_zero Hrf Hw Hn (all_dims_in tr) Hl)
    as (mn2 & mx2 & E2 & U2 & T2 & Z2); auto; try lia.
  change (Z.of_nat 1) with 1%Z in E1. change (Z.of_nat 2) with 2%Z in E2.
  rewrite E1. cbn [obind]. rewrite E2. cbn [obind fst snd andb].
  do 2 eexists. split; [reflexivity|].
  split; split; auto.
  - destruct (Nat.eq_dec (tr_K tr) 0) as [H0|H0]; [right; auto|left].
    destruct T1 as (i & _ & Hi & Ht & Hv'); [lia|]. eauto.
  - destruct (Nat.eq_dec (tr_K tr) 0) as [H0|H0]; [right; auto|left].
    destruct T2 as (i & _ & Hi & Ht & Hv'); [lia|]. eauto.
Qed.

Lemma seg_at_stretch tr c i : (i < tr_K tr)%nat ->
  seg_at (traj_stretch tr c) i = seg_stretch c (1 / c) (seg_at tr i).
Proof.
  intro Hi. unfold seg_at, traj_stretch. cbn [tr_segments]. now rewrite (nth_map_lt _ _ _ no_segment).
Qed.

Lemma seg_stretch_norm s c t d dims : 0 < c -> dims_ok s dims ->
  seg_norm (seg_stretch c (1 / c) s) dims d t = seg_norm s dims d (t / c) / c ^ d.
Proof.
  intros Hc Hd. unfold seg_norm.
  assert (Hp : 0 < c ^ d) by now apply pow_lt.
  assert (E : map (fun k => seg_fun (seg_stretch c (1 / c) s) (Z.to_nat k) d t ^ 2) dims =
              map (fun x => x * (/ c ^ d) ^ 2) (map (fun k => seg_fun s (Z.to_nat k) d (t / c) ^ 2) dims)).
  { rewrite map_map. apply map_ext_in. intros k Hk. unfold dims_ok in Hd. rewrite List.Forall_forall in Hd.
    specialize (Hd k Hk). rewrite !seg_fun_dpoly. unfold seg_stretch. cbn [seg_polys].
    rewrite (nth_map_lt _ _ _ []) by (unfold seg_D in Hd; lia). rewrite dpoly_scale_time.
    replace (1 / c * t) with (t / c) by (field; lra).
    replace (1 / c) with (/ c) by (field; lra). rewrite pow_inv. ring. }
  rewrite E, lsum_map_scal, sqrt_mult_alt by apply lsum_sq_nonneg.
  rewrite sqrt_pow2; [reflexivity|]. left. now apply Rinv_0_lt_compat.
Qed.

Lemma stretch_dims tr c : all_dims (traj_stretch tr c) = all_dims tr.
Proof. reflexivity. Qed.

Lemma stretch_norm tr c d i t : 0 < c -> traj_wf tr -> (i < tr_K tr)%nat ->
  seg_norm (seg_at (traj_stretch tr c) i) (all_dims tr) d t = seg_norm (seg_at tr i) (all_dims tr) d (t / c) / c ^ d.
Proof.
  intros Hc Hw Hi. rewrite seg_at_stretch by auto. apply seg_stretch_norm; auto.
  destruct (traj_wf_seg tr i Hw Hi) as (D' & _). unfold dims_ok. rewrite D'. apply all_dims_in.
Qed.

Lemma stretch_K tr c : tr_K (traj_stretch tr c) = tr_K tr.
Proof. unfold tr_K, traj_stretch. cbn [tr_segments]. apply map_length. Qed.

Lemma stretch_window tr c i t : 0 < c -> (i < tr_K tr)%nat ->
  0 <= t <= seg_time (seg_at (traj_stretch tr c) i) -> 0 <= t / c <= seg_time (seg_at tr i).
Proof.
  intros Hc Hi Ht. rewrite seg_at_stretch in Ht by auto. unfold seg_stretch in Ht. cbn [seg_time] in Ht. rnum.
  split.
  - apply Rmult_le_pos; [lra|]. left. now apply Rinv_0_lt_compat.
  - apply Rmult_le_reg_r with c; auto. replace (t / c * c) with t by (field; lra). lra.
Qed.

Lemma stretch_times_nonneg tr c : 0 < c -> times_nonneg tr -> times_nonneg (traj_stretch tr c).
Proof.
  intros Hc Hn. unfold times_nonneg, traj_stretch. cbn [tr_segments]. apply Forall_map.
  eapply List.Forall_impl; [|exact Hn]. cbn. intros s Hs. rnum. apply Rmult_le_pos; lra.
Qed.

Lemma stretch_scalable tr c : 1 <= c -> scalable tr -> scalable (traj_stretch tr c).
Proof.
  intros Hc (Hw & Hn & HN & HD). split; [now apply stretch_wf|].
  split; [apply stretch_times_nonneg; auto; lra|]. split; auto.
Qed.

Lemma stretch_sup tr c d V V' : 0 < c -> traj_wf tr -> is_sup tr d V -> is_sup (traj_stretch tr c) d V' ->
  V' < 0 \/ V' <= V / c ^ d.
Proof.
  intros Hc Hw [Hu _] [_ [(i & t & Hi & Ht & <-)|[_ H]]]; [|auto]. right.
  rewrite stretch_K in Hi. rewrite stretch_dims, stretch_norm by auto.
  unfold Rdiv. apply Rmult_le_compat_r.
  - left. apply Rinv_0_lt_compat. now apply pow_lt.
  - apply Hu; auto. apply stretch_window with (c := c); auto.
Qed.

Lemma scaleToMeet_exact rf tr v a : perfect_root_finder rf -> scalable tr -> 0 < v -> 0 < a ->
  exists V A tr' s, is_sup tr 1 V /\ is_sup tr 2 A /\ traj_scaleToMeet rf tr v a = Ok (true, tr') /\ 1 <= s /\
    (V / v <= 1 + 1 / 1000 /\ A / a <= 1 + 1 / 1000 /\ tr' = tr /\ s = 1 \/
     ~ (V / v <= 1 + 1 / 1000 /\ A / a <= 1 + 1 / 1000) /\ s = Rmax 1 (Rmax (V / v) (sqrt (A / a))) /\ tr' = traj_stretch tr s) /\
    norm_at_most tr' (all_dims tr') 1 ((1 + 1 / 1000) * v) /\
    norm_at_most tr' (all_dims tr') 2 ((1 + 1 / 1000) * a).
Proof.
  intros Hrf Hs Hv Ha. unfold traj_scaleToMeet.
  change 20%nat with (S (S 18)). cbn [scale_to_meet_loop].
  destruct (maxVelAcc_spec rf tr Hrf Hs) as (V & A & E & SV & SA).
  exists V, A. rewrite E. cbn [obind fst snd]. unfold nlit. rnum.
  assert (Hdiv : forall x y, 0 < y -> x / y <= 1 + 1 / 1000 -> x <= (1 + 1 / 1000) * y).
  { intros x y Hy H. apply Rmult_le_compat_r with (r := y) in H; [|lra].
    replace (x / y * y) with x in H by (field; lra). lra. }
  destruct (Rleb_spec (V / v) (1 + 1 / 1000)) as [H1|H1];
    destruct (Rleb_spec (A / a) (1 + 1 / 1000)) as [H2|H2]; cbn [andb].
  1:{ exists tr, 1. split; [exact SV|]. split; [exact SA|]. split; [reflexivity|]. split; [lra|]. split; [left; auto|].
      split; intros i t Hi Ht.
      - apply Rle_trans with V; [now apply SV|]. now apply Hdiv.
      - apply Rle_trans with A; [now apply SA|]. now apply Hdiv. }
  all: rewrite !nmax_Rmax;
    set (c := Rmax 1 (Rmax (V / v) (sqrt (A / a))));
    assert (Hc1 : 1 <= c) by apply Rmax_l;
    assert (HcV : V / v <= c) by (eapply Rle_trans; [apply Rmax_l|apply Rmax_r]);
    assert (HcA : sqrt (A / a) <= c) by (eapply Rle_trans; [apply (Rmax_r (V / v))|apply Rmax_r]);
    destruct (maxVelAcc_spec rf (traj_stretch tr c) Hrf (stretch_scalable tr c Hc1 Hs)) as (V' & A' & E' & SV' & SA');
    rewrite E'; cbn [obind fst snd];
    assert (Hw : traj_wf tr) by apply Hs;
    assert (HV' : V' / v <= 1) by
      (destruct (stretch_sup tr c 1 V V') as [H|H]; auto; [lra| |];
       [apply Rmult_le_reg_r with v; auto; replace (V' / v * v) with V' by (field; lra); lra|
        apply Rmult_le_reg_r with v; auto; replace (V' / v * v) with V' by (field; lra);
        apply Rle_trans with (1 := H); simpl; rewrite Rmult_1_r, Rmult_1_l;
        apply Rmult_le_reg_r with c; [lra|]; replace (V / c * c) with V by (field; lra);
        apply Rmult_le_compat_r with (r := v) in HcV; [|lra];
        replace (V / v * v) with V in HcV by (field; lra); lra]);
    assert (HA' : A' / a <= 1) by
      (destruct (stretch_sup tr c 2 A A') as [H|H]; auto; [lra| |];
       [apply Rmult_le_reg_r with a; auto; replace (A' / a * a) with A' by (field; lra); lra|
        apply Rmult_le_reg_r with a; auto; replace (A' / a * a) with A' by (field; lra);
        apply Rle_trans with (1 := H); rewrite Rmult_1_l;
        assert (Hq : A / a <= c ^ 2) by
          (destruct (Rle_lt_dec 0 (A / a)) as [Hp|Hp];
           [rewrite <- (sqrt_sqrt (A / a)) by auto; pose proof (sqrt_pos (A / a)); simpl; rewrite Rmult_1_r;
            apply Rmult_le_compat; auto|
            apply Rle_trans with 0; [lra|apply pow_le; lra]]);
        apply Rmult_le_reg_r with (c ^ 2); [apply pow_lt; lra|];
        replace (A / c ^ 2 * c ^ 2) with A by (field; lra);
        apply Rmult_le_compat_r with (r := a) in Hq; [|lra];
        replace (A / a * a) with A in Hq by (field; lra); lra]);
    destruct (Rleb_spec (V' / v) (1 + 1 / 1000)) as [H3|H3]; [|lra];
    destruct (Rleb_spec (A' / a) (1 + 1 / 1000)) as [H4|H4]; [|lra];
    cbn [andb]; exists (traj_stretch tr c), c;
    (split; [exact SV|]); (split; [exact SA|]);
    (split; [reflexivity|]); (split; [exact Hc1|]); (split; [right; split; [lra|split; reflexivity]|]);
    split; intros i t Hi Ht;
    [apply Rle_trans with V'; [now apply SV'|now apply Hdiv]|
     apply Rle_trans with A'; [now apply SA'|now apply Hdiv]].
Qed.
Lemma scaleToMeet_spec rf tr v a : perfect_root_finder rf -> scalable tr -> 0 < v -> 0 < a ->
  exists tr' s, traj_scaleToMeet rf tr v a = Ok (true, tr') /\ 1 <= s /\
    (tr' = tr /\ s = 1 \/ tr' = traj_stretch tr s) /\
    norm_at_most tr' (all_dims tr') 1 ((1 + 1 / 1000) * v) /\
    norm_at_most tr' (all_dims tr') 2 ((1 + 1 / 1000) * a).
Proof.
  intros Hrf Hs Hv Ha. destruct (scaleToMeet_exact rf tr v a Hrf Hs Hv Ha) as (V & A & tr' & s & _ & _ & E & H1 & Hor & B).
  exists tr', s. split; [exact E|]. split; [exact H1|]. split; [|exact B].
  destruct Hor as [(_ & _ & X & Y)|(_ & _ & X)]; [left; auto|right; exact X].
Qed.

(** Fewer than three coefficients: the acceleration request is undefined. *)
Lemma maxVelAcc_low_order rf tr : traj_wf tr -> (0 < tr_K tr)%nat -> (2 <= tr_D tr)%nat -> (tr_N tr <= 1)%nat ->
  traj_maxVelAcc rf tr = UB.
Proof.
  intros Hw HK HD HN. unfold traj_maxVelAcc, traj_minmax.
  destruct (traj_wf_seg tr 0 Hw HK) as (D' & N' & _). unfold seg_at, tr_K in *.
  destruct (tr_segments tr) as [|s segs]; [simpl in HK; lia|]. simpl nth in *.
  cbn [minmax_loop]. unfold seg_candidates, seg_candidateTimes.
  destruct (tr_D tr) as [|[|D0]]; try lia. cbn [seq map]. unfold getConvolutionLength. rewrite N'.
  match goal with |- context [(?x <? 0)%Z] => destruct (Z.ltb_spec x 0) end; [reflexivity|lia].
Qed.

Lemma maxVelAcc_linear rf tr : perfect_root_finder rf -> traj_wf tr -> times_nonneg tr ->
  (0 < tr_K tr)%nat -> (2 <= tr_D tr)%nat -> (tr_N tr <= 2)%nat ->
  traj_maxVelAcc rf tr = UB.
Proof.
  intros Hrf Hw Hn HK HD HN. destruct (Nat.eq_dec (tr_N tr) 2) as [E|E].
  2:{ apply maxVelAcc_low_order; auto. lia. }
  unfold traj_maxVelAcc. fold (all_dims tr).
  destruct (traj_maximum_spec rf tr 1 (all_dims tr) extremum_zero extremum_zero Hrf Hw Hn
    (all_dims_in tr)) as (mn & mx & E1 & _).
  { unfold all_dims. rewrite map_length, seq_length. lia. }
  { lia. } { lia. }
  change (Z.of_nat 1) with 1%Z in E1. rewrite E1. cbn [obind]. unfold traj_minmax, all_dims.
  destruct (traj_wf_seg tr 0 Hw HK) as (D' & N' & _). unfold seg_at, tr_K in *.
  destruct (tr_segments tr) as [|s segs]; [simpl in HK; lia|]. simpl nth in *.
  cbn [minmax_loop]. unfold seg_candidates, seg_candidateTimes.
  destruct (tr_D tr) as [|[|D0]]; try lia. cbn [seq map]. unfold getConvolutionLength. rewrite N'.
  match goal with |- context [(?x <? 0)%Z] => destruct (Z.ltb_spec x 0) end; [reflexivity|lia].
Qed.
