(** Proofs for candidate selection (C06, C07). *)
From Coq Require Import Reals Lra Lia List Arith ZArith Bool.
From Coquelicot Require Import Coquelicot.
From Verif Require Import Num RSum SpecPoly ModelPolynomial ProofPolynomial ProofPolynomial2 ExtremaMath.
Import ListNotations.
Open Scope R_scope.

Definition min_step (ev : R -> R) (m : R * R) (t : R) : R * R :=
  if Rltb (ev t) (snd m) then (t, ev t) else m.
Definition max_step (ev : R -> R) (m : R * R) (t : R) : R * R :=
  if Rltb (snd m) (ev t) then (t, ev t) else m.

Lemma fold_min ev cs s :
  (fold_left (min_step ev) cs s = s /\ forall x, In x cs -> snd s <= ev x) \/
  (exists t, fold_left (min_step ev) cs s = (t, ev t) /\ ev t < snd s /\ first_argmin ev cs t (ev t)).
Proof.
  revert s. induction cs as [|x cs IH]; intros s; cbn [fold_left].
  - left. split; [reflexivity|]. intros x [].
  - unfold min_step at 2 4. destruct (Rltb_spec (ev x) (snd s)) as [Hl|Hl].
    + right. destruct (IH (x, ev x)) as [[H1 H2]|[t (H1 & H2 & H3)]]; cbn [snd] in *.
      * exists x. rewrite H1. split; [reflexivity|]. split; [exact Hl|].
        exists [], cs. repeat split; try reflexivity; [intros y []|exact H2].
      * exists t. split; [exact H1|]. split; [lra|].
        destruct H3 as (pre & post & -> & E & Hp & Hq).
        exists (x :: pre), post. repeat split; try reflexivity; [|exact Hq].
        intros y [<-|Hy]; [exact H2|apply Hp, Hy].
    + destruct (IH s) as [[H1 H2]|[t (H1 & H2 & H3)]].
      * left. split; [exact H1|]. intros y [<-|Hy]; [exact Hl|apply H2, Hy].
      * right. exists t. split; [exact H1|]. split; [exact H2|].
        destruct H3 as (pre & post & -> & E & Hp & Hq).
        exists (x :: pre), post. repeat split; try reflexivity; [|exact Hq].
        intros y [<-|Hy]; [lra|apply Hp, Hy].
Qed.

Lemma fold_max ev cs s :
  (fold_left (max_step ev) cs s = s /\ forall x, In x cs -> ev x <= snd s) \/
  (exists t, fold_left (max_step ev) cs s = (t, ev t) /\ snd s < ev t /\ first_argmax ev cs t (ev t)).
Proof.
  revert s. induction cs as [|x cs IH]; intros s; cbn [fold_left].
  - left. split; [reflexivity|]. intros x [].
  - unfold max_step at 2 4. destruct (Rltb_spec (snd s) (ev x)) as [Hl|Hl].
    + right. destruct (IH (x, ev x)) as [[H1 H2]|[t (H1 & H2 & H3)]]; cbn [snd] in *.
      * exists x. rewrite H1. split; [reflexivity|]. split; [exact Hl|].
        exists [], cs. repeat split; try reflexivity; [intros y []|exact H2].
      * exists t. split; [exact H1|]. split; [lra|].
        destruct H3 as (pre & post & -> & E & Hp & Hq).
        exists (x :: pre), post. repeat split; try reflexivity; [|exact Hq].
        intros y [<-|Hy]; [exact H2|apply Hp, Hy].
    + destruct (IH s) as [[H1 H2]|[t (H1 & H2 & H3)]].
      * left. split; [exact H1|]. intros y [<-|Hy]; [exact Hl|apply H2, Hy].
      * right. exists t. split; [exact H1|]. split; [exact H2|].
        destruct H3 as (pre & post & -> & E & Hp & Hq).
        exists (x :: pre), post. repeat split; try reflexivity; [|exact Hq].
        intros y [<-|Hy]; [lra|apply Hp, Hy].
Qed.

Lemma ofold_minmax c d cs s :
  (forall t, poly_evaluate c t (Z.of_nat d) = Ok (dpoly c d t)) ->
  ofold (minmax_step c (Z.of_nat d)) cs s =
  Ok (fold_left (min_step (dpoly c d)) cs (fst s), fold_left (max_step (dpoly c d)) cs (snd s)).
Proof.
  intros He. revert s. induction cs as [|x cs IH]; intros s; cbn [ofold fold_left].
  - destruct s; reflexivity.
  - unfold minmax_step at 1. rewrite He. cbn [obind]. rewrite IH. cbn [fst snd]. reflexivity.
Qed.

(** C07, selection among candidates. *)
Lemma selectMinMaxFromCandidates_spec (c cs : list R) (d : nat) :
  (length c <= 22)%nat \/ (length c <= d)%nat ->
  (forall t, In t cs -> Rabs (dpoly c d t) < @dbl_max R R_ops) ->
  cs <> [] ->
  exists tmin vmin tmax vmax,
    selectMinMaxFromCandidates c cs (Z.of_nat d) = Ok (Some ((tmin, vmin), (tmax, vmax))) /\
    first_argmin (dpoly c d) cs tmin vmin /\ first_argmax (dpoly c d) cs tmax vmax.
Proof.
  intros Hl Hb Hne. destruct cs as [|t0 cs]; [contradiction|].
  unfold selectMinMaxFromCandidates.
  rewrite ofold_minmax by (intros t; apply poly_evaluate_ok; unfold kMaxConvolutionSize, kMaxN; lia).
  cbn [obind fst snd].
  pose proof (Hb t0 (or_introl eq_refl)) as H0. apply Rabs_def2 in H0.
  destruct (fold_min (dpoly c d) (t0 :: cs) (t0, dbl_max)) as [[_ H]|[t1 (E1 & _ & F1)]].
  { specialize (H t0 (or_introl eq_refl)). cbn [snd] in H. lra. }
  destruct (fold_max (dpoly c d) (t0 :: cs) (t0, dbl_lowest)) as [[_ H]|[t2 (E2 & _ & F2)]].
  { specialize (H t0 (or_introl eq_refl)). cbn [snd] in H. rewrite dbl_lowest_eq in H. lra. }
  exists t1, (dpoly c d t1), t2, (dpoly c d t2).
  rewrite E1, E2. split; [reflexivity|]. split; assumption.
Qed.

Lemma is_candidate_iff (a b : R) r :
  is_candidate a b r = true <-> Rabs (snd r) <= / 2 ^ 52 /\ a <= fst r <= b.
Proof.
  unfold is_candidate. rnum. rewrite dbl_epsilon_val.
  destruct (Rltb_spec (/ 2 ^ 52) (Rabs (snd r))); destruct (Rltb_spec (fst r) a);
    destruct (Rltb_spec b (fst r)); cbn [negb orb andb]; split; intros; try discriminate; try lra; try reflexivity.
Qed.

Lemma selectCandidates_spec (a b : R) roots :
  (b < a -> selectMinMaxCandidatesFromRoots a b roots = None) /\
  (a <= b -> selectMinMaxCandidatesFromRoots a b roots =
             Some (a :: b :: map fst (filter (is_candidate a b) roots))).
Proof.
  unfold selectMinMaxCandidatesFromRoots. rnum. destruct (Rltb_spec b a); split; intros; try lra; reflexivity.
Qed.

Lemma selectCandidates_good g a b roots cs :
  covers_real_roots g a b roots ->
  selectMinMaxCandidatesFromRoots a b roots = Some cs ->
  a <= b /\ good_candidates g a b cs /\ forall t, In t cs -> a <= t <= b.
Proof.
  intros Hc H. destruct (selectCandidates_spec a b roots) as [H1 H2].
  destruct (Rle_lt_dec a b) as [Hab|Hab]; [|rewrite (H1 Hab) in H; discriminate].
  rewrite (H2 Hab) in H. apply Some_inj in H. subst cs. split; [exact Hab|]. split.
  - split; [left; reflexivity|]. split; [right; left; reflexivity|].
    destruct Hc as [Hc|Hc]; [left; exact Hc|]. right. intros t Ht Hg. right. right.
    destruct (Hc t Ht Hg) as [im [Him Hin]].
    apply in_map_iff. exists (t, im). split; [reflexivity|].
    apply filter_In. split; [exact Hin|]. apply is_candidate_iff. cbn [fst snd]. split; [exact Him|lra].
  - intros t [<-|[<-|Ht]]; [lra|lra|].
    apply in_map_iff in Ht. destruct Ht as [[re im] [<- Hin]].
    apply filter_In in Hin. destruct Hin as [_ Hc']. apply is_candidate_iff in Hc'. tauto.
Qed.

Lemma selectMinMaxFromRoots_global (c : list R) (a b : R) (d : nat) (roots : list (R * R)) :
  (length c <= 22)%nat \/ (length c <= d)%nat ->
  a <= b ->
  covers_real_roots (dpoly c (S d)) a b roots ->
  (forall t, a <= t <= b -> Rabs (dpoly c d t) < @dbl_max R R_ops) ->
  exists tmin vmin tmax vmax,
    selectMinMaxFromRoots c a b (Z.of_nat d) roots = Ok (Some ((tmin, vmin), (tmax, vmax))) /\
    is_min_on (dpoly c d) a b tmin vmin /\ is_max_on (dpoly c d) a b tmax vmax.
Proof.
  intros Hl Hab Hc Hb. unfold selectMinMaxFromRoots.
  destruct (selectMinMaxCandidatesFromRoots a b roots) as [cs|] eqn:E.
  2:{ rewrite (proj2 (selectCandidates_spec a b roots) Hab) in E. discriminate. }
  destruct (selectCandidates_good _ _ _ _ _ Hc E) as (_ & Hg & Hin).
  destruct (selectMinMaxFromCandidates_spec c cs d Hl) as (t1 & v1 & t2 & v2 & Hs & F1 & F2).
  { intros t Ht. apply Hb, Hin, Ht. }
  { destruct Hg as [Ha _]. intros ->. destruct Ha. }
  exists t1, v1, t2, v2. split; [exact Hs|].
  pose proof (is_derive_dpoly c d) as Hd.
  split.
  - destruct (first_argmin_le _ _ _ _ F1) as [G1 G2].
    destruct (candidates_min _ _ a b cs Hd Hab Hg) as [x (Hx1 & Hx2 & Hx3)].
    split; [apply Hin, G1|]. split; [destruct F1 as (p & q & _ & -> & _); reflexivity|].
    intros t Ht. specialize (G2 x Hx1). specialize (Hx3 t Ht). lra.
  - destruct (first_argmax_ge _ _ _ _ F2) as [G1 G2].
    destruct (candidates_max _ _ a b cs Hd Hab Hg) as [x (Hx1 & Hx2 & Hx3)].
    split; [apply Hin, G1|]. split; [destruct F2 as (p & q & _ & -> & _); reflexivity|].
    intros t Ht. specialize (G2 x Hx1). specialize (Hx3 t Ht). lra.
Qed.

Lemma dpoly_Derive_n c d : dpoly c d = Derive_n (poly_fun c) d.
Proof.
  apply FunctionalExtensionality.functional_extensionality. intros t.
  symmetry. apply dpoly_ext_derive_n.
Qed.

Lemma computeMinMaxCandidates_cases rf (c : list R) a b (d : nat) :
  (length c <= 21)%nat \/ ((length c <= 22)%nat /\ (d < 21)%nat) ->
  ((length c <= d)%nat -> computeMinMaxCandidates rf c a b (Z.of_nat d) = Ok None) /\
  ((d < length c)%nat -> exists cs, (forall t, poly_fun cs t = dpoly c (S d) t) /\ length cs = length c /\
     computeMinMaxCandidates rf c a b (Z.of_nat d) = Ok (selectMinMaxCandidatesFromRoots a b (snd (rf cs)))).
Proof.
  intros Hl. unfold computeMinMaxCandidates. split; intros Hd.
  - replace (Z.of_nat (length c) - Z.of_nat d - 1 <? 0)%Z with true; [reflexivity|].
    symmetry. apply Z.ltb_lt. lia.
  - replace (Z.of_nat (length c) - Z.of_nat d - 1 <? 0)%Z with false.
    2:{ symmetry. apply Z.ltb_ge. lia. }
    destruct (getCoefficients_outcomes c (Z.of_nat d + 1)) as (_ & H21 & H22 & _).
    assert (exists cs, poly_getCoefficients c (Z.of_nat d + 1) = Ok cs) as [cs Hcs].
    { destruct (Nat.eq_dec (length c) 22); [apply H22|apply H21]; lia. }
    exists cs. unfold poly_getRoots. rewrite Hcs. cbn [obind].
    replace (Z.of_nat d + 1)%Z with (Z.of_nat (S d)) in Hcs by lia.
    pose proof (getCoefficients_is_derivative c cs _ Hcs) as (Hlen & Hder & _).
    split; [|split; [exact Hlen|reflexivity]].
    intros t. specialize (Hder t). rewrite Nat2Z.id in Hder.
    apply is_derive_n_poly_unique in Hder. exact Hder.
Qed.

Lemma computeMinMax_global rf (c : list R) (a b : R) (d : nat) :
  (d < length c <= 22)%nat -> (d < 21)%nat -> a <= b ->
  (forall cs, length cs = length c -> (forall t, poly_fun cs t = Derive_n (poly_fun c) (S d) t) ->
     covers_real_roots (poly_fun cs) a b (snd (rf cs))) ->
  (forall t, a <= t <= b -> Rabs (Derive_n (poly_fun c) d t) < IZR (2 ^ 1024 - 2 ^ 971)) ->
  exists tmin vmin tmax vmax,
    computeMinMax rf c a b (Z.of_nat d) = Ok (Some ((tmin, vmin), (tmax, vmax))) /\
    is_min_on (Derive_n (poly_fun c) d) a b tmin vmin /\
    is_max_on (Derive_n (poly_fun c) d) a b tmax vmax.
Proof.
  intros Hd Hd' Hab Hc Hb. rewrite <- !dpoly_Derive_n in *.
  destruct (computeMinMaxCandidates_cases rf c a b d) as [_ H]; [lia|].
  destruct H as (cs & Hcs & Hlen & E); [lia|].
  unfold computeMinMax. rewrite E. cbn [obind].
  specialize (Hc cs Hlen Hcs).
  apply (selectMinMaxFromRoots_global c a b d (snd (rf cs))); [lia|exact Hab| |exact Hb].
  replace (dpoly c (S d)) with (poly_fun cs); [exact Hc|].
  apply FunctionalExtensionality.functional_extensionality. exact Hcs.
Qed.

Lemma computeMinMax_false rf (c : list R) (a b : R) (d : nat) :
  (length c <= 21)%nat \/ ((length c <= 22)%nat /\ (d < 21)%nat) ->
  (computeMinMax rf c a b (Z.of_nat d) = Ok None <-> b < a \/ (length c <= d)%nat).
Proof.
  intros Hl. destruct (computeMinMaxCandidates_cases rf c a b d Hl) as [H1 H2].
  unfold computeMinMax. destruct (le_lt_dec (length c) d) as [Hd|Hd].
  - rewrite H1 by lia. cbn [obind]. tauto.
  - destruct (H2 Hd) as (cs & _ & _ & E). rewrite E. cbn [obind].
    destruct (selectCandidates_spec a b (snd (rf cs))) as [S1 S2].
    destruct (Rle_lt_dec a b) as [Hab|Hab].
    + rewrite S2 by exact Hab. split; [|intros [?|?]; [lra|lia]].
      unfold selectMinMaxFromCandidates.
      rewrite ofold_minmax by (intros t; apply poly_evaluate_ok; unfold kMaxConvolutionSize, kMaxN; lia).
      cbn [obind]. discriminate.
    + rewrite S1 by exact Hab. tauto.
Qed.

Lemma selectCandidates_exact (a b : R) roots :
  (b < a -> selectMinMaxCandidatesFromRoots a b roots = None) /\
  (a <= b -> exists rest, selectMinMaxCandidatesFromRoots a b roots = Some (a :: b :: rest) /\
     (forall t, In t rest <-> exists im, In (t, im) roots /\ Rabs im <= / 2 ^ 52 /\ a <= t <= b) /\
     (length rest <= length roots)%nat).
Proof.
  destruct (selectCandidates_spec a b roots) as [S1 S2]. split; [exact S1|].
  intros Hab. eexists. split; [apply S2, Hab|]. split.
  - intros t. rewrite in_map_iff. split.
    + intros [[re im] [<- Hin]]. apply filter_In in Hin. destruct Hin as [Hin Hc].
      apply is_candidate_iff in Hc. exists im. tauto.
    + intros (im & Hin & Him & Ht). exists (t, im). split; [reflexivity|].
      apply filter_In. split; [exact Hin|]. apply is_candidate_iff. tauto.
  - rewrite map_length. clear. induction roots as [|r l IH]; cbn [filter]; [lia|].
    destruct (is_candidate a b r); cbn [length]; lia.
Qed.

Lemma selectFromCandidates_exact (c cs : list R) (d : nat) :
  (length c <= 22)%nat \/ (length c <= d)%nat ->
  (selectMinMaxFromCandidates c cs (Z.of_nat d) = Ok None <-> cs = []) /\
  (cs <> [] -> (forall t, In t cs -> Rabs (Derive_n (poly_fun c) d t) < IZR (2 ^ 1024 - 2 ^ 971)) ->
   exists tmin vmin tmax vmax,
    selectMinMaxFromCandidates c cs (Z.of_nat d) = Ok (Some ((tmin, vmin), (tmax, vmax))) /\
    first_argmin (Derive_n (poly_fun c) d) cs tmin vmin /\
    first_argmax (Derive_n (poly_fun c) d) cs tmax vmax).
Proof.
  intros Hl. split.
  - destruct cs as [|t0 cs]; [cbn; tauto|]. split; [|discriminate].
    unfold selectMinMaxFromCandidates.
    rewrite ofold_minmax by (intros t; apply poly_evaluate_ok; unfold kMaxConvolutionSize, kMaxN; lia).
    discriminate.
  - intros Hne Hb. rewrite <- !dpoly_Derive_n in *.
    apply selectMinMaxFromCandidates_spec; [exact Hl|exact Hb|exact Hne].
Qed.

(** Example: x(t) = t^2 - 2 t on [0, 3]. *)
Lemma computeMinMax_example_roots : covers_real_roots (poly_fun [-2; 2; 0]) 0 3 [(1, 0)].
Proof.
  right. intros t Ht H. exists 0. rewrite Rabs_R0. split.
  - left. apply Rinv_0_lt_compat. apply pow_lt. lra.
  - left. f_equal. unfold poly_fun in H. cbn in H. lra.
Qed.

Lemma computeMinMax_example :
  computeMinMax (fun _ => (true, [(1, 0)])) [0; -2; 1] 0 3 0 = Ok (Some ((1, -1), (3, 3))).
Proof.
  unfold computeMinMax.
  destruct (computeMinMaxCandidates_cases (fun _ => (true, [(1, 0)])) [0; -2; 1] 0 3 0) as [_ H]; [cbn; lia|].
  destruct H as (cs & _ & _ & E); [cbn; lia|].
  change (Z.of_nat 0) with 0%Z in E. rewrite E. cbn [obind snd].
  rewrite (proj2 (selectCandidates_spec 0 3 _)) by lra.
  cbn [filter]. replace (is_candidate 0 3 (1, 0)) with true.
  2:{ symmetry. apply is_candidate_iff. cbn [fst snd]. rewrite Rabs_R0. split; [|lra].
      left. apply Rinv_0_lt_compat. apply pow_lt. lra. }
  cbn [map fst]. unfold selectMinMaxFromCandidates.
  rewrite (ofold_minmax _ 0) by (intros t; apply poly_evaluate_ok; cbn; lia).
  cbn [obind fst snd fold_left].
  assert (E0 : dpoly [0; -2; 1] 0 0 = 0) by (rewrite dpoly_0; unfold poly_fun; cbn; lra).
  assert (E3 : dpoly [0; -2; 1] 0 3 = 3) by (rewrite dpoly_0; unfold poly_fun; cbn; lra).
  assert (E1 : dpoly [0; -2; 1] 0 1 = -1) by (rewrite dpoly_0; unfold poly_fun; cbn; lra).
  pose proof dbl_max_pos as Hp.
  unfold min_step, max_step. cbn [fst snd]. rewrite E0, E1, E3, dbl_lowest_eq.
  rewrite (proj2 (Rltb_true 0 dbl_max)) by lra. rewrite (proj2 (Rltb_true (- dbl_max) 0)) by lra.
  cbn [fst snd]. rewrite (proj2 (Rltb_false 3 0)) by lra. rewrite (proj2 (Rltb_true 0 3)) by lra.
  cbn [fst snd]. rewrite (proj2 (Rltb_true (-1) 0)) by lra. rewrite (proj2 (Rltb_false 3 (-1))) by lra.
  reflexivity.
Qed.
