(** Lemmas about PolynomialOptimizationNonLinear; see PropNonlinear.v for the theorems. *)
From Coq Require Import ZArith List Bool Lia.
From Verif Require Import Num RSum ModelPolynomial ModelSegment ModelVertex SpecVertex ModelTrajectory
  ModelLinear SpecLinear ProofTrajectory3 ProofSegment2 ProofMatrix ProofHermite ProofLinear ProofLinear5 ModelNonlinear.
Import ListNotations.

(** Two states of the same problem: they may differ in the segment times, the
    matrices computed from them, the free constraints and the segments. *)
Section Same.
  Context {T : Type} {ops : NumOps T} (h : nat) (inv : mat T -> mat T) (solve : mat T -> list T -> list T).
  Notation N := (2 * h)%nat.
  Implicit Types o a b : opt T.

  Definition varied o (times : list T) (iv co : list (mat T)) segs free : opt T :=
    mkOpt (o_dim o) (o_deriv o) (o_vertices o) segs times iv co (o_reorder o) (o_fixed o) free
      (o_nvert o) (o_nseg o) (o_nall o) (o_nfixed o) (o_nfree o).
  Definition same_problem o o' : Prop :=
    o' = varied o (o_times o') (o_inv o') (o_cost o') (o_segments o') (o_free o') /\
    (o_nfree o = 0%nat -> o_free o' = o_free o).

  Lemma same_refl o : same_problem o o.
  Proof. split; [destruct o; reflexivity|reflexivity]. Qed.
  Lemma same_trans o1 o2 o3 : same_problem o1 o2 -> same_problem o2 o3 -> same_problem o1 o3.
  Proof.
    intros (E1 & F1) (E2 & F2). split.
    - rewrite E2 at 1. unfold varied. rewrite E1 at 1. rewrite E1 at 1.
      rewrite E1. cbn [varied o_dim o_deriv o_vertices o_reorder o_fixed o_nvert o_nseg o_nall o_nfixed o_nfree]. reflexivity.
    - intros Hn. rewrite F2, F1; [reflexivity|exact Hn|]. rewrite E1. exact Hn.
  Qed.
  Lemma same_sym o1 o2 : same_problem o1 o2 -> same_problem o2 o1.
  Proof.
    intros (E1 & F1). split.
    - rewrite E1. destruct o1. reflexivity.
    - intros Hn. symmetry. apply F1. rewrite E1 in Hn. exact Hn.
  Qed.

  Lemma same_fields o o' : same_problem o o' ->
    o_dim o' = o_dim o /\ o_deriv o' = o_deriv o /\ o_vertices o' = o_vertices o /\ o_reorder o' = o_reorder o /\
    o_fixed o' = o_fixed o /\ o_nvert o' = o_nvert o /\ o_nseg o' = o_nseg o /\ o_nall o' = o_nall o /\
    o_nfixed o' = o_nfixed o /\ o_nfree o' = o_nfree o.
  Proof. intros (E & _). rewrite E. cbn [varied o_dim o_deriv o_vertices o_reorder o_fixed o_nvert o_nseg o_nall o_nfixed o_nfree]. tauto. Qed.

  Lemma times_same o times a : opt_updateSegmentTimes h inv o times = Ok a ->
    same_problem o a /\ o_times a = times /\ o_free a = o_free o /\ o_segments a = o_segments o /\
    forall o', same_problem o o' ->
      opt_updateSegmentTimes h inv o' times = Ok (varied a (o_times a) (o_inv a) (o_cost a) (o_segments o') (o_free o')).
  Proof.
    intros H. unfold opt_updateSegmentTimes in H.
    destruct (negb _) eqn:El; [discriminate|]. destruct (omap _ times) as [ms| | |] eqn:Em; cbn [obind] in H; try discriminate.
    apply Ok_inj in H. subst a. split; [split; reflexivity|]. split; [reflexivity|]. split; [reflexivity|]. split; [reflexivity|].
    intros o' S. destruct (same_fields _ _ S) as (E1 & E2 & E3 & E4 & E5 & E6 & E7 & E8 & E9 & E10).
    unfold opt_updateSegmentTimes. rewrite E7, El, E2, Em. cbn [obind]. f_equal.
    unfold varied. cbn [o_dim o_deriv o_vertices o_reorder o_fixed o_nvert o_nseg o_nall o_nfixed o_nfree o_times o_inv o_cost].
    congruence.
  Qed.

  Lemma updateSegments_shape o o' : opt_updateSegments h o = Ok o' -> o' = with_segments o (o_segments o').
  Proof.
    intros Hu. unfold opt_updateSegments in Hu. destruct (ofold _ _ _); cbn [obind] in Hu; try discriminate.
    apply Ok_inj in Hu. subst o'. reflexivity.
  Qed.
  Lemma solve_same_problem o a : opt_solveLinear h solve o = Ok a ->
    same_problem o a /\ o_times a = o_times o /\ o_inv a = o_inv o /\ o_cost a = o_cost o.
  Proof.
    intros H. unfold opt_solveLinear in H. destruct (_ || _); [discriminate|].
    destruct (Nat.eqb_spec (o_nfree o) 0) as [Ez|Ez].
    - apply updateSegments_shape in H. rewrite H. split; [split; reflexivity|]. repeat split.
    - destruct (opt_constructR h o) as [Rm| | |]; cbn [obind] in H; try discriminate.
      destruct (omap _ _) as [dps| | |]; cbn [obind] in H; try discriminate.
      apply updateSegments_shape in H. rewrite H. split; [split; [reflexivity|]|]; [|repeat split].
      intros Hn. contradiction.
  Qed.
  Lemma setFree_same_problem o free a : opt_setFreeConstraints h o free = Ok a ->
    o_times a = o_times o /\ o_inv a = o_inv o /\ o_cost a = o_cost o /\ o_free a = free /\
    a = varied o (o_times a) (o_inv a) (o_cost a) (o_segments a) (o_free a) /\
    length free = o_dim o /\ (forall v, In v free -> length v = o_nfree o).
  Proof.
    intros H. unfold opt_setFreeConstraints in H.
    destruct (Nat.eqb_spec (length free) (o_dim o)) as [El|]; cbn [negb] in H; [|discriminate].
    destruct (forallb _ free) eqn:Ef; cbn [negb] in H; [|discriminate].
    apply updateSegments_shape in H. rewrite H. do 4 (split; [reflexivity|]).
    split; [reflexivity|]. split; [exact El|]. intros v Hv. rewrite forallb_forall in Ef. apply Nat.eqb_eq. now apply Ef.
  Qed.

  Lemma varied_mats o segs free : same_problem o (varied o (o_times o) (o_inv o) (o_cost o) segs free) ->
    varied o (o_times o) (o_inv o) (o_cost o) segs free = with_free (with_segments o segs) free.
  Proof. reflexivity. Qed.

  (** Solving depends on the problem and the times only. *)
  Lemma solve_same vs a b r : (forall A v, length (solve A v) = length v) -> (0 < o_dim a)%nat ->
    prepared h inv vs a -> prepared h inv vs b -> same_problem a b ->
    o_times b = o_times a -> o_inv b = o_inv a -> o_cost b = o_cost a ->
    opt_solveLinear h solve a = Ok r -> opt_solveLinear h solve b = Ok r.
  Proof.
    intros Hsol Hd Pa Pb S Et Ei Ec.
    assert (Eb : b = with_free (with_segments a (o_segments b)) (o_free b)).
    { destruct S as (E & _). rewrite E at 1. rewrite Et, Ei, Ec. reflexivity. }
    destruct S as (_ & Sf).
    assert (Hsz := prepared_sized h inv vs a Pa). assert (Sha := prepared_shaped h inv vs a Pa).
    assert (Shb := prepared_shaped h inv vs b Pb).
    unfold opt_solveLinear.
    assert (Er : o_deriv b = o_deriv a) by (rewrite Eb; reflexivity). rewrite Er.
    assert (En : o_nfree b = o_nfree a) by (rewrite Eb; reflexivity). rewrite En.
    destruct (_ || _); [discriminate|].
    destruct (Nat.eqb_spec (o_nfree a) 0) as [Ez|Ez].
    - intros H. assert (Eb' : b = with_segments a (o_segments b)).
      { rewrite Eb at 1. rewrite (Sf Ez). destruct a; reflexivity. }
      destruct (updateSegments_inv h a r Hsz H) as (_ & _ & Hfs). rewrite <- H.
      assert (Ea : a = with_segments a (o_segments a)) by (destruct a; reflexivity).
      transitivity (opt_updateSegments h (with_segments a (o_segments a))); [rewrite Eb'|rewrite <- Ea; reflexivity].
      apply update_same; [exact Hd| | |exact Hsz|intros d Hdd; apply Hfs; exact Hdd].
      + rewrite <- Eb'. exact Shb.
      + destruct Sha as (A1 & A2 & A3). split; [exact A1|]. split; [exact A2|exact A3].
    - assert (ER : opt_constructR h b = opt_constructR h a) by (rewrite Eb; reflexivity). rewrite ER.
      destruct (opt_constructR h a) as [Rm| | |]; cbn [obind]; try discriminate.
      assert (Efx : o_fixed b = o_fixed a) by (rewrite Eb; reflexivity).
      assert (Enf : o_nfixed b = o_nfixed a) by (rewrite Eb; reflexivity).
      assert (Edd : o_dim b = o_dim a) by (rewrite Eb; reflexivity).
      assert (Ens : o_nseg b = o_nseg a) by (rewrite Eb; reflexivity).
      rewrite Efx, Enf, Edd.
      set (G := fun d : nat => _).
      destruct (omap G (seq 0 (o_dim a))) as [dps| | |] eqn:Edp; cbn [obind]; try discriminate.
      assert (Hdl : forall d, d < o_dim a -> length (nth d dps []) = o_nfree a).
      { intros d Hd'. destruct (Forall2_nth_both _ _ _ 0 [] (omap_Forall2 _ _ _ Edp)) as (_ & Hn).
        rewrite seq_length in Hn. specialize (Hn d Hd'). rewrite seq_nth in Hn by exact Hd'. cbn [Nat.add] in Hn.
        unfold G in Hn. destruct (oget (o_fixed a) d); cbn [obind] in Hn; try discriminate.
        apply Ok_inj in Hn. rewrite <- Hn. rewrite Hsol. apply mk_vec_length. }
      assert (Ll := omap_length _ _ _ Edp). rewrite seq_length in Ll.
      destruct Sha as (A1 & A2 & A3). destruct Shb as (B1 & B2 & B3).
      match goal with |- opt_updateSegments h ?y = Ok r -> opt_updateSegments h ?x = Ok r =>
        assert (Q1 : x = with_segments (with_free a dps) (o_segments b)) by (rewrite Eb; reflexivity);
        assert (Q2 : y = with_segments (with_free a dps) (o_segments a)) by reflexivity
      end.
      rewrite Q1, Q2. intros <-. apply update_same.
      + exact Hd.
      + split; [cbn [with_segments with_free o_segments o_nseg]; congruence|]. cbn [with_segments with_free o_segments o_dim o_free].
        split; [rewrite <- Edd; exact B2|exact Ll].
      + split; [exact A1|]. split; [exact A2|exact Ll].
      + exact Hsz.
      + exact Hdl.
  Qed.
End Same.
