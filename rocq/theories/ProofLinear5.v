(** Histories of calls on the linear optimiser, success of the calls and reuse
    of an object, for every number type. *)
From Coq Require Import ZArith List Bool Lia Arith Sorted.
From Verif Require Import Num RSum ModelPolynomial ModelSegment ModelVertex ModelTrajectory ModelLinear
  SpecSegment SpecVertex SpecLinear ProofPolynomial ProofSegment ProofSegment2 ProofVertex ProofTrajectory3
  ProofHermite ProofReorder ProofLinear.
Import ListNotations.

Lemma ofold_pres {A S} (I : S -> Prop) (f : S -> A -> outcome S) l :
  (forall s x s', I s -> f s x = Ok s' -> I s') -> forall s r, ofold f l s = Ok r -> I s -> I r.
Proof.
  intros Hf. induction l as [|x l IH]; intros s r H Hs; cbn [ofold] in H.
  - apply Ok_inj in H. subst. exact Hs.
  - destruct (f s x) as [s'| | |] eqn:E; cbn [obind] in H; try discriminate.
    apply (IH s' r H). exact (Hf _ _ _ Hs E).
Qed.

Section Reach.
  Context {T : Type} {ops : NumOps T} (h : nat) (inv : mat T -> mat T) (solve : mat T -> list T -> list T).
  Notation N := (2 * h).
  Implicit Types o : opt T.

  Lemma list_set_Forall {A} (P : A -> Prop) : forall (l : list A) i x, List.Forall P l -> P x -> List.Forall P (list_set l i x).
  Proof.
    induction l as [|y l IH]; intros [|i] x Hl Hx; cbn [list_set]; inversion Hl; subst; try constructor; auto.
  Qed.

  Lemma write_shape dim (segs : list (segment T)) i d t c r : List.Forall (seg_shape h dim) segs -> length c = N ->
    write_segment segs i d t c = Ok r -> List.Forall (seg_shape h dim) r /\ length r = length segs.
  Proof.
    intros Hs Hc H. unfold write_segment in H. destruct (oget segs i) as [s| | |] eqn:E; cbn [obind] in H; try discriminate.
    destruct (Nat.ltb d (seg_D s)); [|discriminate]. apply Ok_inj in H. subst r. rewrite list_set_length.
    split; [|reflexivity].
    assert (Hin : In s segs).
    { unfold oget in E. destruct (nth_error segs i) eqn:En; [|discriminate]. apply Ok_inj in E. subst. eapply nth_error_In; eassumption. }
    rewrite Forall_forall in Hs. destruct (Hs s Hin) as (E1 & E2 & E3).
    apply list_set_Forall; [apply Forall_forall; exact Hs|].
    split; [exact E1|]. unfold seg_D, seg_wf in *. cbn [seg_polys seg_N]. rewrite list_set_length. split; [exact E2|].
    rewrite E1 in *. apply list_set_Forall; assumption.
  Qed.

  Lemma updateSegments_shaped o o' : shaped h o -> opt_updateSegments h o = Ok o' -> shaped h o' /\ o_dim o' = o_dim o.
  Proof.
    intros (S1 & S2 & S3) H. unfold opt_updateSegments in H.
    destruct (ofold _ _ _) as [segs| | |] eqn:E; cbn [obind] in H; try discriminate.
    apply Ok_inj in H. subst o'. unfold shaped. cbn [o_segments o_nseg o_dim o_free].
    assert (G : List.Forall (seg_shape h (o_dim o)) segs /\ length segs = o_nseg o); [|tauto].
    set (I := fun segs : list (segment T) => List.Forall (seg_shape h (o_dim o)) segs /\ length segs = o_nseg o).
    refine (ofold_pres I _ _ _ _ _ E (conj S2 S1)).
    intros s d s' Is H. cbn beta in H.
    destruct (oget (o_fixed o) d) as [df| | |]; cbn [obind] in H; try discriminate.
    destruct (oget (o_free o) d) as [dp| | |]; cbn [obind] in H; try discriminate.
    destruct (negb _); [discriminate|].
    refine (ofold_pres I _ _ _ _ _ H Is). clear H Is s s'. intros s i s' (I1 & I2) H.
    destruct (_ <? _); [discriminate|].
    destruct (oget (o_inv o) i) as [Ai| | |]; cbn [obind] in H; try discriminate.
    destruct (oget (o_times o) i) as [t| | |]; cbn [obind] in H; try discriminate.
    apply (write_shape (o_dim o)) in H; [|exact I1|unfold mat_vec; apply mk_vec_length].
    destruct H as (H1 & H2). split; [exact H1|]. lia.
  Qed.

  Lemma times_shaped o times o' : shaped h o -> opt_updateSegmentTimes h inv o times = Ok o' ->
    shaped h o' /\ o_dim o' = o_dim o.
  Proof.
    intros Hs H. unfold opt_updateSegmentTimes in H. destruct (negb _); [discriminate|].
    destruct (omap _ times) as [ms| | |]; cbn [obind] in H; try discriminate.
    apply Ok_inj in H. subst o'. split; [exact Hs|reflexivity].
  Qed.

  Lemma run_ocall_shaped o c o' : shaped h o -> run_ocall h inv solve o c = Ok o' -> shaped h o' /\ o_dim o' = o_dim o.
  Proof.
    intros Hs H. assert (Hs' := Hs). destruct Hs' as (S1 & S2 & S3). destruct c as [vs times r|times|free|]; cbn [run_ocall] in H.
    - unfold opt_setupFromVertices in H. destruct (_ || _); [discriminate|]. destruct vs as [|v rest]; [discriminate|].
      destruct (negb _); [discriminate|]. destruct (omap _ _) as [ws| | |]; cbn [obind] in H; try discriminate.
      destruct (opt_updateSegmentTimes _ _ _ _) as [o1| | |] eqn:E1; cbn [obind] in H; try discriminate.
      apply times_shaped in E1.
      2:{ split; [cbn [o_segments o_nseg]; apply vec_resize_length|]. split; [|exact S3].
          cbn [o_segments o_dim]. apply vec_resize_Forall; [exact S2|apply seg_new_shape]. }
      destruct E1 as (E1 & Ed). cbn [o_dim] in Ed.
      unfold opt_setupReordering in H. destruct (omap _ _) as [df| | |]; cbn [obind] in H; try discriminate.
      apply Ok_inj in H. subst o'. split; [exact E1|exact Ed].
    - eapply times_shaped; eassumption.
    - unfold opt_setFreeConstraints in H.
      destruct (Nat.eqb_spec (length free) (o_dim o)) as [El|]; cbn [negb] in H; [|discriminate].
      destruct (negb (forallb _ free)); [discriminate|].
      apply updateSegments_shaped in H; [exact H|]. split; [exact S1|]. split; [exact S2|exact El].
    - unfold opt_solveLinear in H. destruct (_ || _); [discriminate|].
      destruct (Nat.eqb (o_nfree o) 0); [eapply updateSegments_shaped; eassumption|].
      destruct (opt_constructR h o) as [Rm| | |]; cbn [obind] in H; try discriminate.
      destruct (omap _ _) as [dps| | |] eqn:Ed; cbn [obind] in H; try discriminate.
      apply omap_length in Ed. rewrite seq_length in Ed.
      apply updateSegments_shaped in H; [exact H|]. split; [exact S1|]. split; [exact S2|exact Ed].
  Qed.

  Lemma run_ocalls_shaped cs : forall o o', shaped h o -> run_ocalls h inv solve o cs = Ok o' ->
    shaped h o' /\ o_dim o' = o_dim o.
  Proof.
    induction cs as [|c cs IH]; intros o o' Hs H; cbn [run_ocalls] in H.
    - apply Ok_inj in H. subst. auto.
    - destruct (run_ocall h inv solve o c) as [o1| | |] eqn:E; cbn [obind] in H; try discriminate.
      destruct (run_ocall_shaped _ _ _ Hs E) as (H1 & H2). destruct (IH _ _ H1 H) as (H3 & H4).
      split; [exact H3|]. congruence.
  Qed.

  Lemma reached_shaped dim cs o : run_ocalls h inv solve (opt_new dim) cs = Ok o -> shaped h o /\ o_dim o = dim.
  Proof. intros H. apply (run_ocalls_shaped cs (opt_new dim) o (new_shaped h dim) H). Qed.

  (** After a setup, calls that are not setups keep the problem. *)
  Lemma run_prepared vs c o o' : no_setup c -> prepared h inv vs o -> run_ocall h inv solve o c = Ok o' ->
    prepared h inv vs o' /\ o_deriv o' = o_deriv o /\ o_dim o' = o_dim o /\ (computes_segments c -> synced h o').
  Proof.
    intros Hc P H. destruct (run_ocall_shaped o c o' (prepared_shaped h inv vs o P) H) as (_ & Hd).
    destruct c as [vs' times r|times|free|]; cbn [run_ocall no_setup computes_segments] in *; [destruct Hc| | |].
    - destruct (times_prepared h inv vs o times o' P H) as (P' & _ & _ & _ & E). split; [exact P'|]. split; [exact E|].
      split; [exact Hd|tauto].
    - destruct (setFree_prepared h inv vs o free o' P H) as (P' & S' & _). split; [exact P'|].
      split; [|split; [exact Hd|auto]].
      unfold opt_setFreeConstraints in H. destruct (negb _); [discriminate|]. destruct (negb _); [discriminate|].
      unfold opt_updateSegments in H. destruct (ofold _ _ _); cbn [obind] in H; try discriminate.
      apply Ok_inj in H. subst o'. reflexivity.
    - destruct (solve_prepared h inv solve vs o o' P H) as (P' & S' & _). split; [exact P'|].
      split; [|split; [exact Hd|auto]].
      unfold opt_solveLinear in H. destruct (_ || _); [discriminate|].
      assert (G : forall o1, o_deriv o1 = o_deriv o -> opt_updateSegments h o1 = Ok o' -> o_deriv o' = o_deriv o).
      { intros o1 E1 Hu. unfold opt_updateSegments in Hu. destruct (ofold _ _ _); cbn [obind] in Hu; try discriminate.
        apply Ok_inj in Hu. subst o'. exact E1. }
      destruct (Nat.eqb (o_nfree o) 0); [exact (G o eq_refl H)|].
      destruct (opt_constructR h o) as [Rm| | |]; cbn [obind] in H; try discriminate.
      destruct (omap _ _) as [dps| | |]; cbn [obind] in H; try discriminate.
      revert H. apply G. reflexivity.
  Qed.
  Lemma runs_prepared vs cs : forall o o', List.Forall no_setup cs -> prepared h inv vs o ->
    run_ocalls h inv solve o cs = Ok o' -> prepared h inv vs o' /\ o_deriv o' = o_deriv o /\ o_dim o' = o_dim o.
  Proof.
    induction cs as [|c cs IH]; intros o o' Hc P H; cbn [run_ocalls] in H.
    - apply Ok_inj in H. subst. auto.
    - inversion Hc; subst. destruct (run_ocall h inv solve o c) as [o1| | |] eqn:E; cbn [obind] in H; try discriminate.
      destruct (run_prepared vs c o o1) as (P1 & D1 & M1 & _); [assumption..|].
      destruct (IH o1 o') as (P2 & D2 & M2); [assumption..|]. split; [exact P2|]. split; congruence.
  Qed.
  Lemma run_snoc cs c : forall o, run_ocalls h inv solve o (cs ++ [c]) =
    obind (run_ocalls h inv solve o cs) (fun o' => run_ocall h inv solve o' c).
  Proof.
    induction cs as [|c' cs IH]; intros o; cbn [app run_ocalls].
    - cbn [obind]. destruct (run_ocall h inv solve o c); reflexivity.
    - destruct (run_ocall h inv solve o c') as [o1| | |]; cbn [obind]; [apply IH|reflexivity..].
  Qed.

  (** What a caller sees after: any history, a setup, further calls, and a last
      call that computes the segments. *)
  Lemma history_prepared dim pre vs times r mid last o0 o1 o2 o3 :
    List.Forall vertex_wf vs -> run_ocalls h inv solve (opt_new dim) pre = Ok o0 ->
    opt_setupFromVertices h inv o0 vs times r = Ok o1 ->
    List.Forall no_setup mid -> run_ocalls h inv solve o1 mid = Ok o2 ->
    computes_segments last -> run_ocall h inv solve o2 last = Ok o3 ->
    prepared h inv vs o3 /\ synced h o3 /\ o_dim o3 = dim /\ o_deriv o3 = r /\
    prepared h inv vs o2 /\ o_dim o2 = dim /\ o_deriv o2 = r.
  Proof.
    intros Hwf H0 H1 Hm H2 Hl H3. destruct (reached_shaped dim pre o0 H0) as (Sh & Hd).
    destruct (setup_prepared h inv vs o0 times r o1 Hwf Sh H1) as (P1 & _ & D1 & _ & R1).
    destruct (runs_prepared vs mid o1 o2 Hm P1 H2) as (P2 & R2 & D2).
    assert (Hns : no_setup last) by (destruct last; cbn in *; tauto).
    destruct (run_prepared vs last o2 o3 Hns P2 H3) as (P3 & R3 & D3 & S3).
    split; [exact P3|]. split; [exact (S3 Hl)|]. split; [congruence|]. split; [congruence|].
    split; [exact P2|]. split; congruence.
  Qed.

  (** ** Reuse *)
  Lemma setup_fresh vs times r o o1 : shaped h o -> opt_setupFromVertices h inv o vs times r = Ok o1 ->
    exists of, opt_setupFromVertices h inv (opt_new (o_dim o)) vs times r = Ok of /\
      shaped h of /\ o1 = with_free (with_segments of (o_segments o1)) (o_free o) /\
      o_free of = repeat [] (o_dim o).
  Proof.
    intros Sh H. unfold opt_setupFromVertices in *. destruct (_ || _); [discriminate|]. destruct vs as [|v rest]; [discriminate|].
    destruct (negb _); [discriminate|]. cbn [opt_new o_dim].
    destruct (omap _ _) as [ws| | |]; cbn [obind] in *; try discriminate.
    unfold opt_updateSegmentTimes in *. cbn [o_nseg o_deriv] in *. destruct (negb _); [discriminate|].
    destruct (omap _ times) as [ms| | |]; cbn [obind] in *; try discriminate.
    unfold opt_setupReordering in *. cbn [o_dim o_nseg o_vertices o_times o_inv o_cost o_free o_segments o_deriv o_nvert] in *.
    destruct (omap _ (seq 0 (o_dim o))) as [df| | |]; cbn [obind] in *; try discriminate.
    apply Ok_inj in H. subst o1. eexists. split; [reflexivity|]. split; [|split; reflexivity].
    split; [cbn [o_segments o_nseg]; apply vec_resize_length|]. cbn [o_segments o_dim o_free]. split.
    - apply vec_resize_Forall; [constructor|apply seg_new_shape].
    - apply repeat_length.
  Qed.

  Lemma update_same o segs segs' : (0 < o_dim o) -> shaped h (with_segments o segs) -> shaped h (with_segments o segs') ->
    sized h o -> free_sized o -> opt_updateSegments h (with_segments o segs) = opt_updateSegments h (with_segments o segs').
  Proof.
    intros Hd S1 S2 Hs Hf.
    rewrite (updateSegments_ok h _ S1 Hs Hf), (updateSegments_ok h _ S2 Hs Hf). cbn [with_segments o_dim].
    destruct (Nat.eqb_spec (o_dim o) 0); [lia|]. reflexivity.
  Qed.

  Lemma solve_fresh vs times r o o1 of :
    List.Forall vertex_wf vs -> (forall A b, length (solve A b) = length b) ->
    0 < o_dim o -> shaped h o ->
    opt_setupFromVertices h inv o vs times r = Ok o1 ->
    opt_setupFromVertices h inv (opt_new (o_dim o)) vs times r = Ok of ->
    (o_nfree o1 > 0 \/ (forall d, d < o_dim o -> length (nth d (o_free o) []) = 0)) ->
    o_nfree o1 = o_nfree of /\
    match opt_solveLinear h solve o1, opt_solveLinear h solve of with
    | Ok a, Ok b => o_segments a = o_segments b /\ (o_nfree o1 > 0 -> a = b)
    | x, y => x = y
    end.
  Proof.
    intros Hwf Hsol Hd Sh H1 Hf Hcase.
    destruct (setup_fresh vs times r o o1 Sh H1) as (of' & Ef & Shf & E1 & Efr).
    rewrite Hf in Ef. apply Ok_inj in Ef. subst of'.
    destruct (setup_prepared h inv vs o times r o1 Hwf Sh H1) as (P1 & _ & D1 & F1 & _).
    destruct (setup_prepared h inv vs (opt_new (o_dim o)) times r of Hwf (new_shaped h (o_dim o)) Hf) as (Pf & _ & Df & _ & _).
    cbn [opt_new o_dim] in Df.
    assert (En : o_nfree o1 = o_nfree of) by (rewrite E1; reflexivity). split; [exact En|].
    assert (Hsz := prepared_sized h inv vs of Pf).
    assert (Sh1 := prepared_shaped h inv vs o1 P1).
    destruct Sh1 as (T1 & T2 & T3). destruct Shf as (U1 & U2 & U3).
    assert (Ens : o_nseg o1 = o_nseg of) by (rewrite E1; reflexivity).
    assert (Ed1 : o_dim o1 = o_dim of) by (rewrite E1; reflexivity).
    unfold opt_solveLinear.
    assert (Er : o_deriv o1 = o_deriv of) by (rewrite E1; reflexivity). rewrite Er, En.
    destruct (_ || _); [reflexivity|].
    destruct (Nat.eqb_spec (o_nfree of) 0) as [Ez|Ez].
    - destruct Hcase as [Hc|Hc]; [lia|].
      assert (Hfs : free_sized of).
      { intros d Hd'. rewrite Efr, Ez. rewrite nth_repeat. reflexivity. }
      assert (Hfs1 : free_sized o1).
      { intros d Hd'. rewrite F1, En, Ez. apply Hc. congruence. }
      rewrite (updateSegments_ok h o1 (conj T1 (conj T2 T3)) (prepared_sized h inv vs o1 P1) Hfs1).
      rewrite (updateSegments_ok h of (conj U1 (conj U2 U3)) Hsz Hfs).
      cbn [with_segments o_segments]. split; [|lia].
      rewrite Ed1. destruct (Nat.eqb_spec (o_dim of) 0); [lia|].
      assert (Eff : forall d, d < o_dim of -> nth d (o_free o1) [] = nth d (o_free of) []).
      { intros d Hd'. rewrite F1, Efr, nth_repeat. apply length_zero_iff_nil. apply Hc. congruence. }
      unfold chain_of. rewrite Ens, Ed1. apply map_ext_in. intros i Hi. f_equal; [|rewrite E1; reflexivity].
      apply map_ext_in. intros d Hd'. apply in_seq in Hd'. unfold coeffs_of, end_derivs. rewrite Eff by lia. rewrite E1. reflexivity.
    - assert (ER : opt_constructR h o1 = opt_constructR h of) by (rewrite E1; reflexivity). rewrite ER.
      destruct (opt_constructR h of) as [Rm| | |]; cbn [obind]; try reflexivity.
      assert (Efx : o_fixed o1 = o_fixed of) by (rewrite E1; reflexivity).
      assert (Enf : o_nfixed o1 = o_nfixed of) by (rewrite E1; reflexivity).
      rewrite Efx, Enf, Ed1.
      set (G := fun d : nat => _).
      destruct (omap G (seq 0 (o_dim of))) as [dps| | |] eqn:Edp; cbn [obind]; try reflexivity.
      assert (Hdl : forall d, d < o_dim of -> length (nth d dps []) = o_nfree of).
      { intros d Hd'. destruct (Forall2_nth_both _ _ _ 0 [] (omap_Forall2 _ _ _ Edp)) as (_ & Hn).
        rewrite seq_length in Hn. specialize (Hn d Hd'). rewrite seq_nth in Hn by exact Hd'. cbn [Nat.add] in Hn.
        unfold G in Hn. destruct (oget (o_fixed of) d); cbn [obind] in Hn; try discriminate.
        apply Ok_inj in Hn. rewrite <- Hn. rewrite Hsol. apply mk_vec_length. }
      assert (Ll := omap_length _ _ _ Edp). rewrite seq_length in Ll.
      assert (EE : opt_updateSegments h
         (mkOpt (o_dim of) (o_deriv of) (o_vertices o1) (o_segments o1) (o_times o1) (o_inv o1) (o_cost o1) (o_reorder o1)
            (o_fixed of) dps (o_nvert o1) (o_nseg o1) (o_nall o1) (o_nfixed of) (o_nfree of)) =
         opt_updateSegments h (with_free of dps)).
      { assert (Q1 : mkOpt (o_dim of) (o_deriv of) (o_vertices o1) (o_segments o1) (o_times o1) (o_inv o1) (o_cost o1) (o_reorder o1)
            (o_fixed of) dps (o_nvert o1) (o_nseg o1) (o_nall o1) (o_nfixed of) (o_nfree of) =
            with_segments (with_free of dps) (o_segments o1)) by (rewrite E1; reflexivity).
        assert (Q2 : with_free of dps = with_segments (with_free of dps) (o_segments of)) by reflexivity.
        rewrite Q1. rewrite Q2 at 2. apply update_same.
        - cbn [with_free o_dim]. congruence.
        - split; [cbn [with_segments with_free o_segments o_nseg]; congruence|]. cbn [with_segments with_free o_segments o_dim o_free].
          split; [rewrite <- Ed1; exact T2|exact Ll].
        - split; [exact U1|]. split; [exact U2|exact Ll].
        - exact Hsz.
        - exact Hdl. }
      rewrite EE. clear EE. unfold with_free.
      match goal with |- match ?X with _ => _ end => destruct X end; try reflexivity. auto.
  Qed.

  (** ** Success of the calls *)
  Lemma filter_vertex_ok dim (v : vertex T) :
    List.Forall (fun c => (fst c <= Z.of_nat h - 1)%Z -> length (snd c) = dim) (v_con v) ->
    exists w, filter_vertex h dim v = Ok w.
  Proof.
    intros Hv. unfold filter_vertex.
    set (F := fun (st : bool * vertex T) c => _).
    assert (G : forall m st, List.Forall (fun c => (fst c <= Z.of_nat h - 1)%Z -> length (snd c) = dim) m ->
       v_D (snd st) = dim -> exists r, ofold F m st = Ok r).
    { induction m as [|c m IH]; intros st Hm HD; [eexists; reflexivity|]. inversion Hm as [|? ? Hc Hm']; subst.
      cbn [ofold].
      assert (EF : exists st', F st c = Ok st' /\ v_D (snd st') = v_D (snd st)).
      { unfold F, kHighestDerivative. destruct (Z.ltb_spec (Z.of_nat h - 1) (fst c)).
        - eexists. split; reflexivity.
        - unfold vertex_add. rewrite Hc by lia. rewrite Nat.eqb_refl. cbn [obind]. eexists. split; reflexivity. }
      destruct EF as (st' & -> & ED). cbn [obind]. apply IH; [exact Hm'|exact ED]. }
    destruct (G (v_con v) (true, vertex_new dim) Hv eq_refl) as (r & ->). cbn [obind]. eexists. reflexivity.
  Qed.
End Reach.
