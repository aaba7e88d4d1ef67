(** Derivatives of the computed segments at the vertices (real instance). *)
From Coq Require Import ZArith Reals List Bool Lia Lra Arith Sorted.
From Coquelicot Require Import Coquelicot.
From Verif Require Import Num RSum SpecPoly ModelPolynomial ModelSegment ModelVertex ModelTrajectory ModelLinear
  SpecSegment SpecVertex SpecLinear ProofPolynomial ProofPolynomial2 ProofSegment ProofSegment2 ProofVertex ProofTrajectory3
  ProofMatrix ProofHermite ProofReorder ProofLinear.
Import ListNotations.
Open Scope R_scope.

Section Linear2.
  Context (h : nat) (inv : mat R -> mat R).
  Notation N := (2 * h)%nat.
  Implicit Types (o : opt R) (vs : list (vertex R)).

  (** Value of derivative k at vertex v in dimension d. *)
  Definition node vs o (d v k : nat) : R :=
    rsum (o_nfixed o + o_nfree o) (fun j =>
      (if con_eqb (snd (con_at (o_dim o) vs v k)) (nth j (cols h (o_dim o) vs (o_nseg o)) (mkCon 0 0 [])) then 1 else 0)
      * vget (nth d (o_fixed o) [] ++ nth d (o_free o) []) j).

  Lemma cols_len vs o : prepared h inv vs o ->
    length (cols h (o_dim o) vs (o_nseg o)) = (o_nfixed o + o_nfree o)%nat.
  Proof.
    intros P. unfold cols. rewrite app_length, (pr_nfixed _ _ _ _ P), (pr_nfree _ _ _ _ P). reflexivity.
  Qed.

  Lemma reorder_entry vs o r j : prepared h inv vs o ->
    (r < o_nall o)%nat -> (j < o_nfixed o + o_nfree o)%nat ->
    mget (o_reorder o) r j =
    if con_eqb (snd (nth r (all_constraints h (o_dim o) (o_nseg o) 0 vs) (false, mkCon 0 0 [])))
               (nth j (cols h (o_dim o) vs (o_nseg o)) (mkCon 0 0 [])) then 1 else 0.
  Proof.
    intros P Hr Hj. unfold mget. rewrite (pr_reorder _ _ _ _ P).
    rewrite (nth_map_lt _ _ [] (false, mkCon 0 0 [])) by (rewrite <- (pr_nall _ _ _ _ P); exact Hr).
    rewrite (nth_map_lt _ _ _ (mkCon 0 0 [])) by (rewrite (cols_len vs o P); exact Hj). reflexivity.
  Qed.

  Lemma end_derivs_node vs o d i r : prepared h inv vs o -> (i < o_nseg o)%nat -> (r < N)%nat ->
    vget (end_derivs h o d i) r = if Nat.ltb r h then node vs o d i r else node vs o d (S i) (r - h).
  Proof.
    intros P Hi Hr. unfold end_derivs. rewrite vget_mk by exact Hr. rewrite nsum_rsum.
    assert (Hall : o_nall o = (o_nseg o * N)%nat).
    { rewrite (pr_nall _ _ _ _ P). apply all_length; [apply (pr_nseg _ _ _ _ P)|lia]. }
    assert (E : forall j, (j < o_nfixed o + o_nfree o)%nat -> mget (o_reorder o) (i * N + r) j =
       if con_eqb (snd (if Nat.ltb r h then con_at (o_dim o) vs i r else con_at (o_dim o) vs (S i) (r - h)))
          (nth j (cols h (o_dim o) vs (o_nseg o)) (mkCon 0 0 [])) then 1 else 0).
    { intros j Hj. rewrite (reorder_entry vs o) by (try assumption; rewrite Hall; nia).
      rewrite all_nth; [reflexivity|apply (pr_nseg _ _ _ _ P)|exact Hi|exact Hr]. }
    destruct (Nat.ltb r h); unfold node; apply rsum_ext; intros j Hj; rewrite E by exact Hj; reflexivity.
  Qed.

  (** Position of a constraint among the columns. *)
  Lemma con_position vs o v k : prepared h inv vs o -> (v < length vs)%nat -> (k < h)%nat ->
    exists j, (j < o_nfixed o + o_nfree o)%nat /\
      nth j (cols h (o_dim o) vs (o_nseg o)) (mkCon 0 0 []) = snd (con_at (o_dim o) vs v k) /\
      forall d, node vs o d v k = vget (nth d (o_fixed o) [] ++ nth d (o_free o) []) j.
  Proof.
    intros P Hv Hk. assert (Hn := pr_nseg _ _ _ _ P).
    assert (Hin : In (snd (con_at (o_dim o) vs v k)) (cols h (o_dim o) vs (o_nseg o))).
    { apply cols_In; [exact Hn|]. exists v, k. split; [lia|]. split; [exact Hk|reflexivity]. }
    destruct (In_nth _ _ (mkCon 0 0 []) Hin) as (j & Hj & Ej). exists j.
    assert (Hl := cols_len vs o P). split; [lia|]. split; [exact Ej|].
    intros d. unfold node.
    rewrite (rsum_ext _ _ (fun j0 => delta j j0 * vget (nth d (o_fixed o) [] ++ nth d (o_free o) []) j0)).
    { apply rsum_delta_l. lia. }
    intros j' Hj'. f_equal. unfold delta. rewrite <- Ej.
    destruct (con_eqb _ _) eqn:E.
    - apply con_eqb_key in E. apply cols_inj in E; [|exact Hn|lia|lia]. subst. rewrite Nat.eqb_refl. reflexivity.
    - destruct (Nat.eqb_spec j j') as [->|]; [|reflexivity]. exfalso.
      assert (E' : con_eqb (nth j' (cols h (o_dim o) vs (o_nseg o)) (mkCon 0 0 []))
                           (nth j' (cols h (o_dim o) vs (o_nseg o)) (mkCon 0 0 [])) = true)
        by (apply con_eqb_key; reflexivity). congruence.
  Qed.

  Lemma node_fixed vs o d v k x : prepared h inv vs o -> (v < length vs)%nat -> (k < h)%nat -> (d < o_dim o)%nat ->
    vertex_get (nth v vs dvert) (Z.of_nat k) = Some x -> node vs o d v k = nth d x 0.
  Proof.
    intros P Hv Hk Hd Hx. destruct (con_position vs o v k P Hv Hk) as (j & Hj & Ej & ->).
    assert (Hn := pr_nseg _ _ _ _ P).
    assert (Hc : snd (con_at (o_dim o) vs v k) = mkCon v k x) by (unfold con_at; rewrite Hx; reflexivity).
    rewrite Hc in Ej.
    assert (Hfix : In (mkCon v k x) (fixed_set h (o_dim o) vs (o_nseg o))).
    { apply fixed_set_spec; [exact Hn|]. exists v, k, x. repeat split; try assumption. lia. }
    destruct (In_nth _ _ (mkCon 0 0 []) Hfix) as (j' & Hj' & Ej').
    assert (j = j').
    { apply (cols_inj h (o_dim o) vs (o_nseg o) Hn j j' (mkCon 0 0 [])).
      - rewrite (cols_len vs o P). exact Hj.
      - unfold cols. rewrite app_length. lia.
      - rewrite Ej. unfold cols. rewrite app_nth1 by exact Hj'. rewrite Ej'. reflexivity. }
    subst j'. unfold vget.
    assert (Lf : length (nth d (o_fixed o) []) = length (fixed_set h (o_dim o) vs (o_nseg o))).
    { rewrite (pr_fixed _ _ _ _ P), nth_map_seq by exact Hd. rewrite map_length. reflexivity. }
    rewrite app_nth1 by lia. rewrite (pr_fixed _ _ _ _ P), nth_map_seq by exact Hd.
    rewrite (nth_map_lt _ _ _ (mkCon 0 0 [])) by exact Hj'. rewrite Ej'. reflexivity.
  Qed.

  Definition times_ok o : Prop := List.Forall (fun t => / 2 ^ 52 <= t) (o_times o).

  Lemma prepared_mats vs o i : prepared h inv vs o -> (i < o_nseg o)%nat ->
    exists Q A, cost_matrix h (o_deriv o) (nth i (o_times o) 0) = Ok Q /\
      mapping_matrix h (nth i (o_times o) 0) = Ok A /\
      0 < nth i (o_times o) 0 /\
      nth i (o_cost o) [] = Q /\ nth i (o_inv o) [] = invert_mapping h inv A.
  Proof.
    intros P Hi. destruct (pr_mats _ _ _ _ P) as (ms & Em & Ei & Ec).
    destruct (Forall2_nth_both _ _ _ 0 (([] : mat R), ([] : mat R)) (omap_Forall2 _ _ _ Em)) as (Lm & Hm).
    rewrite (pr_times _ _ _ _ P) in *. specialize (Hm i Hi). unfold mats_of in Hm.
    destruct (Rltb_spec (@n0 R R_ops) (nth i (o_times o) 0)) as [Hp|]; cbn [nltb R_ops] in Hm.
    2:{ destruct (Rltb _ _) eqn:E in Hm; [apply Rltb_true in E; lra|discriminate]. }
    destruct (Rltb _ _) eqn:E in Hm; [|discriminate]. cbn [negb] in Hm.
    destruct (cost_matrix h (o_deriv o) (nth i (o_times o) 0)) as [Q| | |]; cbn [obind] in Hm; try discriminate.
    destruct (mapping_matrix h (nth i (o_times o) 0)) as [A| | |]; cbn [obind] in Hm; try discriminate.
    apply Ok_inj in Hm. exists Q, A. split; [reflexivity|]. split; [reflexivity|].
    split; [exact Hp|].
    rewrite Ec, Ei. rewrite !(nth_map_lt _ _ _ (([] : mat R), ([] : mat R))) by lia. rewrite <- Hm. split; reflexivity.
  Qed.

  Lemma kTable : kMaxConvolutionSize = 22%nat.
  Proof. reflexivity. Qed.

  Lemma prepared_h vs o i : prepared h inv vs o -> (i < o_nseg o)%nat -> (0 < h <= 11)%nat.
  Proof.
    intros P Hi. destruct (prepared_mats vs o i P Hi) as (Q & A & EQ & _).
    unfold cost_matrix, opt_N in EQ. destruct (_ <=? _)%Z; [discriminate|].
    destruct (o_deriv o <? 0)%Z; cbn [orb] in EQ; [discriminate|].
    destruct (Nat.ltb_spec kMaxConvolutionSize (2 * h)) as [|L]; [discriminate|].
    rewrite kTable in L. assert (H := pr_deriv _ _ _ _ P). lia.
  Qed.

  (** Derivatives of a coefficient vector as a product with the mapping matrix. *)
  Lemma mapping_derivs t A c k : (0 < h <= 11)%nat -> mapping_matrix h t = Ok A -> length c = N -> (k < h)%nat ->
    / 2 ^ 52 <= t ->
    rsum N (fun j => mget A k j * nth j c 0) = dpoly c k 0 /\
    rsum N (fun j => mget A (h + k) j * nth j c 0) = dpoly c k t.
  Proof.
    intros Hh EA Lc Hk Ht. destruct (mapping_matrix_ok h t Hh) as (A' & EA' & _ & Htop & Hbot).
    rewrite EA in EA'. apply Ok_inj in EA'. subst A'. rewrite (eff_time_id t Ht) in Hbot.
    unfold dpoly. rewrite Lc. split; apply rsum_ext; intros j Hj.
    - rewrite Htop by assumption. ring.
    - rewrite Hbot by assumption. ring.
  Qed.

  Lemma inverse_cancel n A B (e : nat -> R) i : is_inverse n A B -> (i < n)%nat ->
    rsum n (fun j => mget A i j * rsum n (fun m => mget B j m * e m)) = e i.
  Proof.
    intros HI Hi. rewrite (rsum_assoc n n (mget A i) (mget B) e).
    rewrite (rsum_ext n _ (fun m => delta i m * e m)).
    - apply rsum_delta_l. exact Hi.
    - intros m Hm. f_equal. exact (proj1 (HI i m Hi Hm)).
  Qed.

  (** The computed segments have the node values as derivatives at their ends. *)
  Lemma chain_derivs vs o i d k : inverse_ok h inv -> prepared h inv vs o -> times_ok o ->
    (i < o_nseg o)%nat -> (d < o_dim o)%nat -> (k < h)%nat ->
    seg_fun (nth i (chain_of h o) no_seg) d k 0 = node vs o d i k /\
    seg_fun (nth i (chain_of h o) no_seg) d k (nth i (o_times o) 0) = node vs o d (S i) k.
  Proof.
    intros Hinv P Ht Hi Hd Hk. assert (Hh := prepared_h vs o i P Hi).
    destruct (prepared_mats vs o i P Hi) as (Q & A & EQ & EA & Hpos & _ & Ei).
    assert (Hti : / 2 ^ 52 <= nth i (o_times o) 0).
    { unfold times_ok in Ht. rewrite Forall_forall in Ht. apply Ht. apply nth_In. rewrite (pr_times _ _ _ _ P). exact Hi. }
    assert (HI := invert_mapping_inverse h inv _ A Hh Hinv Hti EA).
    assert (Ec : nth d (seg_polys (nth i (chain_of h o) no_seg)) [] = coeffs_of h o d i).
    { unfold chain_of. rewrite nth_map_seq by exact Hi. cbn [seg_polys Nat.add].
      rewrite nth_map_seq by exact Hd. reflexivity. }
    rewrite !seg_fun_dpoly, Ec.
    destruct (mapping_derivs _ A (coeffs_of h o d i) k Hh EA (coeffs_of_length h o d i) Hk Hti) as (D0 & D1).
    assert (Hc : forall j, (j < N)%nat -> nth j (coeffs_of h o d i) 0 =
                   rsum N (fun m => mget (invert_mapping h inv A) j m * vget (end_derivs h o d i) m)).
    { intros j Hj. unfold coeffs_of. rewrite Ei. apply (vget_mat_vec N N). exact Hj. }
    rewrite <- D0, <- D1. split.
    - rewrite (rsum_ext N _ (fun j => mget A k j * rsum N (fun m => mget (invert_mapping h inv A) j m * vget (end_derivs h o d i) m)))
        by (intros j Hj; rewrite Hc by exact Hj; reflexivity).
      rewrite inverse_cancel by (try exact HI; lia). rewrite (end_derivs_node vs) by (try assumption; lia).
      destruct (Nat.ltb_spec k h); [reflexivity|lia].
    - rewrite (rsum_ext N _ (fun j => mget A (h + k) j * rsum N (fun m => mget (invert_mapping h inv A) j m * vget (end_derivs h o d i) m)))
        by (intros j Hj; rewrite Hc by exact Hj; reflexivity).
      rewrite inverse_cancel by (try exact HI; lia). rewrite (end_derivs_node vs) by (try assumption; lia).
      destruct (Nat.ltb_spec (h + k) h); [lia|]. f_equal. lia.
  Qed.

  Lemma dvert_no : dvert = no_vertex.
  Proof. reflexivity. Qed.

  Lemma synced_chain vs o : prepared h inv vs o -> synced h o -> (0 < o_dim o)%nat -> o_segments o = chain_of h o.
  Proof. intros _ (_ & H) Hd. apply H. lia. Qed.

  Lemma chain_of_shape_R vs o : prepared h inv vs o ->
    chain_shape N (o_dim o) (o_times o) (chain_of h o).
  Proof.
    intros P. destruct (chain_of_shape h o) as (Hf & Hl). split; [rewrite Hl, (pr_times _ _ _ _ P); reflexivity|].
    intros i Hi. rewrite (pr_times _ _ _ _ P) in Hi. split.
    - unfold chain_of. rewrite nth_map_seq by exact Hi. reflexivity.
    - rewrite Forall_forall in Hf. apply Hf. apply nth_In. lia.
  Qed.

  (** C31, C32: the segments after setFreeConstraints or solveLinear. *)
  Lemma synced_constraints vs o : inverse_ok h inv -> prepared h inv vs o -> synced h o -> times_ok o ->
    meets_constraints h (o_dim o) vs (o_segments o).
  Proof.
    intros Hinv P Hs Ht i k x d Hi Hk Hd Hx. rewrite (synced_chain vs o P Hs) by lia.
    rewrite (proj2 (chain_of_shape h o)). assert (Hn := pr_nseg _ _ _ _ P). split; intros Hr.
    - rewrite (proj1 (chain_derivs vs o i d k Hinv P Ht Hr Hd Hk)). apply (node_fixed vs o); assumption.
    - assert (Hi' : (i - 1 < o_nseg o)%nat) by lia.
      assert (Es : seg_time (nth (i - 1) (chain_of h o) no_seg) = nth (i - 1) (o_times o) 0).
      { unfold chain_of. rewrite nth_map_seq by exact Hi'. reflexivity. }
      rewrite Es, (proj2 (chain_derivs vs o (i - 1) d k Hinv P Ht Hi' Hd Hk)).
      replace (S (i - 1)) with i by lia. apply (node_fixed vs o); assumption.
  Qed.
  Lemma synced_smooth vs o : inverse_ok h inv -> prepared h inv vs o -> synced h o -> times_ok o ->
    smooth_chain h (o_dim o) (o_segments o).
  Proof.
    intros Hinv P Hs Ht i k d Hi Hk Hd. rewrite (synced_chain vs o P Hs) in * by lia.
    rewrite (proj2 (chain_of_shape h o)) in Hi.
    assert (Es : seg_time (nth i (chain_of h o) no_seg) = nth i (o_times o) 0).
    { unfold chain_of. rewrite nth_map_seq by lia. reflexivity. }
    rewrite Es. rewrite (proj2 (chain_derivs vs o i d k Hinv P Ht ltac:(lia) Hd Hk)).
    symmetry. apply (chain_derivs vs o (S i) d k Hinv P Ht Hi Hd Hk).
  Qed.
End Linear2.
