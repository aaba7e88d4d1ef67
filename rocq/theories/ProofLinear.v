(** State of the linear optimiser: invariants and results of the calls, for
    every number type. *)
From Coq Require Import ZArith List Bool Lia Arith Sorted.
From Verif Require Import Num RSum ModelPolynomial ModelSegment ModelVertex ModelTrajectory ModelLinear
  SpecSegment SpecVertex SpecLinear ProofPolynomial ProofSegment ProofSegment2 ProofVertex ProofTrajectory3
  ProofHermite ProofReorder.
Import ListNotations.

Lemma ofold_inv {A} (f : A -> nat -> outcome A) (I : nat -> A -> Prop) n a0 :
  I 0 a0 -> (forall m a, m < n -> I m a -> exists a', f a m = Ok a' /\ I (S m) a') ->
  exists r, ofold f (seq 0 n) a0 = Ok r /\ I n r.
Proof.
  intros H0 Hs.
  assert (G : forall k m a, m + k = n -> I m a -> exists r, ofold f (seq m k) a = Ok r /\ I n r).
  { induction k as [|k IH]; intros m a Hm Ha; cbn [seq ofold].
    - exists a. replace n with m by lia. auto.
    - destruct (Hs m a) as (a' & E & Ha'); [lia|exact Ha|]. rewrite E. cbn [obind].
      apply IH; [lia|exact Ha']. }
  apply (G n 0); [lia|exact H0].
Qed.

Lemma ofold_Ok_each {A S} (f : S -> A -> outcome S) l : forall s r, ofold f l s = Ok r ->
  forall x, In x l -> exists s' r', f s' x = Ok r'.
Proof.
  induction l as [|y l IH]; intros s r H x Hx; [destruct Hx|]. cbn [ofold] in H.
  destruct (f s y) as [s'| | |] eqn:E; cbn [obind] in H; try discriminate.
  destruct Hx as [->|Hx]; [eauto|]. eapply IH; eassumption.
Qed.

Lemma omap_Forall2 {A B} (f : A -> outcome B) l : forall r, omap f l = Ok r -> Forall2 (fun x y => f x = Ok y) l r.
Proof.
  induction l as [|x l IH]; intros r H; cbn [omap] in H.
  - apply Ok_inj in H. subst. constructor.
  - destruct (f x) as [y| | |] eqn:E; cbn [obind] in H; try discriminate.
    destruct (omap f l) as [ys| | |]; cbn [obind] in H; try discriminate.
    apply Ok_inj in H. subst. constructor; [exact E|]. apply IH. reflexivity.
Qed.

Section Linear.
  Context {T : Type} {ops : NumOps T} (h : nat) (inv : mat T -> mat T) (solve : mat T -> list T -> list T).
  Notation N := (2 * h).
  Implicit Types o : opt T.

  Definition with_segments o segs : opt T :=
    mkOpt (o_dim o) (o_deriv o) (o_vertices o) segs (o_times o)
          (o_inv o) (o_cost o) (o_reorder o) (o_fixed o) (o_free o)
          (o_nvert o) (o_nseg o) (o_nall o) (o_nfixed o) (o_nfree o).
  Definition with_free o free : opt T :=
    mkOpt (o_dim o) (o_deriv o) (o_vertices o) (o_segments o) (o_times o)
          (o_inv o) (o_cost o) (o_reorder o) (o_fixed o) free
          (o_nvert o) (o_nseg o) (o_nall o) (o_nfixed o) (o_nfree o).

  (** Shape of the segments of any object. *)
  Definition seg_shape (dim : nat) (s : segment T) : Prop := seg_N s = N /\ seg_D s = dim /\ seg_wf s.
  Definition shaped o : Prop :=
    length (o_segments o) = o_nseg o /\ List.Forall (seg_shape (o_dim o)) (o_segments o) /\
    length (o_free o) = o_dim o.

  (** Data derivatives at the ends of segment i in dimension d. *)
  Definition end_derivs o (d i : nat) : list T :=
    mk_vec N (fun r => nsum (o_nfixed o + o_nfree o)
      (fun k => nmul (mget (o_reorder o) (i * N + r) k) (vget (nth d (o_fixed o) [] ++ nth d (o_free o) []) k))).
  Definition coeffs_of o (d i : nat) : list T := mat_vec N N (nth i (o_inv o) []) (end_derivs o d i).
  Definition chain_of o : list (segment T) :=
    map (fun i => mkSegment N (map (fun d => coeffs_of o d i) (seq 0 (o_dim o))) (nth i (o_times o) n0))
        (seq 0 (o_nseg o)).

  Definition sized o : Prop :=
    length (o_inv o) = o_nseg o /\ length (o_times o) = o_nseg o /\ o_nseg o * N <= o_nall o /\
    length (o_fixed o) = o_dim o /\
    forall d, d < o_dim o -> length (nth d (o_fixed o) []) = o_nfixed o.
  Definition free_sized o : Prop :=
    forall d, d < o_dim o -> length (nth d (o_free o) []) = o_nfree o.

  Lemma coeffs_of_length o d i : length (coeffs_of o d i) = N.
  Proof. unfold coeffs_of, mat_vec. apply mk_vec_length. Qed.

  (** One dimension of updateSegmentsFromCompactConstraints. *)
  Lemma update_dim o d segs : sized o -> d < o_dim o -> length segs = o_nseg o ->
    (forall i, i < o_nseg o -> seg_D (nth i segs (seg_new N 0)) = o_dim o) ->
    exists r, ofold (fun segs i =>
                   if Nat.ltb (o_nall o) (i * opt_N h + opt_N h) then UB
                   else
                     Ai <-- oget (o_inv o) i ;;
                     t <-- oget (o_times o) i ;;
                     write_segment segs i d t (mat_vec (opt_N h) (opt_N h) Ai (end_derivs o d i)))
                (seq 0 (o_nseg o)) segs = Ok r /\
      length r = o_nseg o /\
      forall i, i < o_nseg o ->
        nth i r (seg_new N 0) =
        mkSegment (seg_N (nth i segs (seg_new N 0))) (list_set (seg_polys (nth i segs (seg_new N 0))) d (coeffs_of o d i))
          (nth i (o_times o) n0).
  Proof.
    intros (L1 & L2 & L3 & L4 & L5) Hd Hl HD.
    destruct (ofold_inv (fun segs i =>
                   if Nat.ltb (o_nall o) (i * opt_N h + opt_N h) then UB
                   else
                     Ai <-- oget (o_inv o) i ;;
                     t <-- oget (o_times o) i ;;
                     write_segment segs i d t (mat_vec (opt_N h) (opt_N h) Ai (end_derivs o d i)))
      (fun m r => length r = o_nseg o /\ forall i, i < o_nseg o ->
         nth i r (seg_new N 0) = if Nat.ltb i m then
            mkSegment (seg_N (nth i segs (seg_new N 0))) (list_set (seg_polys (nth i segs (seg_new N 0))) d (coeffs_of o d i))
            (nth i (o_times o) n0) else nth i segs (seg_new N 0)) (o_nseg o) segs) as (r & E & Lr & Hr).
    - split; [exact Hl|]. intros i Hi. reflexivity.
    - intros m a Hm (La & Ha). cbn beta. unfold opt_N.
      destruct (Nat.ltb_spec (o_nall o) (m * N + N)) as [Hlt|_]; [exfalso; nia|].
      rewrite (oget_nth _ _ ([] : mat T)) by lia. rewrite (oget_nth _ _ n0) by lia. cbn [obind].
      unfold write_segment. rewrite (oget_nth _ _ (seg_new N 0)) by lia. cbn [obind].
      assert (Em : nth m a (seg_new N 0) = nth m segs (seg_new N 0)).
      { rewrite Ha by exact Hm. destruct (Nat.ltb_spec m m); [lia|reflexivity]. }
      rewrite Em, HD by exact Hm. destruct (Nat.ltb_spec d (o_dim o)); [|lia].
      eexists. split; [reflexivity|]. rewrite list_set_length. split; [exact La|].
      intros i Hi. rewrite list_set_nth by lia. rewrite Ha by exact Hi.
      destruct (Nat.eqb_spec i m) as [->|Hne].
      + destruct (Nat.ltb_spec m (S m)); [|lia]. reflexivity.
      + destruct (Nat.ltb_spec i m); destruct (Nat.ltb_spec i (S m)); try lia; reflexivity.
    - exists r. split; [exact E|]. split; [exact Lr|]. intros i Hi. rewrite Hr by exact Hi.
      destruct (Nat.ltb_spec i (o_nseg o)); [reflexivity|lia].
  Qed.

  Lemma list_set_firstn {A} (l : list A) m x : m < length l ->
    list_set l m x = firstn m l ++ x :: skipn (S m) l.
  Proof.
    revert m. induction l as [|y l IH]; intros m H; [cbn in H; lia|].
    destruct m as [|m]; [reflexivity|]. cbn [list_set firstn skipn app]. rewrite IH by (cbn in H; lia). reflexivity.
  Qed.

  Lemma skipn_1_skipn {A} (l : list A) : forall m, skipn 1 (skipn m l) = skipn (S m) l.
  Proof. induction l as [|x l IH]; intros [|m]; try reflexivity. exact (IH m). Qed.

  (** updateSegmentsFromCompactConstraints succeeds and rewrites every segment. *)
  Lemma updateSegments_ok o : shaped o -> sized o -> free_sized o ->
    opt_updateSegments h o = Ok (with_segments o (if Nat.eqb (o_dim o) 0 then o_segments o else chain_of o)).
  Proof.
    intros (S1 & S2 & S3) Hs Hf. assert (Hs' := Hs). destruct Hs' as (L1 & L2 & L3 & L4 & L5).
    unfold opt_updateSegments.
    set (F := fun segs d => _).
    assert (Hnth : forall i, i < o_nseg o -> seg_shape (o_dim o) (nth i (o_segments o) (seg_new N 0))).
    { intros i Hi. rewrite Forall_forall in S2. apply S2. apply nth_In. lia. }
    destruct (ofold_inv F
      (fun m r => length r = o_nseg o /\ forall i, i < o_nseg o ->
         nth i r (seg_new N 0) =
         mkSegment N (map (fun d => coeffs_of o d i) (seq 0 m) ++ skipn m (seg_polys (nth i (o_segments o) (seg_new N 0))))
           (if Nat.eqb m 0 then seg_time (nth i (o_segments o) (seg_new N 0)) else nth i (o_times o) n0))
      (o_dim o) (o_segments o)) as (r & E & Lr & Hr).
    - split; [exact S1|]. intros i Hi. destruct (Hnth i Hi) as (E1 & _).
      cbn [seq map app Nat.eqb]. rewrite skipn_O. destruct (nth i (o_segments o) (seg_new N 0)). cbn in *. subst. reflexivity.
    - intros m a Hm (La & Ha). unfold F. cbn beta.
      rewrite (oget_nth _ _ []) by lia. cbn [obind]. rewrite (oget_nth _ _ []) by lia. cbn [obind].
      rewrite L5, Hf by exact Hm. rewrite Nat.eqb_refl. cbn [negb].
      destruct (update_dim o m a Hs Hm La) as (r & Er & Lr & Hr).
      { intros i Hi. rewrite Ha by exact Hi. unfold seg_D. cbn [seg_polys].
        rewrite app_length, map_length, seq_length, skipn_length. destruct (Hnth i Hi) as (_ & E2 & _).
        unfold seg_D in E2. lia. }
      exists r. split; [exact Er|]. split; [exact Lr|]. intros i Hi. rewrite Hr, Ha by exact Hi.
      cbn [seg_N seg_polys Nat.eqb]. f_equal. destruct (Hnth i Hi) as (_ & E2 & _). unfold seg_D in E2.
      rewrite list_set_firstn by (rewrite app_length, map_length, seq_length, skipn_length; lia).
      assert (Lm : length (map (fun d => coeffs_of o d i) (seq 0 m)) = m) by (rewrite map_length, seq_length; reflexivity).
      rewrite firstn_app, Lm, Nat.sub_diag, firstn_O, app_nil_r, firstn_all2 by lia.
      rewrite seq_S, map_app. cbn [map Nat.add]. rewrite <- app_assoc. cbn [app]. f_equal. f_equal.
      rewrite skipn_app, Lm. rewrite skipn_all2 by lia. cbn [app].
      replace (S m - m) with 1 by lia. apply skipn_1_skipn.
    - rewrite E. cbn [obind]. unfold with_segments. f_equal. f_equal.
      destruct (Nat.eqb_spec (o_dim o) 0) as [Hd|Hd].
      + apply (nth_ext _ _ (seg_new N 0) (seg_new N 0)); [lia|]. intros i Hi. rewrite Hr by lia.
        rewrite Hd. cbn [seq map app Nat.eqb]. rewrite skipn_O. destruct (Hnth i ltac:(lia)) as (E1 & _).
        destruct (nth i (o_segments o) (seg_new N 0)). cbn in *. subst. reflexivity.
      + unfold chain_of. apply (nth_ext _ _ (seg_new N 0) (seg_new N 0)).
        { rewrite map_length, seq_length. exact Lr. }
        intros i Hi. rewrite Hr by lia. rewrite nth_map_seq by lia. cbn [Nat.add].
        destruct (Nat.eqb_spec (o_dim o) 0); [lia|]. f_equal.
        destruct (Hnth i ltac:(lia)) as (_ & E2 & _). unfold seg_D in E2.
        rewrite skipn_all2 by lia. apply app_nil_r.
  Qed.

  (** A successful update implies that the sizes fit. *)
  Lemma updateSegments_inv o o' : sized o -> opt_updateSegments h o = Ok o' ->
    exists segs, o' = with_segments o segs /\
    forall d, d < o_dim o -> d < length (o_free o) /\ length (nth d (o_free o) []) = o_nfree o.
  Proof.
    intros (L1 & L2 & L3 & L4 & L5) H. unfold opt_updateSegments in H.
    destruct (ofold _ _ _) as [segs| | |] eqn:E; cbn [obind] in H; try discriminate.
    apply Ok_inj in H. exists segs. split; [symmetry; exact H|].
    intros d Hd. destruct (ofold_Ok_each _ _ _ _ E d) as (s' & r' & Er); [apply in_seq; lia|].
    rewrite (oget_nth _ _ []) in Er by lia. cbn [obind] in Er.
    destruct (Nat.lt_ge_cases d (length (o_free o))) as [Hl|Hl].
    2:{ rewrite oget_UB in Er by exact Hl. discriminate. }
    rewrite (oget_nth _ _ []) in Er by lia. cbn [obind] in Er.
    destruct (Nat.eqb_spec (length (nth d (o_fixed o) []) + length (nth d (o_free o) [])) (o_nfixed o + o_nfree o)) as [E2|E2];
      cbn [negb] in Er; [|discriminate].
    rewrite L5 in E2 by exact Hd. split; [exact Hl|]. lia.
  Qed.

  (** The state between a setup for the vertices vs and the next setup. *)
  Definition mats_of (r : Z) (t : T) : outcome (mat T * mat T) :=
    if negb (nltb n0 t) then Abort
    else Q <-- cost_matrix h r t ;; A <-- mapping_matrix h t ;; Ok (Q, invert_mapping h inv A).

  Record prepared (vs : list (vertex T)) o : Prop := {
    pr_deriv : (0 <= o_deriv o <= Z.of_nat h - 1)%Z;
    pr_nseg : o_nseg o + 1 = length vs;
    pr_nvert : o_nvert o = length vs;
    pr_verts : length (o_vertices o) = length vs;
    pr_get : forall i k, k < h ->
      vertex_get (nth i (o_vertices o) dvert) (Z.of_nat k) = vertex_get (nth i vs dvert) (Z.of_nat k);
    pr_value : forall i k x, k < h -> vertex_get (nth i vs dvert) (Z.of_nat k) = Some x -> length x = o_dim o;
    pr_times : length (o_times o) = o_nseg o;
    pr_mats : exists ms, omap (mats_of (o_deriv o)) (o_times o) = Ok ms /\
                o_inv o = map snd ms /\ o_cost o = map fst ms;
    pr_nall : o_nall o = length (all_constraints h (o_dim o) (o_nseg o) 0 vs);
    pr_nfixed : o_nfixed o = length (fixed_set h (o_dim o) vs (o_nseg o));
    pr_nfree : o_nfree o = length (free_set h (o_dim o) vs (o_nseg o));
    pr_reorder : o_reorder o =
      map (fun ca => map (fun c => if con_eqb (snd ca) c then n1 else n0) (cols h (o_dim o) vs (o_nseg o)))
          (all_constraints h (o_dim o) (o_nseg o) 0 vs);
    pr_fixed : o_fixed o =
      map (fun d => map (fun c => nth d (con_value c) n0) (fixed_set h (o_dim o) vs (o_nseg o))) (seq 0 (o_dim o));
    pr_shape : length (o_segments o) = o_nseg o /\ List.Forall (seg_shape (o_dim o)) (o_segments o);
    pr_freelen : length (o_free o) = o_dim o
  }.

  Lemma prepared_shaped vs o : prepared vs o -> shaped o.
  Proof. intros P. destruct (pr_shape _ _ P). split; [assumption|]. split; [assumption|]. apply (pr_freelen _ _ P). Qed.

  Lemma prepared_sized vs o : prepared vs o -> sized o.
  Proof.
    intros P. destruct (pr_mats _ _ P) as (ms & Em & Ei & Ec). unfold sized.
    rewrite Ei, map_length, (omap_length _ _ _ Em), (pr_times _ _ P).
    split; [reflexivity|]. split; [reflexivity|]. split.
    { rewrite (pr_nall _ _ P). destruct (Nat.eq_dec (o_nseg o) 0) as [->|Hn]; [cbn; lia|].
      rewrite all_length by (try apply (pr_nseg _ _ P); lia). lia. }
    rewrite (pr_fixed _ _ P). rewrite map_length, seq_length. split; [reflexivity|].
    intros d Hd. rewrite nth_map_seq by exact Hd. rewrite map_length, (pr_nfixed _ _ P). reflexivity.
  Qed.

  Lemma chain_of_shape o : List.Forall (seg_shape (o_dim o)) (chain_of o) /\ length (chain_of o) = o_nseg o.
  Proof.
    unfold chain_of. split; [|rewrite map_length, seq_length; reflexivity].
    apply List.Forall_forall. intros s Hs. apply in_map_iff in Hs. destruct Hs as (i & <- & _).
    split; [reflexivity|]. split; [unfold seg_D; cbn [seg_polys]; rewrite map_length, seq_length; reflexivity|].
    unfold seg_wf. cbn [seg_polys seg_N]. apply List.Forall_forall. intros p Hp. apply in_map_iff in Hp.
    destruct Hp as (d & <- & _). apply coeffs_of_length.
  Qed.

  Lemma with_segments_prepared vs o segs : prepared vs o -> length segs = o_nseg o ->
    List.Forall (seg_shape (o_dim o)) segs -> prepared vs (with_segments o segs).
  Proof. intros [] H1 H2. constructor; try assumption. split; assumption. Qed.
  Lemma with_free_prepared vs o free : prepared vs o -> length free = o_dim o -> prepared vs (with_free o free).
  Proof. intros [] H. constructor; assumption. Qed.

  (** Segments computed from the current fixed and free values. *)
  Definition synced o : Prop := free_sized o /\ (o_dim o <> 0 -> o_segments o = chain_of o).

  Lemma update_prepared vs o o' : prepared vs o -> opt_updateSegments h o = Ok o' ->
    prepared vs o' /\ synced o' /\ o' = with_segments o (o_segments o').
  Proof.
    intros P H. assert (Hs := prepared_sized _ _ P).
    destruct (updateSegments_inv o o' Hs H) as (segs & _ & Hf).
    rewrite (updateSegments_ok o (prepared_shaped _ _ P) Hs) in H.
    2:{ intros d Hd. apply Hf. exact Hd. }
    apply Ok_inj in H. subst o'. split; [|split].
    - destruct (Nat.eqb_spec (o_dim o) 0).
      + destruct (pr_shape _ _ P). apply with_segments_prepared; assumption.
      + destruct (chain_of_shape o). apply with_segments_prepared; assumption.
    - split; [intros d Hd; apply Hf; exact Hd|]. cbn [with_segments o_dim o_segments]. intros Hd.
      destruct (Nat.eqb_spec (o_dim o) 0); [lia|]. reflexivity.
    - reflexivity.
  Qed.

  Lemma solve_prepared vs o o' : prepared vs o -> opt_solveLinear h solve o = Ok o' ->
    prepared vs o' /\ synced o' /\ o_times o' = o_times o.
  Proof.
    intros P H. unfold opt_solveLinear in H. destruct (_ || _); [discriminate|].
    destruct (Nat.eqb (o_nfree o) 0).
    - destruct (update_prepared vs o o' P H) as (P' & S' & E). split; [exact P'|]. split; [exact S'|].
      rewrite E. reflexivity.
    - destruct (opt_constructR h o) as [Rm| | |]; cbn [obind] in H; try discriminate.
      destruct (omap _ _) as [dps| | |] eqn:Ed; cbn [obind] in H; try discriminate.
      apply omap_length in Ed. rewrite seq_length in Ed.
      destruct (update_prepared vs (with_free o dps) o') as (P' & S' & E); [|exact H|].
      + apply with_free_prepared; assumption.
      + split; [exact P'|]. split; [exact S'|]. rewrite E. reflexivity.
  Qed.
  Lemma setFree_prepared vs o free o' : prepared vs o -> opt_setFreeConstraints h o free = Ok o' ->
    prepared vs o' /\ synced o' /\ o_times o' = o_times o /\ o_free o' = free.
  Proof.
    intros P H. unfold opt_setFreeConstraints in H.
    destruct (Nat.eqb_spec (length free) (o_dim o)) as [El|]; cbn [negb] in H; [|discriminate].
    destruct (negb (forallb _ free)); [discriminate|].
    destruct (update_prepared vs (with_free o free) o') as (P' & S' & E); [|exact H|].
    - apply with_free_prepared; assumption.
    - split; [exact P'|]. split; [exact S'|]. rewrite E. split; reflexivity.
  Qed.
  Lemma times_prepared vs o times o' : prepared vs o -> opt_updateSegmentTimes h inv o times = Ok o' ->
    prepared vs o' /\ o_times o' = times /\ o_dim o' = o_dim o /\ o_free o' = o_free o /\ o_deriv o' = o_deriv o.
  Proof.
    intros P H. unfold opt_updateSegmentTimes in H.
    destruct (Nat.eqb_spec (length times) (o_nseg o)) as [El|]; cbn [negb] in H; [|discriminate].
    destruct (omap _ times) as [ms| | |] eqn:Em; cbn [obind] in H; try discriminate.
    apply Ok_inj in H. subst o'. split; [|auto].
    destruct P. constructor; try assumption. exists ms. split; [exact Em|]. split; reflexivity.
  Qed.

  (** setupFromVertices. *)
  Lemma filter_vertex_spec dim (v w : vertex T) : vertex_wf v -> filter_vertex h dim v = Ok w ->
    (forall k, k < h -> vertex_get w (Z.of_nat k) = vertex_get v (Z.of_nat k)) /\
    (forall k x, k < h -> vertex_get v (Z.of_nat k) = Some x -> length x = dim).
  Proof.
    intros (Hs & _) H. unfold filter_vertex in H.
    set (F := fun (st : bool * vertex T) c => _) in H.
    assert (G : forall m st r, msorted m -> ofold F m st = Ok r ->
       v_D (snd st) = dim ->
       v_D (snd r) = dim /\
       (forall k (x : list T), k < h -> map_find m (Z.of_nat k) = Some x -> length x = dim) /\
       (forall k, k < h -> map_find (v_con (snd r)) (Z.of_nat k) =
          match map_find m (Z.of_nat k) with Some x => Some x | None => map_find (v_con (snd st)) (Z.of_nat k) end)).
    { induction m as [|[k0 x0] m IH]; intros st r Hm E HD.
      - cbn [ofold] in E. apply Ok_inj in E. subst r. cbn [map_find]. split; [exact HD|]. split; [discriminate|reflexivity].
      - inversion Hm as [|? ? Hm' Hf]; subst. cbn [ofold] in E.
        destruct (F st (k0, x0)) as [st'| | |] eqn:EF; cbn [obind] in E; try discriminate.
        unfold F in EF. cbn [fst snd] in EF. unfold kHighestDerivative in EF.
        destruct (Z.ltb_spec (Z.of_nat h - 1) k0) as [Hk|Hk].
        + apply Ok_inj in EF. subst st'.
          destruct (IH (false, snd st) r Hm' E eq_refl) as (I1 & I2 & I3). split; [exact I1|].
          assert (Hn : forall k, k < h -> (Z.of_nat k =? k0)%Z = false) by (intros; apply Z.eqb_neq; lia).
          cbn [map_find]. split.
          * intros k x Hk'. rewrite Hn by exact Hk'. apply I2. exact Hk'.
          * intros k Hk'. rewrite Hn by exact Hk'. apply I3. exact Hk'.
        + unfold vertex_add in EF.
          destruct (Nat.eqb_spec (length x0) (v_D (snd st))) as [El|]; cbn [obind] in EF; [|discriminate].
          apply Ok_inj in EF. subst st'. cbn [fst snd] in E.
          destruct (IH _ r Hm' E) as (I1 & I2 & I3); [reflexivity|]. split; [exact I1|].
          cbn [map_find v_con snd] in *. split.
          * intros k x Hk'. destruct (Z.eqb_spec (Z.of_nat k) k0) as [E0|].
            -- intros Ex. apply Some_inj in Ex. subst x. exact El.
            -- apply I2. exact Hk'.
          * intros k Hk'. rewrite I3 by exact Hk'. rewrite map_find_set.
            destruct (Z.eqb_spec (Z.of_nat k) k0) as [E0|E0].
            -- destruct (Z.eq_dec (Z.of_nat k) k0); [|lia].
               assert (Hno : map_find m (Z.of_nat k) = None); [|rewrite Hno; reflexivity].
               apply map_find_None. rewrite E0. intros Hin. rewrite Forall_forall in Hf. specialize (Hf k0 Hin).
               cbn in Hf. lia.
            -- destruct (Z.eq_dec (Z.of_nat k) k0); [lia|]. reflexivity. }
    destruct (ofold F (v_con v) (true, vertex_new dim)) as [r| | |] eqn:E; cbn [obind] in H; try discriminate.
    apply Ok_inj in H. destruct (G _ _ _ Hs E eq_refl) as (_ & G2 & G3). split; [|exact G2].
    intros k Hk. subst w. destruct (fst r); [reflexivity|]. unfold vertex_get. rewrite (G3 k Hk).
    cbn [snd vertex_new v_con map_find]. destruct (map_find (v_con v) (Z.of_nat k)); reflexivity.
  Qed.

  Lemma con_at_ext dim (vs ws : list (vertex T)) i k :
    vertex_get (nth i vs dvert) (Z.of_nat k) = vertex_get (nth i ws dvert) (Z.of_nat k) ->
    con_at dim vs i k = con_at dim ws i k.
  Proof. intros H. unfold con_at. rewrite H. reflexivity. Qed.
  Lemma all_constraints_ext dim nseg (vs ws : list (vertex T)) : nseg + 1 = length vs -> length ws = length vs ->
    (forall i k, k < h -> vertex_get (nth i ws dvert) (Z.of_nat k) = vertex_get (nth i vs dvert) (Z.of_nat k)) ->
    all_constraints h dim nseg 0 ws = all_constraints h dim nseg 0 vs.
  Proof.
    intros Hn Hl He. rewrite !all_eq by lia. rewrite Hl. f_equal. apply map_ext. intros i.
    assert (Eb : block h dim ws i = block h dim vs i).
    { unfold block. apply map_ext_in. intros k Hk. apply in_seq in Hk. apply con_at_ext. apply He. lia. }
    rewrite Eb. reflexivity.
  Qed.

  Lemma vec_resize_length {A} (l : list A) n x : length (vec_resize l n x) = n.
  Proof. unfold vec_resize. rewrite app_length, firstn_length, repeat_length. lia. Qed.
  Lemma vec_resize_Forall {A} (P : A -> Prop) l n x : List.Forall P l -> P x -> List.Forall P (vec_resize l n x).
  Proof.
    intros Hl Hx. unfold vec_resize. apply List.Forall_app. split.
    - rewrite Forall_forall in *. intros y Hy. apply Hl. rewrite <- (firstn_skipn n l). apply in_app_iff. auto.
    - apply Forall_forall. intros y Hy. apply repeat_spec in Hy. subst. exact Hx.
  Qed.
  Lemma seg_new_shape dim : seg_shape dim (seg_new N dim).
  Proof.
    split; [reflexivity|]. split; [unfold seg_D; apply repeat_length|].
    unfold seg_wf. cbn [seg_new seg_polys seg_N]. apply Forall_forall. intros p Hp.
    apply repeat_spec in Hp. subst. apply repeat_length.
  Qed.

  Lemma setup_prepared vs o times r o' : List.Forall vertex_wf vs -> shaped o ->
    opt_setupFromVertices h inv o vs times r = Ok o' ->
    prepared vs o' /\ o_times o' = times /\ o_dim o' = o_dim o /\ o_free o' = o_free o /\ o_deriv o' = r.
  Proof.
    intros Hwf Hsh H. unfold opt_setupFromVertices in H.
    destruct (_ || _) eqn:Er; [discriminate|]. apply orb_false_iff in Er. destruct Er as (Er1 & Er2).
    apply Z.ltb_ge in Er1. apply Z.ltb_ge in Er2. unfold kHighestDerivative in Er2.
    destruct vs as [|v0 rest] eqn:Evs; [discriminate|]. rewrite <- Evs in *.
    destruct (Nat.eqb_spec (length vs) (length times + 1)) as [El|]; cbn [negb] in H; [|discriminate].
    destruct (omap (filter_vertex h (o_dim o)) vs) as [ws| | |] eqn:Ew; cbn [obind] in H; try discriminate.
    assert (Hlr : length rest = length times) by (rewrite Evs in El; cbn in El; lia).
    assert (Hw : forall i, i < length vs ->
       (forall k, k < h -> vertex_get (nth i ws dvert) (Z.of_nat k) = vertex_get (nth i vs dvert) (Z.of_nat k)) /\
       (forall k x, k < h -> vertex_get (nth i vs dvert) (Z.of_nat k) = Some x -> length x = o_dim o)).
    { intros i Hi. destruct (Forall2_nth_both _ _ _ dvert dvert (omap_Forall2 _ _ _ Ew)) as (_ & Hf).
      apply filter_vertex_spec; [|apply Hf; exact Hi]. rewrite Forall_forall in Hwf. apply Hwf. apply nth_In. exact Hi. }
    assert (Lw := omap_length _ _ _ Ew).
    unfold opt_updateSegmentTimes in H. cbn [o_nseg o_deriv] in H.
    destruct (Nat.eqb_spec (length times) (length rest)) as [_|]; cbn [negb] in H; [|lia].
    destruct (omap _ times) as [ms| | |] eqn:Em; cbn [obind] in H; try discriminate.
    unfold opt_setupReordering in H. cbn [o_dim o_nseg o_vertices o_times o_inv o_cost o_free o_segments o_deriv o_nvert] in H.
    assert (Hget : forall i k, k < h -> vertex_get (nth i ws dvert) (Z.of_nat k) = vertex_get (nth i vs dvert) (Z.of_nat k)).
    { intros i k Hk. destruct (Nat.lt_ge_cases i (length vs)) as [Hi|Hi]; [apply Hw; assumption|].
      rewrite !nth_overflow by lia. reflexivity. }
    assert (Hn : length rest + 1 = length vs) by lia.
    rewrite (all_constraints_ext (o_dim o) (length rest) vs ws Hn Lw Hget) in H.
    fold (fixed_set h (o_dim o) vs (length rest)) in H. fold (free_set h (o_dim o) vs (length rest)) in H.
    fold (cols h (o_dim o) vs (length rest)) in H.
    assert (Hval : forall i k x, k < h -> vertex_get (nth i vs dvert) (Z.of_nat k) = Some x -> length x = o_dim o).
    { intros i k x Hk Hx. destruct (Nat.lt_ge_cases i (length vs)) as [Hi|Hi]; [eapply Hw; eassumption|].
      rewrite nth_overflow in Hx by lia. discriminate. }
    rewrite (omap_ok _ (fun d => map (fun c => nth d (con_value c) n0) (fixed_set h (o_dim o) vs (length rest)))) in H.
    2:{ intros d Hd. apply in_seq in Hd. apply omap_ok. intros c Hc.
        apply (proj2 (fixed_set_spec h (o_dim o) vs (length rest) Hn)) in Hc.
        destruct Hc as (i & k & x & _ & Hk & Hx & ->). cbn [con_value]. apply oget_nth.
        rewrite (Hval i k x Hk Hx). lia. }
    cbn [obind] in H. apply Ok_inj in H. subst o'.
    split; [|cbn [o_times o_dim o_free o_deriv]; auto].
    destruct Hsh as (Sh1 & Sh2 & Sh3).
    constructor; cbn [o_dim o_nseg o_vertices o_times o_inv o_cost o_free o_segments o_deriv o_nvert o_nall o_nfixed o_nfree
                      o_reorder o_fixed]; try reflexivity; try assumption; try lia.
    - exists ms. split; [exact Em|]. split; reflexivity.
    - split; [apply vec_resize_length|]. apply vec_resize_Forall; [exact Sh2|apply seg_new_shape].
  Qed.

  (** Every object obtained from the constructor by calls is shaped. *)
  Lemma new_shaped dim : shaped (opt_new dim).
  Proof. split; [reflexivity|]. split; [constructor|]. cbn [opt_new o_free o_dim]. apply repeat_length. Qed.
End Linear.
