(** Property C72: the matrices that the linear optimiser hands out. *)
From Coq Require Import ZArith Reals List Bool Lia Lra Arith.
From Coquelicot Require Import Coquelicot.
From Verif Require Import Num RSum SpecPoly ModelPolynomial ModelSegment ModelVertex ModelTrajectory ModelLinear
  SpecSegment SpecVertex SpecLinear ProofPolynomial ProofPolynomial2 ProofSegment ProofSegment2 ProofVertex ProofTrajectory3
  ProofRoots ProofMatrix ProofHermite ProofReorder ProofLinear ProofLinear2 ProofLinear3 ProofLinear4 ProofLinear5
  ProofLinear6 ProofLinear7 PropLinear PropLinear2.
Import ListNotations.
Open Scope R_scope.

(** Sum over one block. *)
Lemma rsum_block n m i f : (i < n)%nat -> (0 < m)%nat ->
  rsum (m * n) (fun k => if Nat.eqb i (k / m) then f k else 0) = rsum m (fun p => f (i * m + p)%nat).
Proof.
  intros Hi Hm. induction n as [| n IH]; [lia |]. replace (m * S n)%nat with (m * n + m)%nat by lia. rewrite rsum_split.
  assert (LAST : forall q, (q < m)%nat -> ((m * n + q) / m = n)%nat) by (intros q Hq; symmetry; apply (Nat.div_unique _ m n q); lia).
  destruct (Nat.eq_dec i n) as [-> | N].
  - rewrite rsum_zero.
    + rewrite Rplus_0_l. apply rsum_ext. intros p Hp. rewrite LAST, Nat.eqb_refl by exact Hp. f_equal. lia.
    + intros k Hk. destruct (Nat.eqb_spec n (k / m)) as [E |]; [| reflexivity]. exfalso.
      assert (k / m < n)%nat by (apply Nat.div_lt_upper_bound; lia). lia.
  - rewrite IH by lia. rewrite (rsum_zero m (fun k => if Nat.eqb i ((m * n + k) / m) then _ else _)); [apply Rplus_0_r |]. intros p Hp. rewrite LAST by exact Hp.
    destruct (Nat.eqb_spec i n); [contradiction | reflexivity].
Qed.

Lemma block_entry (h n : nat) (Bs : list (mat R)) r c : (r < 2 * h * n)%nat -> (c < 2 * h * n)%nat ->
  nth c (nth r (block_diagonal h n Bs) []) 0 =
  if Nat.eqb (r / (2 * h)) (c / (2 * h)) then mget (nth (r / (2 * h)) Bs []) (r mod (2 * h)) (c mod (2 * h)) else 0.
Proof. intros Hr Hc. change (nth c (nth r (block_diagonal h n Bs) []) 0) with (mget (block_diagonal h n Bs) r c). unfold block_diagonal, opt_N. rewrite mget_mk by assumption. reflexivity. Qed.

(** Block diagonal matrices multiply block by block. *)
Lemma block_prod h n As Bs i j : (0 < h)%nat -> (i < 2 * h * n)%nat -> (j < 2 * h * n)%nat ->
  prod_entry (2 * h * n) (block_diagonal h n As) (block_diagonal h n Bs) i j =
  if Nat.eqb (i / (2 * h)) (j / (2 * h))
  then prod_entry (2 * h) (nth (i / (2 * h)) As []) (nth (i / (2 * h)) Bs []) (i mod (2 * h)) (j mod (2 * h)) else 0.
Proof.
  intros Hh Hi Hj. set (m := (2 * h)%nat) in *. assert (Hm : (0 < m)%nat) by (unfold m; lia).
  assert (Bi : (i / m < n)%nat) by (apply Nat.div_lt_upper_bound; lia).
  unfold prod_entry at 1.
  rewrite (rsum_ext _ _ (fun k => if Nat.eqb (i / m) (k / m) then mget (nth (i / m) As []) (i mod m) (k mod m) *
     (if Nat.eqb (k / m) (j / m) then mget (nth (k / m) Bs []) (k mod m) (j mod m) else 0) else 0)).
  2: { intros k Hk. unfold m. rewrite !block_entry by assumption. fold m. destruct (Nat.eqb (i / m) (k / m)); [reflexivity | ring]. }
  rewrite (rsum_block n m (i / m)) by assumption.
  assert (D : forall p, (p < m)%nat -> ((i / m * m + p) / m = i / m /\ (i / m * m + p) mod m = p)%nat).
  { intros p Hp. split; [symmetry; apply (Nat.div_unique _ m _ p); lia | symmetry; apply (Nat.mod_unique _ m (i / m)); lia]. }
  rewrite (rsum_ext m _ (fun p => mget (nth (i / m) As []) (i mod m) p *
     (if Nat.eqb (i / m) (j / m) then mget (nth (i / m) Bs []) p (j mod m) else 0))).
  2: { intros p Hp. destruct (D p Hp) as (-> & ->). reflexivity. }
  destruct (Nat.eqb (i / m) (j / m)); [reflexivity |]. apply rsum_zero. intros p Hp. ring.
Qed.

Section C72.
  Context (h : nat) (inv : mat R -> mat R) (solve : mat R -> list R -> list R).

  (** getA succeeds and holds the mapping matrices of the segments. *)
  Lemma getA_ok vs o : prepared h inv vs o -> exists As, opt_getA h o = Ok (block_diagonal h (o_nseg o) As) /\
    length As = o_nseg o /\ forall i, (i < o_nseg o)%nat -> mapping_matrix h (nth i (o_times o) 0) = Ok (nth i As []).
  Proof.
    intros P. unfold opt_getA.
    assert (G : exists As, omap (fun i => t <-- oget (o_times o) i ;; if negb (nltb n0 t) then Abort else mapping_matrix h t) (seq 0 (o_nseg o)) = Ok As).
    { apply omap_total. intros i Hi. apply in_seq in Hi. rewrite (oget_nth _ _ 0) by (rewrite (pr_times _ _ _ _ P); lia). cbn [obind].
      destruct (prepared_mats h inv vs o i P ltac:(lia)) as (Q & A & _ & EA & Hp & _). exists A.
      change (nltb (@n0 R R_ops) (nth i (o_times o) 0)) with (Rltb 0 (nth i (o_times o) 0)).
      destruct (Rltb_spec 0 (nth i (o_times o) 0)); [exact EA | lra]. }
    destruct G as (As & E). rewrite E. cbn [obind]. exists As. split; [reflexivity |].
    assert (L := omap_length _ _ _ E). rewrite seq_length in L. split; [exact L |].
    intros i Hi. destruct (Forall2_nth_both _ _ _ 0%nat ([] : mat R) (omap_Forall2 _ _ _ E)) as (_ & Hm).
    rewrite seq_length in Hm. specialize (Hm i Hi). cbn beta in Hm. rewrite seq_nth in Hm by exact Hi. cbn [Nat.add] in Hm.
    rewrite (oget_nth _ _ 0) in Hm by (rewrite (pr_times _ _ _ _ P); lia). cbn [obind] in Hm.
    destruct (negb _); [discriminate | exact Hm].
  Qed.

  (** getA and getAInverse are inverse to each other. *)
  Theorem C72_inverse dim vs r o : inverse_ok h inv -> List.Forall vertex_wf vs -> (2 <= length vs)%nat ->
    set_up h inv solve dim vs r o -> List.Forall (fun t => / 2 ^ 52 <= t) (o_times o) ->
    exists A, opt_getA h o = Ok A /\ is_inverse (2 * h * (length vs - 1)) A (opt_getAInverse h o).
  Proof.
    intros Hinv Hwf Hl Hs Ht. destruct (set_up_prepared h inv solve dim vs r o Hwf Hs) as (P & _ & _).
    assert (Hn := pr_nseg _ _ _ _ P). replace (length vs - 1)%nat with (o_nseg o) by lia.
    assert (Hh := prepared_h h inv vs o 0 P ltac:(lia)).
    destruct (getA_ok vs o P) as (As & EA & LA & HA). eexists. split; [exact EA |].
    intros i j Hi Hj. unfold opt_getAInverse. rewrite !block_prod by lia.
    assert (Bi : (i / (2 * h) < o_nseg o)%nat) by (apply Nat.div_lt_upper_bound; lia).
    destruct (prepared_mats h inv vs o (i / (2 * h)) P Bi) as (Q & A & _ & EM & _ & _ & EI).
    rewrite HA in EM by exact Bi. apply Ok_inj in EM. subst A.
    assert (I := invert_mapping_inverse h inv _ _ Hh Hinv (proj1 (Forall_nth _ _) Ht _ 0 ltac:(rewrite (pr_times _ _ _ _ P); exact Bi)) (HA _ Bi)).
    rewrite <- EI in I.
    assert (EQ : Nat.eqb i j = (Nat.eqb (i / (2 * h)) (j / (2 * h)) && Nat.eqb (i mod (2 * h)) (j mod (2 * h)))%bool).
    { destruct (Nat.eqb_spec i j) as [-> | N]; [now rewrite !Nat.eqb_refl |].
      destruct (Nat.eqb_spec (i / (2 * h)) (j / (2 * h))) as [E1 |]; [| reflexivity].
      destruct (Nat.eqb_spec (i mod (2 * h)) (j mod (2 * h))) as [E2 |]; [| reflexivity]. exfalso. apply N.
      rewrite (Nat.div_mod i (2 * h)), (Nat.div_mod j (2 * h)) by lia. congruence. }
    rewrite EQ. destruct (Nat.eqb (i / (2 * h)) (j / (2 * h))); cbn [andb]; [| split; reflexivity].
    apply I; apply Nat.mod_upper_bound; lia.
  Qed.

  (** Coefficient number k of dimension d, all segments in a row. *)
  Definition stacked (segs : list (segment R)) (d k : nat) : R :=
    nth (k mod (2 * h)) (nth d (seg_polys (nth (k / (2 * h)) segs no_seg)) []) 0.

  (** The stored coefficients are A^-1 * M * d, with d the fixed and then the free
      constraints; hence A * coefficients = M * d; and the cost is half the sum
      over the dimensions of d^T * R * d; R is symmetric and positive
      semidefinite. *)
  Theorem C72_matrices dim vs r o c o' : List.Forall vertex_wf vs -> (0 < dim)%nat -> (2 <= length vs)%nat ->
    set_up h inv solve dim vs r o -> computes_segments c -> run_ocall h inv solve o c = Ok o' ->
    let n := (2 * h * (length vs - 1))%nat in
    let m := (o_nfixed o' + o_nfree o')%nat in
    let x d := nth d (o_fixed o') [] ++ nth d (o_free o') [] in
    (forall d, (d < dim)%nat -> length (x d) = m) /\
    (forall d k, (d < dim)%nat -> (k < n)%nat ->
       stacked (o_segments o') d k =
       rsum n (fun a => nth a (nth k (opt_getAInverse h o') []) 0 * rsum m (fun j => nth j (nth a (opt_getM o') []) 0 * nth j (x d) 0))) /\
    (inverse_ok h inv -> List.Forall (fun t => / 2 ^ 52 <= t) (o_times o') -> exists A, opt_getA h o' = Ok A /\
       forall d k, (d < dim)%nat -> (k < n)%nat ->
       rsum n (fun a => nth a (nth k A []) 0 * stacked (o_segments o') d a) = rsum m (fun j => nth j (nth k (opt_getM o') []) 0 * nth j (x d) 0)) /\
    exists Rm, opt_getR h o' = Ok Rm /\
      opt_computeCost h o' = Ok (/ 2 * rsum dim (fun d => rsum m (fun i => rsum m (fun j => nth i (x d) 0 * nth j (nth i Rm []) 0 * nth j (x d) 0)))) /\
      (forall y z, rsum m (fun i => rsum m (fun j => y i * nth j (nth i Rm []) 0 * z j)) = rsum m (fun i => rsum m (fun j => z i * nth j (nth i Rm []) 0 * y j))) /\
      (forall y, 0 <= rsum m (fun i => rsum m (fun j => y i * nth j (nth i Rm []) 0 * y j))).
  Proof.
    intros Hwf Hd Hl Hs Hc Hr n m x. destruct (computed_prepared h inv solve dim vs r o c o' Hwf Hs Hc Hr) as (P & S & Ed & _).
    assert (Hn := pr_nseg _ _ _ _ P). unfold n. replace (length vs - 1)%nat with (o_nseg o') by lia.
    assert (Hh := prepared_h h inv vs o' 0 P ltac:(lia)).
    assert (Lx : forall d, (d < dim)%nat -> length (x d) = m).
    { intros d Hdd. unfold x, m. rewrite app_length. destruct (prepared_sized h inv vs o' P) as (_ & _ & _ & _ & L5).
      rewrite L5, (proj1 S) by lia. reflexivity. }
    split; [exact Lx |].
    assert (KEY : forall d k, (d < dim)%nat -> (k < 2 * h * o_nseg o')%nat ->
       stacked (o_segments o') d k =
       rsum (2 * h * o_nseg o') (fun a => nth a (nth k (opt_getAInverse h o') []) 0 * rsum m (fun j => nth j (nth a (opt_getM o') []) 0 * nth j (x d) 0))).
    { intros d k Hdd Hk. unfold stacked. rewrite (synced_chain h inv vs o' P S) by lia.
      assert (Bk : (k / (2 * h) < o_nseg o')%nat) by (apply Nat.div_lt_upper_bound; lia).
      assert (Mk : (k mod (2 * h) < 2 * h)%nat) by (apply Nat.mod_upper_bound; lia).
      unfold chain_of. rewrite nth_map_seq by exact Bk. cbn [seg_polys Nat.add]. rewrite nth_map_seq by lia. cbn [Nat.add].
      rewrite coeffs_cf by exact Mk. unfold cf.
      rewrite (rsum_ext (2 * h * o_nseg o') _ (fun a => if Nat.eqb (k / (2 * h)) (a / (2 * h)) then
         mget (nth (k / (2 * h)) (o_inv o') []) (k mod (2 * h)) (a mod (2 * h)) *
         rsum m (fun j => nth j (nth a (opt_getM o') []) 0 * nth j (x d) 0) else 0)).
      2: { intros a Ha. unfold opt_getAInverse. rewrite block_entry by assumption. destruct (Nat.eqb _ _); ring. }
      rewrite rsum_block by lia. apply rsum_ext. intros p Hp.
      replace ((k / (2 * h) * (2 * h) + p) mod (2 * h))%nat with p by (apply (Nat.mod_unique _ _ (k / (2 * h))); lia). reflexivity. }
    split; [exact KEY |]. split.
    - intros Hinv Ht.
      destruct (getA_ok vs o' P) as (As & EA & LA & HA). eexists. split; [exact EA |]. intros d k Hdd Hk.
      assert (ID : forall i j, (i < 2 * h * o_nseg o')%nat -> (j < 2 * h * o_nseg o')%nat ->
        prod_entry (2 * h * o_nseg o') (block_diagonal h (o_nseg o') As) (opt_getAInverse h o') i j = if Nat.eqb i j then 1 else 0).
      { intros i j Hi Hj. unfold opt_getAInverse. rewrite !block_prod by lia.
        assert (Bi : (i / (2 * h) < o_nseg o')%nat) by (apply Nat.div_lt_upper_bound; lia).
        destruct (prepared_mats h inv vs o' (i / (2 * h)) P Bi) as (Q & A & _ & EM & _ & _ & EI).
        rewrite HA in EM by exact Bi. apply Ok_inj in EM. subst A.
        assert (I := invert_mapping_inverse h inv _ _ Hh Hinv (proj1 (Forall_nth _ _) Ht _ 0 ltac:(rewrite (pr_times _ _ _ _ P); exact Bi)) (HA _ Bi)).
        rewrite <- EI in I.
        destruct (Nat.eqb_spec (i / (2 * h)) (j / (2 * h))) as [E1 | E1].
        - rewrite (proj1 (I (i mod (2 * h)) (j mod (2 * h)) ltac:(apply Nat.mod_upper_bound; lia) ltac:(apply Nat.mod_upper_bound; lia)))%nat.
          destruct (Nat.eqb_spec i j) as [-> | N]; [now rewrite Nat.eqb_refl |].
          destruct (Nat.eqb_spec (i mod (2 * h)) (j mod (2 * h))) as [E2 |]; [| reflexivity]. exfalso. apply N.
          rewrite (Nat.div_mod i (2 * h)), (Nat.div_mod j (2 * h)) by lia. congruence.
        - destruct (Nat.eqb_spec i j) as [-> | N]; [contradiction | reflexivity]. }
      rewrite (rsum_ext _ _ (fun a => rsum (2 * h * o_nseg o') (fun b => nth a (nth k (block_diagonal h (o_nseg o') As) []) 0 *
         (nth b (nth a (opt_getAInverse h o') []) 0 * rsum m (fun j => nth j (nth b (opt_getM o') []) 0 * nth j (x d) 0))))).
      2: { intros a Ha. rewrite KEY by assumption. rewrite <- rsum_scal. reflexivity. }
      rewrite rsum_swap.
      rewrite (rsum_ext _ _ (fun b => if Nat.eqb b k then rsum m (fun j => nth j (nth b (opt_getM o') []) 0 * nth j (x d) 0) else 0)).
      2: { intros b Hb. set (w := rsum m _). assert (I := ID k b Hk Hb). unfold prod_entry in I.
           rewrite (rsum_ext _ _ (fun a => (nth a (nth k (block_diagonal h (o_nseg o') As) []) 0 * nth b (nth a (opt_getAInverse h o') []) 0) * w)) by (intros; ring).
           rewrite rsum_scal_r, I, (Nat.eqb_sym k b). destruct (Nat.eqb b k); ring. }
      rewrite rsum_delta by exact Hk. reflexivity.
    - destruct (constructR_form h inv vs o' P ltac:(lia)) as (Rm & ER & HF). exists Rm. split; [exact ER |].
      assert (B : forall y z, rsum m (fun i => rsum m (fun j => y i * nth j (nth i Rm []) 0 * z j)) = Jform h o' y z).
      { intros y z. rewrite <- HF. unfold bil. apply rsum_ext. intros i Hi. apply rsum_ext. intros j Hj. reflexivity. }
      split; [| split].
      + rewrite (compute_cost_integral h inv vs o' P).
        * f_equal. rewrite (synced_chain h inv vs o' P S) by lia. rewrite (chain_cost h inv vs o' P), Ed. f_equal. apply rsum_ext. intros d Hdd. cbn zeta.
          rewrite <- B. reflexivity.
        * assert (CS := chain_of_shape_R h inv vs o' P). rewrite <- (synced_chain h inv vs o' P S) in CS by lia.
          intros i Hi. apply CS. rewrite (pr_times _ _ _ _ P). exact Hi.
      + intros y z. rewrite !B. apply Jform_sym.
      + intros y. rewrite B. apply (Jform_nonneg h inv vs). exact P.
  Qed.
End C72.
Print Assumptions C72_inverse.
Print Assumptions C72_matrices.

(** The example problem of C33. *)
Example C72_example : exists o1 o2, inverse_ok 2 (perfect_inv 2) /\ List.Forall vertex_wf exl_vs /\ (2 <= length exl_vs)%nat /\
  set_up 2 (perfect_inv 2) perfect_solve 1 exl_vs 1 o1 /\ computes_segments (@CallSolve R) /\
  run_ocall 2 (perfect_inv 2) perfect_solve o1 CallSolve = Ok o2 /\ List.Forall (fun t => / 2 ^ 52 <= t) (o_times o1).
Proof.
  destruct exl_solved as (o1 & o2 & S & H & T1 & _). exists o1, o2. split; [apply perfect_inv_ok |]. split; [exact exl_wf' |]. split; [cbn; lia |].
  split; [exact S |]. split; [exact I |]. split; [exact H |]. rewrite T1. exact exl_times_ok.
Qed.
