(** Properties C35-C38: mapping matrix, reordering, reuse and peak search of the
    linear optimiser. *)
From Coq Require Import ZArith Reals List Bool Lia Lra Arith Sorted.
From Flocq Require Import IEEE754.Binary IEEE754.BinarySingleNaN.
From Coquelicot Require Import Coquelicot.
From Verif Require Import Num RSum SpecPoly ModelPolynomial ModelSegment ModelVertex ModelTrajectory ModelLinear
  SpecSegment SpecVertex SpecLinear ProofPolynomial ProofPolynomial2 ProofExtrema ProofSegment ProofSegment2 ProofVertex ProofTrajectory3
  ProofRoots ProofMatrix ProofHermite ProofReorder ProofLinear ProofLinear2 ProofLinear3 ProofLinear4 ProofLinear5
  ProofLinear6 ProofLinear7 PropLinear.
Import ListNotations.
Open Scope R_scope.

(** ** C35: the mapping matrix and its inverse *)
Theorem C35_mapping_matrix (h : nat) (t : R) (c : list R) :
  (0 < h <= 11)%nat -> / 2 ^ 52 <= t -> length c = (2 * h)%nat ->
  exists A, mapping_matrix h t = Ok A /\ mat_dims (2 * h) (2 * h) A /\
    forall k, (k < h)%nat ->
      rsum (2 * h) (fun j => nth j (nth k A []) 0 * nth j c 0) = Derive_n (poly_fun c) k 0 /\
      rsum (2 * h) (fun j => nth j (nth (h + k) A []) 0 * nth j c 0) = Derive_n (poly_fun c) k t.
Proof.
  intros Hh Ht Lc. destruct (mapping_matrix_ok h t Hh) as (A & EA & HA & _). exists A. split; [exact EA|]. split; [exact HA|].
  intros k Hk. rewrite !dpoly_ext_derive_n. apply (mapping_derivs h t A c k Hh EA Lc Hk Ht).
Qed.
Print Assumptions C35_mapping_matrix.

Theorem C35_inverse (h : nat) (inv : mat R -> mat R) (t : R) :
  (0 < h <= 11)%nat -> inverse_ok h inv -> / 2 ^ 52 <= t ->
  exists A, mapping_matrix h t = Ok A /\ is_inverse (2 * h) A (invert_mapping h inv A).
Proof.
  intros Hh Hi Ht. destruct (mapping_matrix_ok h t Hh) as (A & EA & _). exists A. split; [exact EA|].
  apply (invert_mapping_inverse h inv t); assumption.
Qed.
Print Assumptions C35_inverse.

(** Two coefficient vectors with the same end derivatives are equal. *)
Theorem C35_injective (h : nat) (t : R) (c1 c2 : list R) :
  (0 < h <= 11)%nat -> / 2 ^ 52 <= t -> length c1 = (2 * h)%nat -> length c2 = (2 * h)%nat ->
  (forall k, (k < h)%nat -> Derive_n (poly_fun c1) k 0 = Derive_n (poly_fun c2) k 0 /\
                            Derive_n (poly_fun c1) k t = Derive_n (poly_fun c2) k t) ->
  c1 = c2.
Proof.
  intros Hh Ht L1 L2 H. apply (nth_ext c1 c2 0 0); [congruence|]. intros i Hi. rewrite L1 in Hi.
  destruct (mapping_matrix_ok h t Hh) as (A & EA & _).
  assert (HI := invert_mapping_inverse h (perfect_inv h) t A Hh (perfect_inv_ok h) Ht EA).
  assert (G : forall c, length c = (2 * h)%nat -> nth i c 0 = rsum (2 * h) (fun j => mget (invert_mapping h (perfect_inv h) A) i j *
     (if Nat.ltb j h then dpoly c j 0 else dpoly c (j - h) t))).
  { intros c Lc. rewrite <- (inverse_cancel (2 * h) (invert_mapping h (perfect_inv h) A) A (fun j => nth j c 0) i).
    - apply rsum_ext. intros j Hj. f_equal. destruct (Nat.ltb_spec j h) as [Hjh|Hjh].
      + apply (mapping_derivs h t A c j Hh EA Lc Hjh Ht).
      + destruct (mapping_derivs h t A c (j - h) Hh EA Lc ltac:(lia) Ht) as (_ & D).
        replace (h + (j - h))%nat with j in D by lia. exact D.
    - intros a b Ha Hb. destruct (HI a b Ha Hb). split; assumption.
    - exact Hi. }
  rewrite (G c1 L1), (G c2 L2). apply rsum_ext. intros j Hj. f_equal.
  destruct (Nat.ltb_spec j h) as [Hjh|Hjh].
  - destruct (H j Hjh) as (E & _). rewrite !dpoly_ext_derive_n in E. exact E.
  - destruct (H (j - h)%nat ltac:(lia)) as (_ & E). rewrite !dpoly_ext_derive_n in E. exact E.
Qed.
Print Assumptions C35_injective.

(** For times below machine epsilon the matrix is singular, so no inverse
    exists; setupFromVertices accepts such times. *)
Theorem C35_tiny_time_singular (h : nat) (t : R) (A B : mat R) :
  (0 < h <= 11)%nat -> 0 < t < / 2 ^ 52 -> mapping_matrix h t = Ok A -> ~ is_inverse (2 * h) A B.
Proof.
  intros Hh Ht EA HI. destruct (mapping_matrix_ok h t Hh) as (A' & EA' & _ & Htop & Hbot).
  rewrite EA in EA'. apply Ok_inj in EA'. subst A'.
  assert (E0 : eff_time t = 0).
  { unfold eff_time. destruct (Rlt_dec _ _) as [|N]; [reflexivity|]. exfalso. apply N. rewrite Rabs_pos_eq by lra.
    rewrite dbl_epsilon_val. apply Ht. }
  destruct (HI 0%nat 0%nat ltac:(lia) ltac:(lia)) as (H1 & _). destruct (HI h 0%nat ltac:(lia) ltac:(lia)) as (H2 & _).
  rewrite Nat.eqb_refl in H1. destruct (Nat.eqb_spec h 0) as [|_] in H2; [lia|].
  assert (E : prod_entry (2 * h) A B 0 0 = prod_entry (2 * h) A B h 0); [|lra].
  unfold prod_entry. apply rsum_ext. intros j Hj. f_equal. change (mget A 0 j = mget A h j).
  replace h with (h + 0)%nat at 1 by lia. rewrite Htop, Hbot, E0 by lia. reflexivity.
Qed.
Print Assumptions C35_tiny_time_singular.

Theorem C35_inverse_for_all_positive_times_refuted : exists (h : nat) (t : R) (A : mat R),
  (0 < h <= 11)%nat /\ 0 < t /\ mapping_matrix h t = Ok A /\ forall B, ~ is_inverse (2 * h) A B.
Proof.
  destruct (mapping_matrix_ok 5 (/ 2 ^ 53) ltac:(lia)) as (A & EA & _). exists 5%nat, (/ 2 ^ 53), A.
  assert (0 < / 2 ^ 53) by (apply Rinv_0_lt_compat; apply pow_lt; lra).
  split; [lia|]. split; [assumption|]. split; [exact EA|]. intros B. apply (C35_tiny_time_singular 5 (/ 2 ^ 53)); [lia| |exact EA].
  split; [assumption|]. apply Rinv_lt_contravar; [|simpl; lra]. apply Rmult_lt_0_compat; apply pow_lt; lra.
Qed.
Print Assumptions C35_inverse_for_all_positive_times_refuted.

Example C35_example : exists A, (0 < 5 <= 11)%nat /\ / 2 ^ 52 <= 2 /\ mapping_matrix 5 2 = Ok A /\
  inverse_ok 5 (perfect_inv 5) /\ is_inverse 10 A (invert_mapping 5 (perfect_inv 5) A) /\
  length [1; 2; 3; 4; 5; 6; 7; 8; 9; 10] = (2 * 5)%nat /\
  rsum 10 (fun j => nth j (nth 7 A []) 0 * nth j [0; 0; 0; 1; 0; 0; 0; 0; 0; 0] 0) = 12.
Proof.
  assert (Ht : / 2 ^ 52 <= 2) by (apply (Rle_trans _ 1); [rewrite <- Rinv_1; apply Rinv_le_contravar; lra|lra]).
  destruct (C35_inverse 5 (perfect_inv 5) 2 ltac:(lia) (perfect_inv_ok 5) Ht) as (A & EA & HI). exists A.
  split; [lia|]. split; [exact Ht|]. split; [exact EA|]. split; [apply perfect_inv_ok|]. split; [exact HI|]. split; [reflexivity|].
  destruct (mapping_derivs 5 2 A [0; 0; 0; 1; 0; 0; 0; 0; 0; 0] 2 ltac:(lia) EA eq_refl ltac:(lia) Ht) as (_ & D).
  refine (eq_trans D _). unfold dpoly. cbn [length rsum nth Nat.sub]. cbn. lra.
Qed.

(** ** C36: constraint reordering *)
Theorem C36_reordering (h : nat) (inv : mat R -> mat R) (solve : mat R -> list R -> list R)
        (dim : nat) (vs : list (vertex R)) (r : Z) (o : opt R) :
  List.Forall vertex_wf vs -> (2 <= length vs)%nat -> set_up h inv solve dim vs r o ->
  exists ks, reordering_ok h vs (length vs - 1) dim (o_nfixed o) (o_nfree o) (opt_getM o) (o_fixed o) ks.
Proof.
  intros Hwf Hl Hs. destruct (set_up_prepared h inv solve dim vs r o Hwf Hs) as (P & <- & _).
  assert (Hn := pr_nseg _ _ _ _ P). replace (length vs - 1)%nat with (o_nseg o) by lia.
  apply (bookkeeping h inv); [exact P|lia].
Qed.
Print Assumptions C36_reordering.

Theorem C36_rows_columns_pseudoinverse (h : nat) (inv : mat R -> mat R) (solve : mat R -> list R -> list R)
        (dim : nat) (vs : list (vertex R)) (r : Z) (o : opt R) :
  List.Forall vertex_wf vs -> (2 <= length vs)%nat -> set_up h inv solve dim vs r o ->
  let n := (o_nfixed o + o_nfree o)%nat in
  let m := ((length vs - 1) * (2 * h))%nat in
  n = (length vs * h)%nat /\
  (forall i, (i < m)%nat -> exists j, (j < n)%nat /\
     forall b, (b < n)%nat -> nth b (nth i (opt_getM o) []) 0 = if Nat.eqb b j then 1 else 0) /\
  (forall j, (j < n)%nat -> exists i, (i < m)%nat /\ nth j (nth i (opt_getM o) []) 0 = 1) /\
  (forall a b, (a < n)%nat -> (b < n)%nat ->
     prod_entry m (opt_getMpinv o) (opt_getM o) a b = if Nat.eqb a b then 1 else 0).
Proof.
  intros Hwf Hl Hs n m. subst n m. destruct (set_up_prepared h inv solve dim vs r o Hwf Hs) as (P & Ed & _).
  assert (Hn := pr_nseg _ _ _ _ P). replace (length vs - 1)%nat with (o_nseg o) by lia.
  destruct (bookkeeping h inv vs o P ltac:(lia)) as (ks & HB).
  split; [apply HB|]. split; [apply (book_rows h vs _ _ _ _ _ _ _ Hn HB)|].
  split; [apply (book_cols h inv vs _ _ _ _ _ _ _ Hn ltac:(lia) HB)|].
  apply (mpinv_left h inv vs); [exact P|lia].
Qed.
Print Assumptions C36_rows_columns_pseudoinverse.

Example C36_example : exists o, List.Forall vertex_wf exl_vs /\ (2 <= length exl_vs)%nat /\
  set_up 2 (perfect_inv 2) perfect_solve 1 exl_vs 1 o /\ (0 < o_nfree o)%nat /\ (o_nfixed o + o_nfree o = 6)%nat.
Proof.
  destruct exl_free as (o1 & _ & S & _ & Hf & _). exists o1.
  split; [exact exl_wf'|]. split; [cbn; lia|]. split; [exact S|]. split; [exact Hf|].
  apply (C36_rows_columns_pseudoinverse 2 (perfect_inv 2) perfect_solve 1 exl_vs 1 o1 exl_wf'); [cbn; lia|exact S].
Qed.

(** ** C37: reuse of the optimiser object (any number type, bit for bit) *)
Theorem C37_reuse {T} {ops : NumOps T} (h : nat) (inv : mat T -> mat T) (solve : mat T -> list T -> list T)
        (dim : nat) (vs : list (vertex T)) (times : list T) (r : Z) (pre : list (ocall T)) (o o1 : opt T) :
  (forall A b, length (solve A b) = length b) -> (0 < dim)%nat -> List.Forall vertex_wf vs ->
  run_ocalls h inv solve (opt_new dim) pre = Ok o ->
  opt_setupFromVertices h inv o vs times r = Ok o1 ->
  exists fresh, opt_setupFromVertices h inv (opt_new dim) vs times r = Ok fresh /\
    o_nfree fresh = o_nfree o1 /\
    ((0 < o_nfree o1)%nat -> opt_solveLinear h solve o1 = opt_solveLinear h solve fresh) /\
    ((forall d, (d < dim)%nat -> nth d (o_free o) [] = []) ->
     match opt_solveLinear h solve o1, opt_solveLinear h solve fresh with
     | Ok a, Ok b => o_segments a = o_segments b
     | x, y => x = y
     end).
Proof.
  intros Hsol Hd Hwf H0 H1. destruct (reached_shaped h inv solve dim pre o H0) as (Sh & Ed). subst dim.
  destruct (setup_fresh h inv vs times r o o1 Sh H1) as (of & Hf & _). exists of. split; [exact Hf|]. split; [|split].
  - destruct (setup_fresh h inv vs times r o o1 Sh H1) as (of' & Hf' & _ & E & _). rewrite Hf in Hf'. apply Ok_inj in Hf'. subst of'.
    rewrite E. reflexivity.
  - intros Hp. destruct (solve_fresh h inv solve vs times r o o1 of Hwf Hsol Hd Sh H1 Hf (or_introl Hp)) as (_ & E).
    destruct (opt_solveLinear h solve o1), (opt_solveLinear h solve of); try congruence.
    destruct E as (_ & E). f_equal. apply E. exact Hp.
  - intros Hfr. destruct (solve_fresh h inv solve vs times r o o1 of Hwf Hsol Hd Sh H1 Hf) as (_ & E).
    { right. intros d Hdd. rewrite Hfr by exact Hdd. reflexivity. }
    destruct (opt_solveLinear h solve o1), (opt_solveLinear h solve of); try exact E. apply E.
Qed.
Print Assumptions C37_reuse.

(** The object remembers the free constraints of an earlier problem: a problem
    without free constraints then reads a vector of the wrong size.  N = 2, one
    dimension, doubles: first a problem whose end is free, then a fully
    constrained one. *)
Definition f64 (z : Z) : b64 := b64_of_Z z.
Definition fr_vs : list (vertex b64) := [mkVertex 1 [(0%Z, [f64 0])]; mkVertex 1 []].
Definition fx_vs : list (vertex b64) := [mkVertex 1 [(0%Z, [f64 0])]; mkVertex 1 [(0%Z, [f64 1])]].
Definition recip (D : mat b64) : mat b64 := [[@ndiv b64 B64_ops (f64 1) (@mget b64 B64_ops D 0 0)]].
Definition div_solve (A : mat b64) (b : list b64) : list b64 :=
  map (fun x => @ndiv b64 B64_ops x (@mget b64 B64_ops A 0 0)) b.
Definition stale_run : outcome (opt b64) :=
  @run_ocalls b64 B64_ops 1 recip div_solve (opt_new 1) [CallSetup fr_vs [f64 1] 0; CallSolve].
Definition stale_setup (o : opt b64) : outcome (opt b64) := @opt_setupFromVertices b64 B64_ops 1 recip o fx_vs [f64 1] 0.
Definition stale_solve (o : opt b64) : outcome (opt b64) := @opt_solveLinear b64 B64_ops 1 div_solve o.
Definition on_ok {A} (X : outcome A) (f : A -> bool) : bool := match X with Ok a => f a | _ => false end.
Lemma on_ok_true {A} (X : outcome A) (f : A -> bool) : on_ok X f = true -> exists a, X = Ok a /\ f a = true.
Proof. destruct X; cbn; try discriminate. eauto. Qed.
Definition is_UB {A} (X : outcome A) : bool := match X with UB => true | _ => false end.
Lemma is_UB_true {A} (X : outcome A) : is_UB X = true -> X = UB.
Proof. destruct X; cbn; congruence. Qed.
Lemma stale_bool : on_ok stale_run (fun o => on_ok (stale_setup o) (fun o1 => on_ok (stale_setup (opt_new 1)) (fun fresh =>
  on_ok (stale_solve fresh) (fun _ => is_UB (stale_solve o1))))) = true.
Proof. vm_compute. reflexivity. Qed.
Theorem C37_fully_constrained_refuted : exists (o o1 fresh res : opt b64),
  @run_ocalls b64 B64_ops 1 recip div_solve (opt_new 1) [CallSetup fr_vs [f64 1] 0; CallSolve] = Ok o /\
  @opt_setupFromVertices b64 B64_ops 1 recip o fx_vs [f64 1] 0 = Ok o1 /\
  @opt_solveLinear b64 B64_ops 1 div_solve o1 = UB /\
  @opt_setupFromVertices b64 B64_ops 1 recip (opt_new 1) fx_vs [f64 1] 0 = Ok fresh /\
  @opt_solveLinear b64 B64_ops 1 div_solve fresh = Ok res.
Proof.
  destruct (on_ok_true _ _ stale_bool) as (o & E0 & H0). destruct (on_ok_true _ _ H0) as (o1 & E1 & H1).
  destruct (on_ok_true _ _ H1) as (fresh & E2 & H2). destruct (on_ok_true _ _ H2) as (res & E3 & H3).
  exists o, o1, fresh, res. split; [exact E0|]. split; [exact E1|]. split; [exact (is_UB_true _ H3)|]. split; [exact E2|exact E3].
Qed.
Print Assumptions C37_fully_constrained_refuted.

Definition used_run : outcome (opt b64) :=
  @run_ocalls b64 B64_ops 1 recip div_solve (opt_new 1)
    [CallSetup fx_vs [f64 3] 0; CallSolve; CallSetup fr_vs [f64 1] 0; CallSolve].
Definition used_setup (o : opt b64) : outcome (opt b64) := @opt_setupFromVertices b64 B64_ops 1 recip o fr_vs [f64 2] 0.
Lemma used_bool : on_ok used_run (fun o => on_ok (used_setup o) (fun o1 => Nat.ltb 0 (o_nfree o1))) = true.
Proof. vm_compute. reflexivity. Qed.
Example C37_example : exists (o o1 : opt b64),
  (forall A b, length (div_solve A b) = length b) /\ List.Forall vertex_wf fr_vs /\
  used_run = Ok o /\ used_setup o = Ok o1 /\ (0 < o_nfree o1)%nat.
Proof.
  destruct (on_ok_true _ _ used_bool) as (o & E0 & H0). destruct (on_ok_true _ _ H0) as (o1 & E1 & H1).
  exists o, o1. split; [intros A b; apply map_length|]. split; [repeat constructor|].
  split; [exact E0|]. split; [exact E1|apply Nat.ltb_lt; exact H1].
Qed.

(** ** C38: computeMaximumOfMagnitude *)
Theorem C38_peak (rf : list R -> bool * list (R * R)) (h : nat) (o : opt R) (d : nat) :
  perfect_root_finder rf -> (d < 2 * h - 1)%nat -> (2 * h <= 22)%nat ->
  List.Forall (fun s => seg_N s = (2 * h)%nat /\ seg_wf s /\ (0 < seg_D s)%nat /\ 0 <= seg_time s) (o_segments o) ->
  (0 < o_nseg o)%nat -> length (o_segments o) = o_nseg o ->
  let seg i := nth i (o_segments o) no_seg in
  let norm i t := seg_norm (seg i) (map Z.of_nat (seq 0 (seg_D (seg i)))) d t in
  exists e es, opt_maximumOfMagnitude h rf o (Z.of_nat d) = Ok (e, es) /\
    (* attained where the extremum says *)
    (exists i, ext_segment e = Z.of_nat i /\ (i < o_nseg o)%nat /\
       0 <= ext_time e <= seg_time (seg i) /\ ext_value e = norm i (ext_time e)) /\
    (* an upper bound *)
    (forall j t, (j < o_nseg o)%nat -> 0 <= t <= seg_time (seg j) -> norm j t <= ext_value e) /\
    (* the candidates lie on the segments and contain the peak of every segment *)
    (forall c, In c es -> exists i, ext_segment c = Z.of_nat i /\ (i < o_nseg o)%nat /\
       0 <= ext_time c <= seg_time (seg i) /\ ext_value c = norm i (ext_time c)) /\
    (forall j, (j < o_nseg o)%nat -> forall t, 0 <= t <= seg_time (seg j) ->
       exists c, In c es /\ ext_segment c = Z.of_nat j /\ norm j t <= ext_value c).
Proof.
  intros Hrf Hd HN Hs Hn Hl seg norm.
  destruct (maximum_magnitude rf h o d Hrf Hd HN Hs Hn Hl) as (e & es & E & C & M & F & G).
  exists e, es. split; [exact E|].
  assert (HC : forall c, is_candidate (o_segments o) d 0 c -> exists i, ext_segment c = Z.of_nat i /\ (i < o_nseg o)%nat /\
       0 <= ext_time c <= seg_time (seg i) /\ ext_value c = norm i (ext_time c)).
  { intros c (j & H1 & H2 & H3 & H4). exists j. rewrite <- Hl. auto. }
  split; [apply HC; exact C|]. split; [exact M|]. split; [|intros j Hj t Ht; apply (G j t Hj Ht)].
  intros c Hc. apply HC. rewrite List.Forall_forall in F. apply F. exact Hc.
Qed.
Print Assumptions C38_peak.

(** Every object that has computed its segments qualifies. *)
Theorem C38_after_solving (h : nat) (inv : mat R -> mat R) (solve : mat R -> list R -> list R)
        (rf : list R -> bool * list (R * R)) (dim d : nat) (vs : list (vertex R)) (r : Z) (o o' : opt R) (c : ocall R) :
  perfect_root_finder rf -> (d < 2 * h - 1)%nat ->
  List.Forall vertex_wf vs -> (0 < dim)%nat -> (2 <= length vs)%nat ->
  set_up h inv solve dim vs r o ->
  computes_segments c -> run_ocall h inv solve o c = Ok o' ->
  exists e es, opt_maximumOfMagnitude h rf o' (Z.of_nat d) = Ok (e, es) /\
    (forall j t, (j < length vs - 1)%nat -> 0 <= t <= nth j (o_times o') 0 ->
       sqrt (rsum dim (fun k => seg_fun (nth j (o_segments o') no_seg) k d t ^ 2)) <= ext_value e) /\
    (exists j, ext_segment e = Z.of_nat j /\ (j < length vs - 1)%nat /\ 0 <= ext_time e <= nth j (o_times o') 0 /\
       ext_value e = sqrt (rsum dim (fun k => seg_fun (nth j (o_segments o') no_seg) k d (ext_time e) ^ 2))).
Proof.
  intros Hrf Hd Hwf Hdim Hl Hs Hc Hr.
  destruct (computed_prepared h inv solve dim vs r o c o' Hwf Hs Hc Hr) as (P & S & Ed & Er).
  assert (Hn := pr_nseg _ _ _ _ P). assert (Hh := prepared_h h inv vs o' 0 P ltac:(lia)).
  assert (CS := chain_of_shape_R h inv vs o' P). rewrite <- (synced_chain h inv vs o' P S) in CS by lia.
  destruct CS as (Hls & Hsh). rewrite (pr_times _ _ _ _ P) in *.
  assert (Hp := prepared_times_pos h inv vs o' P).
  assert (Hf : List.Forall (fun s => seg_N s = (2 * h)%nat /\ seg_wf s /\ (0 < seg_D s)%nat /\ 0 <= seg_time s) (o_segments o')).
  { apply List.Forall_forall. intros s Hin. destruct (In_nth _ _ no_seg Hin) as (i & Hi & <-). rewrite Hls in Hi.
    destruct (Hsh i Hi) as (E1 & E2 & E3 & E4). split; [exact E2|]. split; [exact E4|]. split; [lia|].
    rewrite E1. rewrite List.Forall_forall in Hp. apply Rlt_le, Hp. apply nth_In. rewrite (pr_times _ _ _ _ P). exact Hi. }
  destruct (C38_peak rf h o' d Hrf Hd ltac:(lia) Hf ltac:(lia) Hls) as (e & es & E & (i & I1 & I2 & I3 & I4) & M & _).
  cbv zeta in *.
  assert (EN : forall j t, (j < o_nseg o')%nat ->
    seg_norm (nth j (o_segments o') no_seg) (map Z.of_nat (seq 0 (seg_D (nth j (o_segments o') no_seg)))) d t =
    sqrt (rsum dim (fun k => seg_fun (nth j (o_segments o') no_seg) k d t ^ 2))).
  { intros j t Hj. destruct (Hsh j Hj) as (_ & _ & E3 & _). unfold seg_norm. rewrite E3, Ed. f_equal.
    rewrite map_map, lsum_nth, map_length, seq_length. apply rsum_ext. intros k Hk. rewrite nth_map_seq by exact Hk.
    cbn [Nat.add]. rewrite Nat2Z.id. reflexivity. }
  exists e, es. split; [exact E|]. split.
  - intros j t Hj Ht. rewrite <- EN by lia. apply M; [lia|]. rewrite (proj1 (Hsh j ltac:(lia))). exact Ht.
  - exists i. split; [exact I1|]. split; [lia|]. rewrite <- EN by lia. rewrite <- (proj1 (Hsh i I2)). split; assumption.
Qed.
Print Assumptions C38_after_solving.

(** Without segments the call reads back() of an empty vector; for derivative
    orders of N-1 and above it aborts. *)
Theorem C38_outside_domain {T} {ops : NumOps T} (h : nat) (rf : root_oracle) (o : opt T) (derivative : Z) :
  (o_segments o = [] -> opt_maximumOfMagnitude h rf o derivative = UB) /\
  (o_segments o <> [] -> (Z.of_nat (2 * h) - 1 <= derivative)%Z -> opt_maximumOfMagnitude h rf o derivative = Abort).
Proof.
  unfold opt_maximumOfMagnitude. split.
  - intros ->. reflexivity.
  - intros Hne Hd. destruct (o_segments o) as [|s l]; [congruence|]. cbn [ofold]. unfold opt_maxCandidates at 1, opt_N.
    replace (Z.of_nat (2 * h) - derivative - 1 <=? 0)%Z with true by (symmetry; apply Z.leb_le; lia). reflexivity.
Qed.
Print Assumptions C38_outside_domain.

(** computeSegmentMaximumMagnitudeCandidates on one segment of two or more
    dimensions: it aborts for orders of N-1 and above, succeeds exactly for
    t_start <= t_stop (else no candidates), whatever the root finder reports. *)
Theorem C38_segment_candidates (rf : list R -> bool * list (R * R)) (h : nat) (s : segment R) (derivative : Z) (a b : R) :
  seg_wf s -> seg_N s = (2 * h)%nat -> (2 * h <= 22)%nat -> (2 <= seg_D s)%nat -> (0 <= derivative)%Z ->
  ((Z.of_nat (2 * h) - 1 <= derivative)%Z -> opt_maxCandidates h rf derivative s a b = Abort) /\
  ((derivative < Z.of_nat (2 * h) - 1)%Z -> b < a -> opt_maxCandidates h rf derivative s a b = Ok (false, [])) /\
  ((derivative < Z.of_nat (2 * h) - 1)%Z -> a <= b -> exists ts, opt_maxCandidates h rf derivative s a b = Ok (true, ts) /\ In a ts /\ In b ts /\
     (forall t, In t ts -> a <= t <= b)).
Proof.
  intros Hw HN H22 HD Hd. unfold opt_maxCandidates, opt_N. rewrite <- (Z2Nat.id derivative) by exact Hd. set (d := Z.to_nat derivative).
  split; [intros H; destruct (Z.leb_spec (Z.of_nat (2 * h) - Z.of_nat d - 1) 0); [reflexivity|lia]|].
  assert (Hdims : dims_ok s (map Z.of_nat (seq 0 (seg_D s)))).
  { unfold dims_ok. apply List.Forall_forall. intros k Hk. apply in_map_iff in Hk as (i & <- & Hi). apply in_seq in Hi. lia. }
  assert (Hlen : (2 <= length (map Z.of_nat (seq 0 (seg_D s))))%nat) by (rewrite map_length, seq_length; exact HD).
  assert (Main : (Z.of_nat d < Z.of_nat (2 * h) - 1)%Z -> exists rs, seg_candidateTimes rf s (Z.of_nat d) a b (map Z.of_nat (seq 0 (seg_D s))) = Ok (selectMinMaxCandidatesFromRoots a b rs)).
  { intros H. destruct (seg_candidateTimes_multi rf s d (map Z.of_nat (seq 0 (seg_D s))) a b Hw Hdims) as (cs & _ & _ & E); try lia. exists (snd (rf cs)). exact E. }
  split; intros H Hab; destruct (Z.leb_spec (Z.of_nat (2 * h) - Z.of_nat d - 1) 0); try lia; destruct (Main H) as (rs & ->); cbn [obind];
    destruct (selectCandidates_spec a b rs) as (S1 & S2).
  - rewrite S1 by exact Hab. reflexivity.
  - rewrite S2 by exact Hab. eexists. split; [reflexivity|]. split; [left; reflexivity|]. split; [right; left; reflexivity|].
    intros t [<-|[<-|Ht]]; [lra|lra|]. apply in_map_iff in Ht as (r & <- & Hr). apply filter_In in Hr as (_ & Hc). apply is_candidate_iff in Hc. tauto.
Qed.
Print Assumptions C38_segment_candidates.
Example C38_candidates_example : let s := mkSegment 4 [[0; 1; 0; 0]; [1; 0; 1; 0]] 1 in
  seg_wf s /\ seg_N s = (2 * 2)%nat /\ (2 * 2 <= 22)%nat /\ (2 <= seg_D s)%nat /\ (0 <= 1 < Z.of_nat (2 * 2) - 1)%Z.
Proof. cbv zeta. split; [repeat constructor|]. split; [reflexivity|]. split; [lia|]. split; [cbn; lia|lia]. Qed.

Example C38_example : exists o1 o2, perfect_root_finder perfect_rf /\ (1 < 2 * 2 - 1)%nat /\
  List.Forall vertex_wf exl_vs /\ set_up 2 (perfect_inv 2) perfect_solve 1 exl_vs 1 o1 /\
  computes_segments (@CallSolve R) /\ run_ocall 2 (perfect_inv 2) perfect_solve o1 CallSolve = Ok o2.
Proof.
  destruct exl_solved as (o1 & o2 & S & H & _). exists o1, o2. split; [apply perfect_rf_ok|]. split; [lia|].
  split; [exact exl_wf'|]. split; [exact S|]. split; [exact I|exact H].
Qed.
