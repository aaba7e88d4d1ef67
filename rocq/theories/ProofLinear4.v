(** solveLinear minimises the integral cost (real instance). *)
From Coq Require Import ZArith Reals List Bool Lia Lra Arith Sorted.
From Coquelicot Require Import Coquelicot.
From Verif Require Import Num RSum SpecPoly ModelPolynomial ModelSegment ModelVertex ModelTrajectory ModelLinear
  SpecSegment SpecVertex SpecLinear ProofPolynomial ProofPolynomial2 ProofSegment ProofSegment2 ProofVertex ProofTrajectory3
  ProofMatrix ProofHermite ProofReorder ProofLinear ProofLinear2 ProofLinear3.
Import ListNotations.
Open Scope R_scope.

Lemma bil_row n A x y : bil n A x y = rsum n (fun a => x a * rsum n (fun b => A a b * y b)).
Proof.
  unfold bil. apply rsum_ext. intros a _. rewrite <- rsum_scal. apply rsum_ext. intros; ring.
Qed.

Lemma bil_sandwich n m (P Q U : nat -> nat -> R) x y :
  bil n (fun a b => rsum m (fun s => rsum m (fun r => P r a * U r s) * Q s b)) x y =
  bil m U (fun r => rsum n (fun a => P r a * x a)) (fun s => rsum n (fun b => Q s b * y b)).
Proof.
  rewrite !bil_row.
  rewrite (rsum_ext n _ (fun a => x a * rsum m (fun r => P r a *
             rsum m (fun s => U r s * rsum n (fun b => Q s b * y b))))).
  2:{ intros a _. f_equal.
      rewrite <- (rsum_assoc m n (fun s => rsum m (fun r => P r a * U r s)) Q y).
      rewrite <- (rsum_assoc m m (fun r => P r a) U (fun s => rsum n (fun b => Q s b * y b))). reflexivity. }
  rewrite (rsum_assoc n m x (fun a r => P r a) (fun r => rsum m (fun s => U r s * rsum n (fun b => Q s b * y b)))).
  apply rsum_ext. intros r _. f_equal. apply rsum_ext. intros; ring.
Qed.

Lemma rsum_mul n m f : rsum (n * m) f = rsum n (fun i => rsum m (fun p => f (i * m + p)%nat)).
Proof.
  induction n as [|n IH]; [reflexivity|]. replace (S n * m)%nat with (n * m + m)%nat by lia.
  rewrite rsum_split, IH. reflexivity.
Qed.

Lemma bil_blocks n m B x y : (0 < m)%nat ->
  bil (n * m) (fun r s => if Nat.eqb (r / m) (s / m) then B (r / m)%nat (r mod m) (s mod m) else 0) x y =
  rsum n (fun i => bil m (B i) (fun p => x (i * m + p)%nat) (fun q => y (i * m + q)%nat)).
Proof.
  intros Hm. unfold bil. rewrite rsum_mul. apply rsum_ext. intros i Hi. apply rsum_ext. intros p Hp.
  rewrite rsum_mul.
  assert (Hd : forall j q, (q < m)%nat -> ((j * m + q) / m = j)%nat).
  { intros j q Hq. rewrite Nat.div_add_l by lia. rewrite Nat.div_small by exact Hq. lia. }
  assert (Hmd : forall j q, (q < m)%nat -> ((j * m + q) mod m = q)%nat).
  { intros j q Hq. rewrite Nat.add_comm, Nat.mod_add by lia. apply Nat.mod_small. exact Hq. }
  rewrite (rsum_ext n _ (fun j => if Nat.eqb j i then rsum m (fun q => x (i * m + p)%nat * B i p q * y (i * m + q)%nat) else 0)).
  { rewrite (rsum_delta n i (fun _ => rsum m (fun q => x (i * m + p)%nat * B i p q * y (i * m + q)%nat))) by exact Hi. reflexivity. }
  intros j Hj. destruct (Nat.eqb_spec j i) as [->|Hne].
  - apply rsum_ext. intros q Hq. rewrite !Hd, !Hmd, Nat.eqb_refl by assumption. reflexivity.
  - apply rsum_zero. intros q Hq. rewrite !Hd by assumption. destruct (Nat.eqb_spec i j); [lia|ring].
Qed.

(** Quadratic minimisation over the last np variables. *)
Section Quad.
  Context (nf np : nat) (A : nat -> nat -> R).
  Notation n := (nf + np)%nat.
  Hypothesis Asym : forall x y, bil n A x y = bil n A y x.
  Hypothesis Apos : forall x, 0 <= bil n A x x.

  Lemma bil_plus_l x y z : bil n A (fun i => x i + y i) z = bil n A x z + bil n A y z.
  Proof. unfold bil. rewrite <- rsum_plus. apply rsum_ext. intros i _. rewrite <- rsum_plus. apply rsum_ext. intros; ring. Qed.
  Lemma bil_scal_l t x z : bil n A (fun i => t * x i) z = t * bil n A x z.
  Proof. unfold bil. rewrite <- rsum_scal. apply rsum_ext. intros i _. rewrite <- rsum_scal. apply rsum_ext. intros; ring. Qed.
  Lemma bil_expand x z : bil n A (fun i => x i + z i) (fun i => x i + z i) = bil n A x x + 2 * bil n A z x + bil n A z z.
  Proof.
    rewrite bil_plus_l, (Asym x), (Asym z (fun i => x i + z i)), !bil_plus_l. rewrite (Asym x z). ring.
  Qed.

  Lemma quad_min x y :
    (forall a, (a < nf)%nat -> x a = y a) ->
    (forall i, (i < np)%nat -> rsum n (fun b => A (nf + i)%nat b * x b) = 0) ->
    bil n A x x <= bil n A y y.
  Proof.
    intros Hxy Hz.
    assert (E : bil n A y y = bil n A (fun i => x i + (y i - x i)) (fun i => x i + (y i - x i))).
    { apply bil_ext_vec; intros; ring. }
    rewrite E, (bil_expand x (fun i => y i - x i)).
    assert (B0 : bil n A (fun i => y i - x i) x = 0).
    { rewrite bil_row, rsum_split. rewrite rsum_zero by (intros a Ha; rewrite Hxy by exact Ha; ring).
      rewrite rsum_zero by (intros i Hi; rewrite Hz by exact Hi; ring). ring. }
    rewrite B0. specialize (Apos (fun i => y i - x i)). lra.
  Qed.

  (** A null vector of the form is orthogonal to everything. *)
  Lemma bil_null z w : bil n A z z = 0 -> bil n A z w = 0.
  Proof.
    intros Hz.
    assert (H : forall t, 0 <= bil n A w w + 2 * t * bil n A z w).
    { intros t. assert (P := Apos (fun i => w i + t * z i)). rewrite (bil_expand w (fun i => t * z i)) in P.
      rewrite bil_scal_l in P. rewrite (bil_scal_l t z (fun i => t * z i)), (Asym z (fun i => t * z i)), bil_scal_l, Hz in P. lra. }
    destruct (Req_dec (bil n A z w) 0) as [E|E]; [exact E|exfalso].
    specialize (H (- (bil n A w w + 1) / (2 * bil n A z w))).
    replace (bil n A w w + 2 * (- (bil n A w w + 1) / (2 * bil n A z w)) * bil n A z w) with (-1) in H by (field; exact E).
    lra.
  Qed.

  (** The normal equations are solvable for every fixed part. *)
  Lemma normal_solvable (f : nat -> R) :
    exists x, forall i, (i < np)%nat ->
      rsum np (fun k => A (nf + i)%nat (nf + k)%nat * x k) = rsum nf (fun k => - A (nf + i)%nat k * f k).
  Proof.
    destruct (fredholm np np (fun i k => A (nf + i)%nat (nf + k)%nat)
                (fun i => rsum nf (fun k => - A (nf + i)%nat k * f k))) as [H|(y & Hy & Hb)]; [exact H|exfalso].
    apply Hb. clear Hb.
    set (z := fun a => if Nat.ltb a nf then 0 else y (a - nf)%nat).
    set (w := fun a => if Nat.ltb a nf then f a else 0).
    assert (Zl : forall g, rsum n (fun a => z a * g a) = rsum np (fun i => y i * g (nf + i)%nat)).
    { intros g. rewrite rsum_split. rewrite rsum_zero.
      2:{ intros a Ha. unfold z. destruct (Nat.ltb_spec a nf); [ring|lia]. }
      rewrite Rplus_0_l. apply rsum_ext. intros i Hi. unfold z. destruct (Nat.ltb_spec (nf + i) nf); [lia|].
      replace (nf + i - nf)%nat with i by lia. reflexivity. }
    assert (Hzz : bil n A z z = 0).
    { rewrite bil_row, (Zl (fun a => rsum n (fun b => A a b * z b))).
      rewrite (rsum_ext np _ (fun i => y i * rsum np (fun k => A (nf + i)%nat (nf + k)%nat * y k))).
      2:{ intros i Hi. f_equal. rewrite (rsum_ext n _ (fun b => z b * A (nf + i)%nat b)) by (intros; ring).
          rewrite (Zl (fun b => A (nf + i)%nat b)). apply rsum_ext. intros; ring. }
      rewrite (rsum_assoc np np y (fun i k => A (nf + i)%nat (nf + k)%nat) y).
      apply rsum_zero. intros k Hk. rewrite Hy by exact Hk. ring. }
    assert (Hzw := bil_null z w Hzz). rewrite bil_row, (Zl (fun a => rsum n (fun b => A a b * w b))) in Hzw.
    rewrite (rsum_ext np _ (fun i => - (y i * rsum n (fun b => A (nf + i)%nat b * w b)))).
    { rewrite rsum_opp, Hzw. ring. }
    intros i Hi. rewrite rsum_split. rewrite (rsum_zero np) by (intros k Hk; unfold w; destruct (Nat.ltb_spec (nf + k) nf); [lia|ring]).
    rewrite (rsum_ext nf (fun k => - A (nf + i)%nat k * f k) (fun k => - (A (nf + i)%nat k * w k))).
    { rewrite rsum_opp. ring. }
    intros k Hk. unfold w. destruct (Nat.ltb_spec k nf); [ring|lia].
  Qed.
End Quad.

Section Optimal.
  Context (h : nat) (inv : mat R -> mat R).
  Notation N := (2 * h)%nat.
  Implicit Types (o : opt R) (vs : list (vertex R)).

  (** Coefficients of segment i as a function of all compact values. *)
  Definition cf o (i : nat) (x : nat -> R) (a : nat) : R :=
    rsum N (fun p => mget (nth i (o_inv o) []) a p *
      rsum (o_nfixed o + o_nfree o) (fun j => mget (o_reorder o) (i * N + p) j * x j)).

  Lemma coeffs_cf o d i a : (a < N)%nat ->
    nth a (coeffs_of h o d i) 0 = cf o i (vget (nth d (o_fixed o) [] ++ nth d (o_free o) [])) a.
  Proof.
    intros Ha. unfold coeffs_of. change (nth a (mat_vec N N (nth i (o_inv o) []) (end_derivs h o d i)) 0)
      with (vget (mat_vec N N (nth i (o_inv o) []) (end_derivs h o d i)) a).
    rewrite vget_mat_vec by exact Ha. unfold cf. apply rsum_ext. intros p Hp. f_equal.
    unfold end_derivs. rewrite vget_mk by exact Hp. rewrite nsum_rsum. reflexivity.
  Qed.

  Lemma cost_block_entry (Ai Q : mat R) p q : (p < N)%nat -> (q < N)%nat ->
    mget (cost_block h Ai Q) p q = rsum N (fun s => rsum N (fun r => mget Ai r p * mget Q r s) * mget Ai s q).
  Proof.
    intros Hp Hq. unfold cost_block, opt_N. rewrite mget_mul by assumption. apply rsum_ext. intros s Hs.
    f_equal. rewrite mget_mul by assumption. apply rsum_ext. intros r Hr. f_equal.
    unfold mat_tr. rewrite mget_mk by assumption. reflexivity.
  Qed.

  Definition Jform o (x y : nat -> R) : R :=
    rsum (o_nseg o) (fun i => bil N (cost_entry (Z.to_nat (o_deriv o)) (nth i (o_times o) 0)) (cf o i x) (cf o i y)).

  Lemma constructR_form vs o : prepared h inv vs o -> (0 < o_nseg o)%nat ->
    exists Rm, opt_constructR h o = Ok Rm /\
      forall x y, bil (o_nfixed o + o_nfree o) (mget Rm) x y = Jform o x y.
  Proof.
    intros P Hn. assert (Hh := prepared_h h inv vs o 0 P Hn).
    assert (Hall : o_nall o = (o_nseg o * N)%nat).
    { rewrite (pr_nall _ _ _ _ P). apply all_length; [apply (pr_nseg _ _ _ _ P)|lia]. }
    destruct (prepared_sized h inv vs o P) as (L1 & L2 & _).
    assert (L3 : length (o_cost o) = o_nseg o).
    { destruct (pr_mats _ _ _ _ P) as (ms & Em & Ei & Ec). rewrite Ec, map_length, (omap_length _ _ _ Em). exact L2. }
    unfold opt_constructR, opt_N. rewrite Hall.
    destruct (Nat.eqb_spec (o_nseg o * N) (N * o_nseg o)) as [_|]; [|lia]. cbn [negb].
    rewrite (omap_ok _ (fun i => cost_block h (nth i (o_inv o) []) (nth i (o_cost o) []))).
    2:{ intros i Hi. apply in_seq in Hi. rewrite (oget_nth _ _ ([] : mat R)) by lia. cbn [obind].
        rewrite (oget_nth _ _ ([] : mat R)) by lia. reflexivity. }
    cbn [obind]. eexists. split; [reflexivity|]. intros x y.
    set (Hs := map _ (seq 0 (o_nseg o))). set (n := (o_nfixed o + o_nfree o)%nat). set (na := (o_nseg o * N)%nat).
    rewrite (bil_ext n _ (fun a b => rsum na (fun s => rsum na (fun r => mget (o_reorder o) r a *
        (if Nat.eqb (r / N) (s / N) then mget (nth (r / N) Hs []) (r mod N) (s mod N) else 0)) * mget (o_reorder o) s b))).
    2:{ intros a b Ha Hb. rewrite mget_mul by assumption. apply rsum_ext. intros s Hs'. f_equal.
        rewrite mget_mul by assumption. apply rsum_ext. intros r Hr. unfold mat_tr. rewrite mget_mk by assumption.
        rewrite mget_mk by assumption. reflexivity. }
    rewrite (bil_sandwich n na (mget (o_reorder o)) (mget (o_reorder o))
      (fun r s => if Nat.eqb (r / N) (s / N) then mget (nth (r / N) Hs []) (r mod N) (s mod N) else 0)).
    unfold na. rewrite (bil_blocks (o_nseg o) N (fun i => mget (nth i Hs []))) by lia.
    unfold Jform. apply rsum_ext. intros i Hi.
    destruct (prepared_mats h inv vs o i P Hi) as (Q & A & EQ & _ & _ & EC & _).
    destruct (cost_matrix_ok h _ _ _ EQ) as (_ & _ & HQ).
    rewrite (bil_ext N _ (fun p q => rsum N (fun s => rsum N (fun r => mget (nth i (o_inv o) []) r p *
               cost_entry (Z.to_nat (o_deriv o)) (nth i (o_times o) 0) r s) * mget (nth i (o_inv o) []) s q))).
    2:{ intros p q Hp Hq. unfold Hs. rewrite nth_map_seq by exact Hi. cbn [Nat.add].
        rewrite cost_block_entry by assumption. rewrite EC. apply rsum_ext. intros s Hs'. f_equal.
        apply rsum_ext. intros r Hr. rewrite HQ by assumption. reflexivity. }
    rewrite (bil_sandwich N N (mget (nth i (o_inv o) [])) (mget (nth i (o_inv o) []))). reflexivity.
  Qed.

  Lemma Jform_sym o x y : Jform o x y = Jform o y x.
  Proof. unfold Jform. apply rsum_ext. intros i _. apply bil_cost_sym. Qed.
  Lemma Jform_nonneg vs o x : prepared h inv vs o -> 0 <= Jform o x x.
  Proof.
    intros P. unfold Jform. apply rsum_nonneg. intros i Hi. apply bil_cost_nonneg.
    destruct (prepared_mats h inv vs o i P Hi) as (Q & A & _ & _ & Hp & _). lra.
  Qed.

  (** Cost of the computed chain. *)
  Lemma chain_cost vs o : prepared h inv vs o ->
    integral_cost (Z.to_nat (o_deriv o)) (o_dim o) (chain_of h o) =
    / 2 * rsum (o_dim o) (fun d => let x := vget (nth d (o_fixed o) [] ++ nth d (o_free o) []) in Jform o x x).
  Proof.
    intros P. rewrite integral_cost_rsum. destruct (chain_of_shape h o) as (_ & ->).
    rewrite rsum_swap, <- rsum_scal. apply rsum_ext. intros d Hd. cbn zeta. unfold Jform. rewrite <- rsum_scal.
    apply rsum_ext. intros i Hi.
    assert (E : nth i (chain_of h o) no_seg = mkSegment N (map (fun d => coeffs_of h o d i) (seq 0 (o_dim o))) (nth i (o_times o) 0)).
    { unfold chain_of. rewrite nth_map_seq by exact Hi. reflexivity. }
    assert (Ec : nth d (seg_polys (nth i (chain_of h o) no_seg)) [] = coeffs_of h o d i).
    { rewrite E. cbn [seg_polys]. rewrite nth_map_seq by exact Hd. reflexivity. }
    rewrite (seg_cost_bil _ d _ N) by (rewrite Ec; apply coeffs_of_length).
    rewrite Ec, E. cbn [seg_time]. f_equal. apply bil_ext_vec; intros a Ha; apply coeffs_cf; exact Ha.
  Qed.

  (** Competing values of the free constraints beat nothing. *)
  Lemma free_optimal vs o o2 : prepared h inv vs o -> prepared h inv vs o2 ->
    o2 = with_free o (o_free o2) -> free_sized o -> free_sized o2 ->
    (0 < o_nseg o)%nat -> forall Rm, opt_constructR h o = Ok Rm ->
    (forall d i, (d < o_dim o)%nat -> (i < o_nfree o)%nat ->
       rsum (o_nfixed o + o_nfree o) (fun b => mget Rm (o_nfixed o + i) b * vget (nth d (o_fixed o) [] ++ nth d (o_free o) []) b) = 0) ->
    integral_cost (Z.to_nat (o_deriv o)) (o_dim o) (chain_of h o) <=
    integral_cost (Z.to_nat (o_deriv o)) (o_dim o) (chain_of h o2).
  Proof.
    intros P P2 E2 F1 F2 Hn Rm ER HR.
    destruct (constructR_form vs o P Hn) as (Rm' & ER' & HF). rewrite ER in ER'. apply Ok_inj in ER'. subst Rm'.
    assert (Ed : o_dim o2 = o_dim o) by (rewrite E2; reflexivity).
    assert (Er : o_deriv o2 = o_deriv o) by (rewrite E2; reflexivity).
    assert (Ef : o_fixed o2 = o_fixed o) by (rewrite E2; reflexivity).
    assert (EJ : forall x y, Jform o2 x y = Jform o x y).
    { intros x y. rewrite E2. reflexivity. }
    rewrite (chain_cost vs o P). rewrite <- Er, <- Ed, (chain_cost vs o2 P2), Ed, Ef.
    apply Rmult_le_compat_l; [lra|]. apply rsum_le. intros d Hd. cbn zeta. rewrite EJ.
    rewrite <- !HF. apply quad_min.
    - intros x y. rewrite !HF. apply Jform_sym.
    - intros x. rewrite HF. apply (Jform_nonneg vs). exact P.
    - intros a Ha. unfold vget. destruct (prepared_sized h inv vs o P) as (_ & _ & _ & _ & L5).
      rewrite !app_nth1 by (rewrite L5; assumption). reflexivity.
    - intros i Hi. apply HR; assumption.
  Qed.

  (** Node value of an unconstrained derivative. *)
  Lemma node_free vs o d v k : prepared h inv vs o -> (v < length vs)%nat -> (k < h)%nat -> (d < o_dim o)%nat ->
    vertex_get (nth v vs dvert) (Z.of_nat k) = None ->
    exists j, (j < o_nfree o)%nat /\
      nth j (free_set h (o_dim o) vs (o_nseg o)) (mkCon 0 0 []) = mkCon v k (repeat 0 (o_dim o)) /\
      node h vs o d v k = nth j (nth d (o_free o) []) 0.
  Proof.
    intros P Hv Hk Hd Hx. destruct (con_position h inv vs o v k P Hv Hk) as (j & Hj & Ej & ->).
    assert (Hn := pr_nseg _ _ _ _ P).
    assert (Hc : snd (con_at (o_dim o) vs v k) = mkCon v k (repeat 0 (o_dim o))) by (unfold con_at; rewrite Hx; reflexivity).
    rewrite Hc in Ej.
    assert (Hfr : In (mkCon v k (repeat 0 (o_dim o))) (free_set h (o_dim o) vs (o_nseg o))).
    { apply free_set_spec; [exact Hn|]. exists v, k. repeat split; try assumption. lia. }
    destruct (In_nth _ _ (mkCon 0 0 []) Hfr) as (j' & Hj' & Ej').
    assert (Lf := pr_nfixed _ _ _ _ P). assert (Lp := pr_nfree _ _ _ _ P).
    assert (j = (o_nfixed o + j')%nat).
    { apply (cols_inj h (o_dim o) vs (o_nseg o) Hn j _ (mkCon 0 0 [])).
      - rewrite (cols_len h inv vs o P). exact Hj.
      - unfold cols. rewrite app_length. lia.
      - rewrite Ej. unfold cols. rewrite app_nth2 by lia. rewrite Lf.
        replace (length (fixed_set h (o_dim o) vs (o_nseg o)) + j' - length (fixed_set h (o_dim o) vs (o_nseg o)))%nat with j' by lia.
        rewrite Ej'. reflexivity. }
    exists j'. split; [lia|]. split; [exact Ej'|]. subst j.
    destruct (prepared_sized h inv vs o P) as (_ & _ & _ & _ & L5).
    unfold vget. rewrite app_nth2 by (rewrite L5 by exact Hd; lia). rewrite L5 by exact Hd. do 2 f_equal. lia.
  Qed.

  (** Derivative k at vertex v of a chain. *)
  Definition vertex_deriv (segs : list (segment R)) (d v k : nat) : R :=
    if Nat.ltb v (length segs) then seg_fun (nth v segs no_seg) d k 0
    else seg_fun (nth (v - 1) segs no_seg) d k (seg_time (nth (v - 1) segs no_seg)).
  Definition free_of vs o (segs : list (segment R)) : list (list R) :=
    map (fun d => map (fun c => vertex_deriv segs d (con_vertex c) (con_idx c)) (free_set h (o_dim o) vs (o_nseg o)))
        (seq 0 (o_dim o)).

  Lemma competitor_chain vs o segs : inverse_ok h inv -> prepared h inv vs o -> times_ok o -> (0 < o_nseg o)%nat ->
    chain_shape N (o_dim o) (o_times o) segs -> meets_constraints h (o_dim o) vs segs -> smooth_chain h (o_dim o) segs ->
    let o2 := with_free o (free_of vs o segs) in
    prepared h inv vs o2 /\ free_sized o2 /\ chain_of h o2 = segs.
  Proof.
    intros Hinv P Ht Hn0 (Ls & Hsh) Hm Hsm o2. assert (Hn := pr_nseg _ _ _ _ P).
    rewrite (pr_times _ _ _ _ P) in Ls, Hsh.
    assert (P2 : prepared h inv vs o2).
    { apply with_free_prepared; [exact P|]. unfold free_of. rewrite map_length, seq_length. reflexivity. }
    assert (F2 : free_sized o2).
    { intros d Hd. cbn [o2 with_free o_free o_nfree o_dim] in *. unfold free_of. rewrite nth_map_seq by exact Hd.
      rewrite map_length. symmetry. apply (pr_nfree _ _ _ _ P). }
    split; [exact P2|]. split; [exact F2|].
    assert (Hnode : forall d v k, (d < o_dim o)%nat -> (v < length vs)%nat -> (k < h)%nat -> node h vs o2 d v k = vertex_deriv segs d v k).
    { intros d v k Hd Hv Hk. destruct (vertex_get (nth v vs dvert) (Z.of_nat k)) as [x|] eqn:Ex.
      - rewrite (node_fixed h inv vs o2 d v k x) by assumption.
        rewrite dvert_no in Ex. destruct (Hm v k x d Hv Hk Hd Ex) as (M1 & M2).
        unfold vertex_deriv. destruct (Nat.ltb_spec v (length segs)); symmetry; [apply M1; assumption|apply M2; lia].
      - destruct (node_free vs o2 d v k P2 Hv Hk Hd Ex) as (j & Hj & Ej & ->).
        cbn [o2 with_free o_free o_nfree o_dim o_nseg] in *. unfold free_of. rewrite nth_map_seq by exact Hd.
        rewrite (nth_map_lt _ _ _ (mkCon 0 0 [])).
        2:{ rewrite <- (pr_nfree _ _ _ _ P). exact Hj. }
        rewrite Ej. reflexivity. }
    assert (Hh := prepared_h h inv vs o 0 P Hn0).
    apply (nth_ext _ _ no_seg no_seg).
    { rewrite (proj2 (chain_of_shape h o2)). cbn [o2 with_free o_nseg]. symmetry. exact Ls. }
    intros i Hi. rewrite (proj2 (chain_of_shape h o2)) in Hi. cbn [o2 with_free o_nseg] in Hi.
    destruct (Hsh i Hi) as (Et & EN & ED & Hw).
    unfold chain_of. rewrite nth_map_seq by exact Hi. cbn [Nat.add o2 with_free o_nseg o_dim o_times].
    destruct (nth i segs no_seg) as [sN sp st] eqn:Es. cbn [seg_N seg_time] in EN, Et. unfold seg_D in ED. cbn [seg_polys] in ED.
    f_equal; [symmetry; exact EN| |symmetry; exact Et].
    apply (nth_ext _ _ [] []); [rewrite map_length, seq_length; symmetry; exact ED|].
    intros d Hd. rewrite map_length, seq_length in Hd. rewrite nth_map_seq by exact Hd. cbn [Nat.add]. fold o2.
    assert (Lp : length (nth d sp []) = N).
    { rewrite <- EN. apply (seg_wf_nth (mkSegment sN sp st)); [exact Hw|]. unfold seg_D. cbn [seg_polys]. lia. }
    apply (nth_ext _ _ 0 0); [rewrite coeffs_of_length; symmetry; exact Lp|].
    intros a Ha. rewrite coeffs_of_length in Ha.
    destruct (prepared_mats h inv vs o2 i P2 Hi) as (Q & A & EQ & EA & Hpos & _ & Ei).
    assert (Hti : / 2 ^ 52 <= nth i (o_times o) 0).
    { unfold times_ok in Ht. rewrite Forall_forall in Ht. apply Ht. apply nth_In. rewrite (pr_times _ _ _ _ P). exact Hi. }
    assert (HI := invert_mapping_inverse h inv _ A Hh Hinv Hti EA).
    unfold coeffs_of. rewrite Ei.
    change (nth a (mat_vec N N (invert_mapping h inv A) (end_derivs h o2 d i)) 0)
      with (vget (mat_vec N N (invert_mapping h inv A) (end_derivs h o2 d i)) a).
    rewrite vget_mat_vec by exact Ha.
    rewrite (rsum_ext N _ (fun p => mget (invert_mapping h inv A) a p * rsum N (fun j => mget A p j * nth j (nth d sp []) 0))).
    - rewrite (inverse_cancel N (invert_mapping h inv A) A (fun j => nth j (nth d sp []) 0) a); [reflexivity| |exact Ha].
      intros p q Hp Hq. destruct (HI p q Hp Hq). split; assumption.
    - intros p Hp. f_equal. rewrite (end_derivs_node h inv vs) by (try assumption; exact Hi).
      assert (Hfun : forall k t, seg_fun (nth i segs no_seg) d k t = dpoly (nth d sp []) k t).
      { intros k t. rewrite seg_fun_dpoly, Es. reflexivity. }
      destruct (Nat.ltb_spec p h) as [Lph|Lph].
      + rewrite Hnode by (try assumption; lia).
        destruct (mapping_derivs h _ A (nth d sp []) p Hh EA Lp Lph Hti) as (D0 & _). rewrite D0.
        unfold vertex_deriv. destruct (Nat.ltb_spec i (length segs)); [|lia]. apply Hfun.
      + rewrite Hnode by (try assumption; lia).
        destruct (mapping_derivs h _ A (nth d sp []) (p - h) Hh EA Lp ltac:(lia) Hti) as (_ & D1).
        replace (h + (p - h))%nat with p in D1 by lia. rewrite D1.
        assert (Est : seg_time (nth i segs no_seg) = nth i (o_times o) 0) by (rewrite Es; exact Et).
        unfold vertex_deriv. cbn [o2 with_free o_times]. destruct (Nat.ltb_spec (S i) (length segs)).
        * rewrite <- (Hsm i (p - h)%nat d) by (try assumption; lia). rewrite Est. apply Hfun.
        * replace (S i - 1)%nat with i by lia. rewrite Est. apply Hfun.
  Qed.

  Lemma solve_free_equations solve vs o o' : solver_ok solve -> prepared h inv vs o -> (0 < o_nseg o)%nat ->
    (0 < o_nfree o)%nat -> opt_solveLinear h solve o = Ok o' ->
    exists Rm, opt_constructR h o = Ok Rm /\
      (forall d i, (d < o_dim o)%nat -> (i < o_nfree o)%nat ->
       rsum (o_nfixed o + o_nfree o) (fun b => mget Rm (o_nfixed o + i) b * vget (nth d (o_fixed o) [] ++ nth d (o_free o') []) b) = 0).
  Proof.
    intros Hsol P Hn Hf H. destruct (constructR_form vs o P Hn) as (Rm & ER & HF). exists Rm. split; [exact ER|].
    destruct (prepared_sized h inv vs o P) as (_ & _ & _ & L4 & L5).
    unfold opt_solveLinear in H. destruct (_ || _); [discriminate|].
    destruct (Nat.eqb_spec (o_nfree o) 0); [lia|]. rewrite ER in H. cbn [obind] in H.
    set (nf := o_nfixed o) in *. set (np := o_nfree o) in *.
    set (Rpf := mk_mat np nf (fun i j => mget Rm (nf + i) j)) in *.
    set (Rpp := mk_mat np np (fun i j => mget Rm (nf + i) (nf + j))) in *.
    rewrite (omap_ok _ (fun d => solve Rpp (mk_vec np (fun i => nsum nf (fun k => nmul (nopp (mget Rpf i k)) (vget (nth d (o_fixed o) []) k)))))) in H.
    2:{ intros d Hd. apply in_seq in Hd. rewrite (oget_nth _ _ ([] : list R)) by lia. reflexivity. }
    cbn [obind] in H.
    set (dps := map _ (seq 0 (o_dim o))) in H.
    destruct (update_prepared h inv vs (with_free o dps) o') as (_ & _ & E'); [|exact H|].
    { apply with_free_prepared; [exact P|]. unfold dps. rewrite map_length, seq_length. reflexivity. }
    assert (Ef : o_free o' = dps) by (rewrite E'; reflexivity).
    intros d i Hd Hi. rewrite Ef. unfold dps. rewrite nth_map_seq by exact Hd. cbn [Nat.add].
    set (b := mk_vec np _).
    destruct (Hsol np Rpp b) as (Ls & Hs).
    { apply mk_mat_dims. }
    { apply mk_vec_length. }
    assert (Hb : forall j, (j < np)%nat -> nth j b 0 = rsum nf (fun k => - mget Rm (nf + j) k * vget (nth d (o_fixed o) []) k)).
    { intros j Hj. change (nth j b 0) with (vget b j). unfold b. rewrite vget_mk by exact Hj. rewrite nsum_rsum.
      apply rsum_ext. intros k Hk. unfold Rpf. rewrite mget_mk by assumption. reflexivity. }
    assert (Hpp : forall j k, (j < np)%nat -> (k < np)%nat -> nth k (nth j Rpp []) 0 = mget Rm (nf + j) (nf + k)).
    { intros j k Hj Hk. change (nth k (nth j Rpp []) 0) with (mget Rpp j k). unfold Rpp. rewrite mget_mk by assumption. reflexivity. }
    assert (Hex : exists x, forall i, (i < np)%nat -> rsum np (fun k => nth k (nth i Rpp []) 0 * x k) = nth i b 0).
    { destruct (normal_solvable nf np (mget Rm)) with (f := vget (nth d (o_fixed o) [])) as (x & Hx).
      - intros u w. rewrite !HF. apply Jform_sym.
      - intros u. rewrite HF. apply (Jform_nonneg vs). exact P.
      - exists x. intros j Hj. rewrite Hb by exact Hj. rewrite <- (Hx j Hj). apply rsum_ext. intros k Hk.
        rewrite Hpp by assumption. reflexivity. }
    specialize (Hs Hex i Hi). rewrite Hb in Hs by exact Hi.
    rewrite rsum_split.
    rewrite (rsum_ext nf _ (fun k => - (- mget Rm (nf + i) k * vget (nth d (o_fixed o) []) k))).
    2:{ intros k Hk. unfold vget. rewrite app_nth1 by (rewrite L5 by exact Hd; exact Hk). ring. }
    rewrite rsum_opp, <- Hs.
    rewrite (rsum_ext np (fun k => mget Rm (nf + i) (nf + k) * _) (fun k => nth k (nth i Rpp []) 0 * nth k (solve Rpp b) 0)).
    - ring.
    - intros k Hk. rewrite Hpp by assumption. f_equal. unfold vget.
      rewrite app_nth2 by (rewrite L5 by exact Hd; fold nf; lia). rewrite L5 by exact Hd. fold nf.
      replace (nf + k - nf)%nat with k by lia. reflexivity.
  Qed.
End Optimal.
