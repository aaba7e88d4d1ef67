(** Concrete segments: examples and counterexamples for C09-C13, C63. *)
From Coq Require Import Reals Lra Lia List Arith ZArith Bool.
From Coquelicot Require Import Coquelicot.
From Verif Require Import Num RSum SpecPoly ModelPolynomial ProofPolynomial ProofPolynomial2 ExtremaMath ProofExtrema ModelSegment SpecSegment ProofSegment ProofSegment2.
Import ListNotations.
Open Scope R_scope.

(** x(t) = t - 1 on [0, 2]. *)
Definition seg_line : segment R := mkSegment 2 [[-1; 1]] 2.

Lemma seg_line_fun t : seg_fun seg_line 0 0 t = t - 1.
Proof. rewrite seg_fun_dpoly, dpoly_0. unfold poly_fun. cbn. ring. Qed.

Lemma seg_line_candidates :
  seg_candidates (fun _ => (true, [])) seg_line 0 0 2 [0%Z] =
  Ok (true, [mkExtremum 0 1 0; mkExtremum 2 1 0]).
Proof.
  assert (Hw : seg_wf seg_line) by (repeat constructor).
  assert (Hd : dims_ok seg_line [0%Z]) by (repeat constructor; cbn; lia).
  pose proof (seg_candidates_of_times (fun _ => (true, [])) seg_line 0 [0%Z] 0 2 (Some [0; 2]) Hw Hd) as H.
  change (Z.of_nat 0) with 0%Z in H. rewrite H.
  - cbn [map]. rewrite !seg_norm_single. change (Z.to_nat 0) with 0%nat. rewrite !seg_line_fun.
    replace (Rabs (0 - 1)) with 1 by (replace (0 - 1) with (- (1)) by lra; rewrite Rabs_Ropp, Rabs_R1; reflexivity).
    replace (2 - 1) with 1 by lra. rewrite Rabs_R1. reflexivity.
  - left. cbn. lia.
  - unfold seg_candidateTimes. cbn [Z.ltb Z.compare]. cbn [oget seg_polys seg_line Z.to_nat nth_error obind].
    destruct (computeMinMaxCandidates_cases (fun _ => (true, [])) [-1; 1] 0 2 0) as [_ Hc]; [cbn; lia|].
    destruct Hc as (cs & _ & _ & E); [cbn; lia|]. change (Z.of_nat 0) with 0%Z in E. rewrite E. cbn [snd].
    rewrite (proj2 (selectCandidates_spec 0 2 [])) by lra. reflexivity.
Qed.

Lemma seg_line_select mn mx :
  exists emin emax, seg_selectMinMax 0 2 [mkExtremum 0 1 0; mkExtremum 2 1 0] mn mx = Some (emin, emax) /\
    ext_value emin = 1 /\ ext_value emax = 1.
Proof.
  destruct (seg_selectMinMax_spec 0 2 [mkExtremum 0 1 0; mkExtremum 2 1 0] mn mx) as (emin & emax & E & I1 & _ & I2 & _ & _).
  - lra.
  - exists (mkExtremum 0 1 0%Z). split; [left; reflexivity|cbn; lra].
  - intros e [<-|[<-|[]]] _; cbn [ext_value]; rewrite Rabs_R1; unfold dbl_max; rnum; apply IZR_lt; reflexivity.
  - exists emin, emax. split; [exact E|].
    destruct I1 as [<-|[<-|[]]]; destruct I2 as [<-|[<-|[]]]; split; reflexivity.
Qed.

(** A circle-like 2-D motion (t, 1 - t) on [0, 1]: norm^2 = 2 t^2 - 2 t + 1. *)
Definition seg_plane : segment R := mkSegment 2 [[0; 1]; [1; -1]] 1.

Lemma seg_plane_sum t :
  lsum (map (fun k => seg_fun seg_plane (Z.to_nat k) 0 t * seg_fun seg_plane (Z.to_nat k) 1 t) [0%Z; 1%Z]) = 2 * t - 1.
Proof.
  cbn [map lsum]. rewrite !seg_fun_dpoly. rcompute. ring.
Qed.

Lemma seg_plane_rf_ok :
  rf_ok_multi (fun _ => (true, [(1 / 2, 0)])) seg_plane [0%Z; 1%Z] 0 0 1.
Proof.
  intros cs _ H. right. intros t Ht Hz. rewrite H, seg_plane_sum in Hz.
  exists 0. rewrite Rabs_R0. split; [left; apply Rinv_0_lt_compat, pow_lt; lra|].
  left. f_equal. lra.
Qed.

Lemma seg_plane_norm_bound t : 0 <= t <= 1 ->
  seg_norm seg_plane [0%Z; 1%Z] 0 t < IZR (2 ^ 1024 - 2 ^ 971).
Proof.
  intros Ht. apply Rle_lt_trans with 2; [|apply IZR_lt; reflexivity].
  unfold seg_norm. replace 2 with (sqrt (2 * 2)) by (rewrite sqrt_square; lra).
  apply sqrt_le_1_alt. cbn [map lsum]. rewrite !seg_fun_dpoly. rcompute. nra.
Qed.

(** C13 counterexample. *)
Definition seg_short : segment R := mkSegment 2 [[0; 1]] 1.
Definition seg_long3 : segment R := mkSegment 3 [[0; 0; 0]] 2.

Lemma seg_append_differing_example :
  seg_append ToOther seg_short seg_long3 = Ok (Some (mkSegment 3 [[0; 1; 0]; [0; 0; 0]] 2)).
Proof.
  rcompute. unfold Rltb. destruct (Rlt_dec 1 2); [|lra]. reflexivity.
Qed.

Lemma seg_append_equal_example :
  exists r, seg_append ToOther seg_short (mkSegment 2 [[0; 0]] 2) = Ok (Some r) /\ seg_time r = 2 /\
    seg_polys r = [[0 * 1; 1 * (1 * (1 / 2))]; [0; 0]].
Proof.
  eexists. split.
  - rcompute. unfold Rltb. destruct (Rlt_dec 1 2); [|lra]. destruct (Rlt_dec 1 2); [|lra].
    destruct (Rlt_dec 0 2); [|lra]. cbv -[Rmult IZR Rplus Ropp Rminus Rdiv Rinv]. reflexivity.
  - split; reflexivity.
Qed.

(** C63 *)
Lemma seg_append_to_this_aborts (this app : segment R) :
  (1 <= seg_N this)%nat -> seg_N this = seg_N app -> (1 <= seg_D this)%nat -> (1 <= seg_D app)%nat ->
  seg_append ToThis this app = Abort.
Proof.
  intros HN HNe HD1 HD2. unfold seg_append.
  destruct (Nat.eqb_spec (seg_N this) 0); [lia|]. destruct (Nat.eqb_spec (seg_D this) 0); [lia|].
  destruct (Nat.eqb_spec (seg_N app) 0); [lia|]. destruct (Nat.eqb_spec (seg_D app) 0); [lia|]. cbn [orb].
  cbv zeta. rewrite <- HNe, Nat.max_id, Nat.eqb_refl.
  set (cur := if (_ && _)%bool then _ else seg_polys this).
  set (ap := if (_ && _)%bool then _ else seg_polys app).
  assert (Lcur : length cur = seg_D this) by (unfold cur; destruct (_ && _)%bool; [apply map_length|reflexivity]).
  set (D1 := seg_D this) in *. set (D2 := seg_D app) in *.
  assert (H : forall a n out, (a <= D1)%nat -> (D1 < a + n)%nat -> (a + n = D1 + D2)%nat ->
     ofold (append_equal (D1 + D2) cur ap) (seq a n) out = Abort).
  { intros a n'. revert a. induction n' as [|m IH]; intros a out Ha Hlt Hs; [lia|].
    cbn [seq ofold]. unfold append_equal at 1.
    destruct (Nat.ltb_spec a (D1 + D2)); [|lia].
    destruct (Nat.ltb_spec a (length cur)).
    - rewrite (oget_nth _ _ []) by assumption. cbn [obind]. apply IH; lia.
    - reflexivity. }
  rewrite H by lia. reflexivity.
Qed.

Lemma seg_append_to_argument_same_N (this app : segment R) :
  seg_N this = seg_N app -> seg_append ToArgument this app = seg_append ToOther this app.
Proof.
  intros HN. unfold seg_append. rewrite <- HN, Nat.max_id.
  destruct (_ || _)%bool; [reflexivity|]. destruct (_ || _)%bool; [reflexivity|].
  cbv zeta. rewrite Nat.eqb_refl. reflexivity.
Qed.

Lemma seg_single_aliased_wrong :
  seg_single (mkSegment 2 [[1; 2]; [3; 4]] 5) 1 = Ok (Some (mkSegment 2 [[3; 4]] 5)) /\
  seg_single_aliased (mkSegment 2 [[1; 2]; [3; 4]] 5) 1 = UB /\
  seg_single (mkSegment 2 [[1; 2]; [3; 4]] 5) 0 = Ok (Some (mkSegment 2 [[1; 2]] 5)) /\
  seg_single_aliased (mkSegment 2 [[1; 2]; [3; 4]] 5) 0 = Ok (Some (mkSegment 2 [[0; 0]] 0)).
Proof. repeat split. Qed.

Lemma seg_append_to_argument_wrong :
  seg_append ToOther seg_short seg_long3 = Ok (Some (mkSegment 3 [[0; 1; 0]; [0; 0; 0]] 2)) /\
  seg_append ToArgument seg_short seg_long3 = Ok (Some (mkSegment 3 [[0; 1; 0]; [0; 1; 0]] 2)).
Proof.
  split; [exact seg_append_differing_example|].
  rcompute. unfold Rltb. destruct (Rlt_dec 1 2); [|lra]. reflexivity.
Qed.
