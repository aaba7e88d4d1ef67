(** Statements added after trying wrong programs: C08 (Quad_ak1 with a zero leading
    coefficient), C47 (a rejected node leaves the trajectory alone), C52 (no
    samples). *)
From Coq Require Import ZArith Reals List Bool Lia Lra String.
From Flocq Require Import IEEE754.BinarySingleNaN.
From Coquelicot Require Import Coquelicot.
From Verif Require Import Num RSum ModelPolynomial ModelSegment ModelTrajectory ModelYaml ModelIO PropIO ModelTiming ModelRpoly SpecRoots ProofRpoly2.
Import ListNotations.
Notation length := List.length.

(** ** C08: Quad_ak1 for every a, b, c that are not all zero: the zeros of
    a z^2 + b z + c; the remaining results are 0. *)
Theorem C08_quad (a b c sr si lr li : R) : quad a b c = (sr, si, (lr, li)) ->
  (a <> 0%R -> forall z, cpoly [c; b; a] z = Cmult (RtoC a) (from_roots [(sr, si); (lr, li)] z)) /\
  (a = 0%R -> b <> 0%R -> (forall x : R, b * x + c = 0 <-> x = sr)%R /\ (si, lr, li) = (0, 0, 0)%R) /\
  (a = 0%R -> b = 0%R -> (sr, si, lr, li) = (0, 0, 0, 0)%R).
Proof.
  intros E. split; [intros Ha; now apply quad_exact|].
  assert (Z : forall x : R, @neqb R R_ops x n0 = Reqb x 0) by reflexivity.
  split; intros -> Hb; unfold quad in E; rewrite !Z in E; rewrite ?(Z b) in E; destruct (Reqb_spec 0 0) as [_|N]; try (exfalso; apply N; reflexivity).
  - destruct (Reqb_spec b 0) as [?|_]; [contradiction|]. cbn [negb] in E.
    assert (E1 : sr = (- (c / b))%R) by (now inversion E). assert (E2 : (si, lr, li) = (0, 0, 0)%R) by (now inversion E).
    split; [|exact E2]. rewrite E1. intros x. split; intros H.
    + apply Rmult_eq_reg_l with b; [|exact Hb]. replace (b * - (c / b))%R with (- c)%R by (field; exact Hb). lra.
    + rewrite H. field. exact Hb.
  - subst b. destruct (Reqb_spec 0 0) as [_|N]; [|exfalso; apply N; reflexivity]. cbn [negb] in E. now inversion E.
Qed.
Print Assumptions C08_quad.
Example C08_quad_example : exists sr si lr li : R, quad 0 2 6 = (sr, si, (lr, li)) /\ sr = (-3)%R.
Proof.
  destruct (quad 0 2 6) as ((sr, si), (lr, li)) eqn:E. exists sr, si, lr, li. split; [reflexivity|].
  destruct (C08_quad 0 2 6 sr si lr li E) as (_ & H & _). destruct (H eq_refl ltac:(lra)) as (K & _). symmetry. apply K. lra.
Qed.

(** ** C47: a node that is rejected leaves the trajectory as it was. *)
Theorem C47_rejected_node_keeps_trajectory {T} {ops : NumOps T} (cd : codec T) node (tr tr' : trajectory T) :
  trajectoryFromYaml cd node tr = Ok (false, tr') -> tr' = tr.
Proof.
  unfold trajectoryFromYaml. destruct (y_get node "segments") as [n| | |]; cbn [obind]; try discriminate.
  destruct (segmentsFromYaml cd n) as [[segs|]| | |]; cbn [obind]; try discriminate.
  - destruct (traj_setSegments tr segs); cbn [obind]; discriminate.
  - intros H. injection H as <-. reflexivity.
Qed.
Print Assumptions C47_rejected_node_keeps_trajectory.
Definition kept_tr : trajectory R := mkTraj 1 2 [mkSegment 2 [[1%R; 2%R]] 1%R] 1%R.
Example C47_rejected_example :
  trajectoryFromYaml int_codec (Some (YMap [("segments", YSeq [YMap [("N", YScalar "2")]])]%string)) kept_tr = Ok (false, kept_tr).
Proof. reflexivity. Qed.
(** Reading a file that is rejected at its second segment still replaces the
    trajectory by the first one. *)
Theorem C47_rejected_file_changes_trajectory_finding : exists (load : string -> outcome yaml) (fs : files) (tr' : trajectory R),
  trajectoryFromFile int_codec load fs "f" kept_tr = Ok (false, tr') /\ map seg_polys (tr_segments tr') <> map seg_polys (tr_segments kept_tr).
Proof.
  exists (fun _ => Ok (YMap [("segments", YSeq [yseg "2" "1" [["1"; "4"]]; YMap [("N", YScalar "2")]])]))%string, (fun _ => Some ""%string).
  eexists. split; [reflexivity|]. cbn. intros [=]. lra.
Qed.
Print Assumptions C47_rejected_file_changes_trajectory_finding.

(** ** C52: an accumulator without samples. *)
Theorem C52_no_samples {T} {ops : NumOps T} (W : nat) :
  let a := acc_new (T := T) W in
  acc_TotalSamples a = 0%Z /\ acc_Sum a = n0 /\ acc_LazyVariance W a = Ok n0 /\ acc_Min a = dbl_max /\ acc_Max a = dbl_min.
Proof. cbv zeta. repeat split. Qed.
Print Assumptions C52_no_samples.
(** Its means are not numbers in binary64. *)
Theorem C52_mean_of_none_finding : exists a : accumulator b64, a = @acc_new b64 B64_ops kWindow /\
  is_nan (@acc_Mean b64 B64_ops a) = true /\ is_nan (@acc_RollingMean b64 B64_ops kWindow a) = true.
Proof. eexists. split; [reflexivity|]. split; vm_compute; reflexivity. Qed.
Print Assumptions C52_mean_of_none_finding.
