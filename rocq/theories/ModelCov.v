(** Model of drawCovariance3D of mav_visualization/include/mav_visualization/helpers.h. *)
From Coq Require Import ZArith List Bool String.
From Verif Require Import Num ModelSampling ModelMotion ModelVis.
Import ListNotations.
Notation length := List.length.

(** visualization_msgs/Marker.msg: SPHERE (helpers.h:85). *)
Definition kSPHERE : Z := 2.

Section Cov.
  Context {T : Type} {ops : NumOps T}.
  Local Open Scope num_scope.

  (** Eigen::Matrix3d (helpers.h:71, 75, 78): the list of its columns; coeff(r, c). *)
  Definition coeff (m : list (list T)) (r c : nat) : T := vx (nth c m []) r.
  (** helpers.h:75: (cov + cov.transpose()) * 0.5. *)
  Definition changed_covariance (cov : list (list T)) : list (list T) :=
    map (fun c => map (fun r => (coeff cov r c + coeff cov c r) * nlit 1 2) [0; 1; 2]%nat) [0; 1; 2]%nat.

  (** Eigen::Quaterniond(V), used at helpers.h:84: the assignment of a 3x3 matrix of Eigen
      (quaternionbase_assign_impl, not part of the repository); w, x, y, z.  The number i is the
      index of the largest diagonal entry, the first of them. *)
  Definition q_of_matrix (m : list (list T)) : list T :=
    let t := coeff m 0 0 + coeff m 1 1 + coeff m 2 2 in
    if n0 <? t then
      let s := nsqrt (t + n1) in
      let h := nlit 1 2 / s in
      [nlit 1 2 * s; (coeff m 2 1 - coeff m 1 2) * h; (coeff m 0 2 - coeff m 2 0) * h; (coeff m 1 0 - coeff m 0 1) * h]
    else
      let i1 := if coeff m 0 0 <? coeff m 1 1 then 1%nat else 0%nat in
      let i := if coeff m i1 i1 <? coeff m 2 2 then 2%nat else i1 in
      let j := Nat.modulo (i + 1) 3 in
      let k := Nat.modulo (j + 1) 3 in
      let s := nsqrt (coeff m i i - coeff m j j - coeff m k k + n1) in
      let h := nlit 1 2 / s in
      let at_ (x : nat) := if Nat.eqb x i then nlit 1 2 * s
                           else if Nat.eqb x j then (coeff m j i + coeff m i j) * h
                           else (coeff m k i + coeff m i k) * h in
      [(coeff m k j - coeff m j k) * h; at_ 0%nat; at_ 1%nat; at_ 2%nat].

  (** helpers.h:63-88 drawCovariance3D: the marker after the call.  The argument solver
      stands for Eigen::SelfAdjointEigenSolver (not part of the repository): the eigenvalues
      and the columns of the matrix of eigenvectors. *)
  Definition drawCovariance3D (solver : list (list T) -> list T * list (list T)) (mu : list T) (cov : list (list T))
             (color : list T) (n_sigma : T) (m : marker T) : marker T :=
    let '(ev, V0) := solver (changed_covariance cov) in
    let v0 := nth 0 V0 [] in
    let v1 := nth 1 V0 [] in
    let V := [v0; v1; v3_cross v0 v1] in
    let sigma := v3_scale (map nsqrt (point_msg ev)) n_sigma in
    let m1 := set_pose m (point_msg mu) (q_of_matrix V) in
    let m2 := set_scale m1 (point_msg (v3_scale sigma (nofZ 2))) in
    set_action (set_color (set_type m2 kSPHERE) color) kADD.
End Cov.
