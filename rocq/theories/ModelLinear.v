(** Model of PolynomialOptimization<N>
    (mav_trajectory_generation/include/mav_trajectory_generation/
     polynomial_optimization_linear.h and impl/polynomial_optimization_linear_impl.h;
     line numbers without file refer to the impl header).

    The static_assert at h:48 makes N even, so N = 2 * h throughout.  Eigen
    matrices are lists of rows.  Sums in matrix products run in increasing index
    order and include zero entries; Eigen's (vectorised, sparse) order differs,
    which matters for rounding only.  setupFromPositons (h:82) is declared but
    not defined in the code. *)
From Coq Require Import ZArith List Bool.
From Verif Require Import Num ModelPolynomial ModelSegment ModelVertex ModelTrajectory.
Import ListNotations.

(** Eigen::MatrixXd / SparseMatrix / Matrix<double, N, N>: a list of rows. *)
Definition mat (T : Type) := list (list T).

Section Matrix.
  Context {T : Type} {ops : NumOps T}.
  Local Open Scope num_scope.
  (** Eigen coefficient access (in range). *)
  Definition vget (v : list T) (i : nat) : T := nth i v n0.
  Definition mget (A : mat T) (i j : nat) : T := nth j (nth i A []) n0.
  (** The r x c matrix with entries f i j. *)
  Definition mk_vec (n : nat) (f : nat -> T) : list T := map f (seq 0 n).
  Definition mk_mat (r c : nat) (f : nat -> nat -> T) : mat T :=
    map (fun i => mk_vec c (f i)) (seq 0 r).
  (** Eigen operator* of an r x n and an n x c matrix, and of an r x n matrix and a vector. *)
  Definition mat_mul (r n c : nat) (A B : mat T) : mat T :=
    mk_mat r c (fun i j => nsum n (fun k => mget A i k * mget B k j)).
  Definition mat_vec (r n : nat) (A : mat T) (v : list T) : list T :=
    mk_vec r (fun i => nsum n (fun k => mget A i k * vget v k)).
  (** Eigen transpose() of an r x c matrix. *)
  Definition mat_tr (r c : nat) (A : mat T) : mat T := mk_mat c r (fun i j => mget A j i).
End Matrix.

(** h:273-293 struct Constraint. *)
Record constraint (T : Type) := mkCon {
  con_vertex : nat;
  con_idx : nat;
  con_value : list T
}.
Arguments mkCon {T} _ _ _.
Arguments con_vertex {T} _.
Arguments con_idx {T} _.
Arguments con_value {T} _.

(** h:230-268: the members. *)
Record opt (T : Type) := mkOpt {
  o_dim : nat;
  o_deriv : Z;
  o_vertices : list (vertex T);
  o_segments : list (segment T);
  o_times : list T;
  o_inv : list (mat T);
  o_cost : list (mat T);
  o_reorder : mat T;
  o_fixed : list (list T);
  o_free : list (list T);
  o_nvert : nat;
  o_nseg : nat;
  o_nall : nat;
  o_nfixed : nat;
  o_nfree : nat
}.
Arguments mkOpt {T} _ _ _ _ _ _ _ _ _ _ _ _ _ _ _.
Arguments o_dim {T} _.
Arguments o_deriv {T} _.
Arguments o_vertices {T} _.
Arguments o_segments {T} _.
Arguments o_times {T} _.
Arguments o_inv {T} _.
Arguments o_cost {T} _.
Arguments o_reorder {T} _.
Arguments o_fixed {T} _.
Arguments o_free {T} _.
Arguments o_nvert {T} _.
Arguments o_nseg {T} _.
Arguments o_nall {T} _.
Arguments o_nfixed {T} _.
Arguments o_nfree {T} _.

Section Linear.
  Context {T : Type} {ops : NumOps T}.
  Local Open Scope num_scope.
  (** h: N / 2.  inv: Eigen's inverse() of the h x h block at 168-169.
      solve: SparseQR compute() followed by solve() (366-375). *)
  Context (h : nat) (inv : mat T -> mat T) (solve : mat T -> list T -> list T).

  (** h:51-53 N; kHighestDerivativeToOptimize = N / 2 - 1. *)
  Definition opt_N : nat := 2 * h.
  Definition kHighestDerivative : Z := (Z.of_nat h - 1)%Z.

  (** 43-54 constructor; derivative_order::INVALID is -1. *)
  Definition opt_new (dim : nat) : opt T :=
    mkOpt dim (-1) [] [] [] [] [] [] (repeat [] dim) (repeat [] dim) 0 0 0 0 0.

  (** 111-121 setupMappingMatrix. *)
  Definition mapping_matrix (t : T) : outcome (mat T) :=
    a <-- omap (fun i => baseCoeffsWithTime (Z.of_nat opt_N) (Z.of_nat i) n0) (seq 0 h) ;;
    b <-- omap (fun i => baseCoeffsWithTime (Z.of_nat opt_N) (Z.of_nat i) t) (seq 0 h) ;;
    Ok (a ++ b).

  (** 142-179 invertMappingMatrix. *)
  Definition invert_mapping (A : mat T) : mat T :=
    let A_inv := mk_mat h h (fun i j => if Nat.eqb i j then n1 / mget A i i else n0) in
    let C := mk_mat h h (fun i j => mget A (h + i) j) in
    let D := mk_mat h h (fun i j => mget A (h + i) (h + j)) in
    let D_inv := inv D in
    let neg_D_inv := mk_mat h h (fun i j => - mget D_inv i j) in
    let L := mat_mul h h h (mat_mul h h h neg_D_inv C) A_inv in
    mk_mat opt_N opt_N
      (fun i j => if Nat.ltb i h
                  then (if Nat.ltb j h then mget A_inv i j else n0)
                  else (if Nat.ltb j h then mget L (i - h) j else mget D_inv (i - h) (j - h))).

  (** 567-583 computeQuadraticCostJacobian.  Row and column are counted from the
      highest coefficient in the code: entry (i, j) is written for
      i, j >= derivative with exponent i + j - 2 derivative + 1.  pow(t, e) with
      an integral e is modelled by repeated multiplication.  base_coefficients_
      has 22 rows and columns. *)
  Definition cost_matrix (derivative : Z) (t : T) : outcome (mat T) :=
    if (Z.of_nat opt_N <=? derivative)%Z then Abort
    else if (derivative <? 0)%Z || Nat.ltb kMaxConvolutionSize opt_N then UB
    else
      let d := Z.to_nat derivative in
      Ok (mk_mat opt_N opt_N
            (fun i j => if Nat.ltb i d || Nat.ltb j d then n0
                        else
                          let e := (i + j - 2 * d + 1)%nat in
                          base_coefficient d i * base_coefficient d j * npow t e
                          * nofZ 2 / nofZ (Z.of_nat e))).

  (** 285-305 updateSegmentTimes. *)
  Definition opt_updateSegmentTimes (o : opt T) (times : list T) : outcome (opt T) :=
    if negb (Nat.eqb (length times) (o_nseg o)) then Abort
    else
      ms <-- omap (fun t =>
                     if negb (n0 <? t) then Abort
                     else Q <-- cost_matrix (o_deriv o) t ;;
                          A <-- mapping_matrix t ;;
                          Ok (Q, invert_mapping A)) times ;;
      Ok (mkOpt (o_dim o) (o_deriv o) (o_vertices o) (o_segments o) times
            (map snd ms) (map fst ms) (o_reorder o) (o_fixed o) (o_free o)
            (o_nvert o) (o_nseg o) (o_nall o) (o_nfixed o) (o_nfree o)).

  (** h:274-286 Constraint::operator<, operator==; std::set::insert keeps an
      element that is already present. *)
  Definition con_ltb (a b : constraint T) : bool :=
    if Nat.ltb (con_vertex a) (con_vertex b) then true
    else if Nat.ltb (con_vertex b) (con_vertex a) then false
    else Nat.ltb (con_idx a) (con_idx b).
  Definition con_eqb (a b : constraint T) : bool :=
    Nat.eqb (con_vertex a) (con_vertex b) && Nat.eqb (con_idx a) (con_idx b).
  Fixpoint set_insert (l : list (constraint T)) (c : constraint T) : list (constraint T) :=
    match l with
    | [] => [c]
    | x :: l' => if con_ltb c x then c :: x :: l'
                 else if con_ltb x c then x :: set_insert l' c
                 else x :: l'
    end.

  (** 196-227: the constraints of one vertex with the flag has_constraint, and
      all_constraints (each interior vertex twice). *)
  Definition vertex_constraints (dim idx : nat) (v : vertex T) : list (bool * constraint T) :=
    map (fun k => match vertex_get v (Z.of_nat k) with
                  | Some x => (true, mkCon idx k x)
                  | None => (false, mkCon idx k (repeat n0 dim))
                  end) (seq 0 h).
  Fixpoint all_constraints (dim nseg idx : nat) (vs : list (vertex T))
    : list (bool * constraint T) :=
    match vs with
    | [] => []
    | v :: vs' =>
        let cs := vertex_constraints dim idx v in
        (if Nat.eqb idx 0 || Nat.eqb idx nseg then cs else cs ++ cs)
          ++ all_constraints dim nseg (S idx) vs'
    end.

  (** 181-260 setupConstraintReorderingMatrix.  Every element of fixed_constraints
      occurs in all_constraints, so every entry of fixed_constraints_compact_ is
      written; each position of the triplet list is distinct. *)
  Definition opt_setupReordering (o : opt T) : outcome (opt T) :=
    let all := all_constraints (o_dim o) (o_nseg o) 0 (o_vertices o) in
    let fixed := fold_left set_insert (map snd (filter fst all)) [] in
    let free := fold_left set_insert (map snd (filter (fun c => negb (fst c)) all)) [] in
    let M := map (fun ca => map (fun c => if con_eqb (snd ca) c then n1 else n0) (fixed ++ free)) all in
    df <-- omap (fun d => omap (fun c => oget (con_value c) d) fixed) (seq 0 (o_dim o)) ;;
    Ok (mkOpt (o_dim o) (o_deriv o) (o_vertices o) (o_segments o) (o_times o)
          (o_inv o) (o_cost o) M df (o_free o)
          (o_nvert o) (o_nseg o) (length all) (length fixed) (length free)).

  (** 83-105: drop constraints of too high order; addConstraint on vertex_tmp
      aborts if the size of a kept value is not dimension_. *)
  Definition filter_vertex (dim : nat) (v : vertex T) : outcome (vertex T) :=
    r <-- ofold (fun (st : bool * vertex T) c =>
                   if (kHighestDerivative <? fst c)%Z then Ok (false, snd st)
                   else w <-- vertex_add (snd st) (fst c) (snd c) ;; Ok (fst st, w))
                (v_con v) (true, vertex_new dim) ;;
    Ok (if fst r then v else snd r).

  (** vector::resize(n, x). *)
  Definition vec_resize {A : Type} (l : list A) (n : nat) (x : A) : list A :=
    firstn n l ++ repeat x (n - length l).

  (** 56-109 setupFromVertices.  With no vertices n_segments_ is 2^64 - 1 and
      segments_.resize throws std::length_error. *)
  Definition opt_setupFromVertices (o : opt T) (vertices : list (vertex T)) (times : list T)
             (derivative : Z) : outcome (opt T) :=
    if (derivative <? 0)%Z || (kHighestDerivative <? derivative)%Z then Abort
    else match vertices with
    | [] => Throw
    | _ :: rest =>
        let nseg := length rest in
        if negb (Nat.eqb (length vertices) (length times + 1)) then Abort
        else
          vs <-- omap (filter_vertex (o_dim o)) vertices ;;
          o1 <-- opt_updateSegmentTimes
                   (mkOpt (o_dim o) derivative vs
                      (vec_resize (o_segments o) nseg (seg_new opt_N (o_dim o))) times
                      (o_inv o) (o_cost o) (o_reorder o) (o_fixed o) (o_free o)
                      (length vertices) nseg (o_nall o) (o_nfixed o) (o_nfree o)) times ;;
          opt_setupReordering o1
    end.

  (** 278-279: segment.setTime and segment[dimension_idx] = Polynomial(N, coeffs). *)
  Definition write_segment (segs : list (segment T)) (i d : nat) (t : T) (coeffs : list T)
    : outcome (list (segment T)) :=
    s <-- oget segs i ;;
    if Nat.ltb d (seg_D s)
    then Ok (list_set segs i (mkSegment (seg_N s) (list_set (seg_polys s) d coeffs) t))
    else Abort.

  (** 262-283 updateSegmentsFromCompactConstraints.  The comma initialiser needs
      blocks that fill d_all exactly; the block of N rows has to be in range. *)
  Definition opt_updateSegments (o : opt T) : outcome (opt T) :=
    let n := (o_nfixed o + o_nfree o)%nat in
    segs <-- ofold (fun segs d =>
        df <-- oget (o_fixed o) d ;;
        dp <-- oget (o_free o) d ;;
        if negb (Nat.eqb (length df + length dp) n) then UB
        else
          let d_all := df ++ dp in
          ofold (fun segs i =>
                   if Nat.ltb (o_nall o) (i * opt_N + opt_N) then UB
                   else
                     Ai <-- oget (o_inv o) i ;;
                     t <-- oget (o_times o) i ;;
                     let new_d := mk_vec opt_N (fun r => nsum n (fun k =>
                                    mget (o_reorder o) (i * opt_N + r) k * vget d_all k)) in
                     write_segment segs i d t (mat_vec opt_N opt_N Ai new_d))
                (seq 0 (o_nseg o)) segs)
      (seq 0 (o_dim o)) (o_segments o) ;;
    Ok (mkOpt (o_dim o) (o_deriv o) (o_vertices o) segs (o_times o)
          (o_inv o) (o_cost o) (o_reorder o) (o_fixed o) (o_free o)
          (o_nvert o) (o_nseg o) (o_nall o) (o_nfixed o) (o_nfree o)).

  (** 307-336 constructR.  The product needs constraint_reordering_ to have
      N * n_segments_ rows. *)
  Definition cost_block (A Q : mat T) : mat T :=
    mat_mul opt_N opt_N opt_N (mat_mul opt_N opt_N opt_N (mat_tr opt_N opt_N A) Q) A.
  Definition opt_constructR (o : opt T) : outcome (mat T) :=
    if negb (Nat.eqb (o_nall o) (opt_N * o_nseg o)) then UB
    else
      Hs <-- omap (fun i => Ai <-- oget (o_inv o) i ;; Q <-- oget (o_cost o) i ;;
                            Ok (cost_block Ai Q)) (seq 0 (o_nseg o)) ;;
      let na := o_nall o in
      let n := (o_nfixed o + o_nfree o)%nat in
      let U := mk_mat na na (fun r c => if Nat.eqb (r / opt_N) (c / opt_N)
                                        then mget (nth (r / opt_N) Hs []) (r mod opt_N) (c mod opt_N)
                                        else n0) in
      Ok (mat_mul n na n (mat_mul n na na (mat_tr na n (o_reorder o)) U) (o_reorder o)).

  (** 338-379 solveLinear.  The result flag is always true. *)
  Definition opt_solveLinear (o : opt T) : outcome (opt T) :=
    if (o_deriv o <? 0)%Z || (kHighestDerivative <? o_deriv o)%Z then Abort
    else if Nat.eqb (o_nfree o) 0 then opt_updateSegments o
    else
      R <-- opt_constructR o ;;
      let nf := o_nfixed o in
      let np := o_nfree o in
      let Rpf := mk_mat np nf (fun i j => mget R (nf + i) j) in
      let Rpp := mk_mat np np (fun i j => mget R (nf + i) (nf + j)) in
      dps <-- omap (fun d =>
                      f <-- oget (o_fixed o) d ;;
                      Ok (solve Rpp (mk_vec np (fun i => nsum nf (fun k => - mget Rpf i k * vget f k)))))
                   (seq 0 (o_dim o)) ;;
      opt_updateSegments
        (mkOpt (o_dim o) (o_deriv o) (o_vertices o) (o_segments o) (o_times o)
           (o_inv o) (o_cost o) (o_reorder o) (o_fixed o) dps
           (o_nvert o) (o_nseg o) (o_nall o) (o_nfixed o) (o_nfree o)).

  (** 499-508 setFreeConstraints. *)
  Definition opt_setFreeConstraints (o : opt T) (free : list (list T)) : outcome (opt T) :=
    if negb (Nat.eqb (length free) (o_dim o)) then Abort
    else if negb (forallb (fun v => Nat.eqb (length v) (o_nfree o)) free) then Abort
    else opt_updateSegments
           (mkOpt (o_dim o) (o_deriv o) (o_vertices o) (o_segments o) (o_times o)
              (o_inv o) (o_cost o) (o_reorder o) (o_fixed o) free
              (o_nvert o) (o_nseg o) (o_nall o) (o_nfixed o) (o_nfree o)).

  (** 123-140 computeCost. *)
  Definition quadratic_form (Q : mat T) (c : list T) : outcome T :=
    if negb (Nat.eqb (length c) opt_N) then UB
    else Ok (nsum opt_N (fun j => nsum opt_N (fun i => vget c i * mget Q i j) * vget c j)).
  Definition opt_computeCost (o : opt T) : outcome T :=
    if negb (Nat.eqb (o_nseg o) (length (o_segments o)) && Nat.eqb (o_nseg o) (length (o_cost o)))
    then Abort
    else
      c <-- ofold (fun acc i =>
                     Q <-- oget (o_cost o) i ;;
                     s <-- oget (o_segments o) i ;;
                     ofold (fun acc d =>
                              p <-- seg_index s d ;;
                              c <-- poly_getCoefficients p 0 ;;
                              x <-- quadratic_form Q c ;;
                              Ok (acc + x)) (seq 0 (o_dim o)) acc)
                  (seq 0 (o_nseg o)) n0 ;;
      Ok (nlit 1 2 * c).

  (** h:118-121 getTrajectory into a trajectory object. *)
  Definition opt_getTrajectory (o : opt T) (tr : trajectory T) : outcome (trajectory T) :=
    traj_setSegments tr (o_segments o).

  (** 510-521 getAInverse, 538-555 getA: block diagonal matrices. *)
  Definition block_diagonal (n : nat) (Bs : list (mat T)) : mat T :=
    mk_mat (opt_N * n) (opt_N * n)
      (fun r c => if Nat.eqb (r / opt_N) (c / opt_N)
                  then mget (nth (r / opt_N) Bs []) (r mod opt_N) (c mod opt_N) else n0).
  Definition opt_getAInverse (o : opt T) : mat T := block_diagonal (o_nseg o) (o_inv o).
  Definition opt_getA (o : opt T) : outcome (mat T) :=
    As <-- omap (fun i => t <-- oget (o_times o) i ;;
                          if negb (n0 <? t) then Abort else mapping_matrix t)
                (seq 0 (o_nseg o)) ;;
    Ok (block_diagonal (o_nseg o) As).
  (** 522-527 getM, 528-536 getR. *)
  Definition opt_getM (o : opt T) : mat T := o_reorder o.
  Definition opt_getR (o : opt T) : outcome (mat T) := opt_constructR o.
  (** 556-565 getMpinv. *)
  Definition opt_getMpinv (o : opt T) : mat T :=
    let na := o_nall o in
    let n := (o_nfixed o + o_nfree o)%nat in
    let Mt := mat_tr na n (o_reorder o) in
    mk_mat n na (fun i j => mget Mt i j / nsum na (fun k => mget Mt i k)).

  (** Eigen norm(). *)
  Definition vec_norm (v : list T) : T := nsqrt (nsum (length v) (fun i => vget v i * vget v i)).

  (** 388-409 computeSegmentMaximumMagnitudeCandidates: flag and candidates (the
      callee clears the vector first). *)
  Definition opt_maxCandidates (rf : root_oracle) (derivative : Z) (s : segment T) (t_start t_stop : T)
    : outcome (bool * list T) :=
    if (Z.of_nat opt_N - derivative - 1 <=? 0)%Z then Abort
    else
      r <-- seg_candidateTimes rf s derivative t_start t_stop (map Z.of_nat (seq 0 (seg_D s))) ;;
      Ok (match r with None => (false, []) | Some ts => (true, ts) end).

  (** 465-497 computeMaximumOfMagnitude: (extremum, *candidates). *)
  Definition opt_maximumOfMagnitude (rf : root_oracle) (o : opt T) (derivative : Z)
    : outcome (extremum T * list (extremum T)) :=
    r <-- ofold (fun (st : nat * (extremum T * list (extremum T))) s =>
            c <-- opt_maxCandidates rf derivative s n0 (seg_time s) ;;
            es <-- omap (fun t => v <-- seg_evaluate s t derivative ;;
                                  Ok (mkExtremum t (vec_norm v) (Z.of_nat (fst st)))) (snd c) ;;
            Ok (S (fst st), (fold_left ext_max es (fst (snd st)), snd (snd st) ++ es)))
          (o_segments o) (0%nat, (extremum_zero, [])) ;;
    match rev (o_segments o) with
    | [] => UB
    | s :: _ =>
        v <-- seg_evaluate s (seg_time s) derivative ;;
        let e := mkExtremum (seg_time s) (vec_norm v) (Z.of_nat (o_nseg o) - 1) in
        Ok (ext_max (fst (snd r)) e, snd (snd r) ++ [e])
    end.
End Linear.
