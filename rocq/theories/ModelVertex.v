(** Model of Vertex and the free functions of
    mav_trajectory_generation/include/mav_trajectory_generation/vertex.h,
    mav_trajectory_generation/src/vertex.cpp. *)
From Coq Require Import ZArith List Bool.
From Verif Require Import Num ModelPolynomial.
Import ListNotations.

(** vertex.h:109-111: members D_ and constraints_ (std::map<int, VectorXd>).
    The map is an association list with strictly increasing keys. *)
Record vertex (T : Type) := mkVertex {
  v_D : nat;
  v_con : list (Z * list T)
}.
Arguments mkVertex {T} _ _.
Arguments v_D {T} _.
Arguments v_con {T} _.

(** std::map operations: find, operator[]= (insert or overwrite), erase. *)
Fixpoint map_find {A : Type} (m : list (Z * A)) (k : Z) : option A :=
  match m with
  | [] => None
  | (k', v) :: m' => if (k =? k')%Z then Some v else map_find m' k
  end.
Fixpoint map_set {A : Type} (m : list (Z * A)) (k : Z) (v : A) : list (Z * A) :=
  match m with
  | [] => [(k, v)]
  | (k', v') :: m' =>
      if (k =? k')%Z then (k, v) :: m'
      else if (k <? k')%Z then (k, v) :: (k', v') :: m'
      else (k', v') :: map_set m' k v
  end.
Fixpoint map_erase {A : Type} (m : list (Z * A)) (k : Z) : list (Z * A) :=
  match m with
  | [] => []
  | (k', v') :: m' => if (k =? k')%Z then m' else (k', v') :: map_erase m' k
  end.

(** motion_defines.h:29 derivative_order::POSITION. *)
Definition kPosition : Z := 0.

(** vertex.h:147 getHighestDerivativeFromN: N / 2 - 1 (int division truncates). *)
Definition getHighestDerivativeFromN (N : Z) : Z := (Z.quot N 2 - 1)%Z.

Section Vertex.
  Context {T : Type} {ops : NumOps T}.
  Local Open Scope num_scope.

  (** vertex.h:51 Vertex(size_t dimension). *)
  Definition vertex_new (D : nat) : vertex T := mkVertex D [].

  (** vertex.h:58-60 addConstraint(int, double). *)
  Definition vertex_add_scalar (v : vertex T) (d : Z) (x : T) : vertex T :=
    mkVertex (v_D v) (map_set (v_con v) d (repeat x (v_D v))).

  (** vertex.cpp:130-134 addConstraint(int, VectorXd). *)
  Definition vertex_add (v : vertex T) (d : Z) (x : list T) : outcome (vertex T) :=
    if Nat.eqb (length x) (v_D v) then Ok (mkVertex (v_D v) (map_set (v_con v) d x)) else Abort.

  (** vertex.cpp:136-145 removeConstraint: returned flag and new state. *)
  Definition vertex_remove (v : vertex T) (d : Z) : bool * vertex T :=
    match map_find (v_con v) d with
    | Some _ => (true, mkVertex (v_D v) (map_erase (v_con v) d))
    | None => (false, v)
    end.

  (** vertex.cpp:147-153 makeStartOrEnd; orders 1..up_to. *)
  Definition vertex_makeStartOrEnd (v : vertex T) (x : list T) (up_to : Z) : outcome (vertex T) :=
    v1 <-- vertex_add v kPosition x ;;
    Ok (fold_left (fun v i => mkVertex (v_D v) (map_set (v_con v) (Z.of_nat i) (repeat n0 (v_D v))))
                  (seq 1 (Z.to_nat up_to)) v1).

  (** vertex.h:76-78 makeStartOrEnd(double, int). *)
  Definition vertex_makeStartOrEnd_scalar (v : vertex T) (x : T) (up_to : Z) : outcome (vertex T) :=
    vertex_makeStartOrEnd v (repeat x (v_D v)) up_to.

  (** vertex.cpp:155-163 getConstraint; None: returns false, output untouched. *)
  Definition vertex_get (v : vertex T) (d : Z) : option (list T) := map_find (v_con v) d.

  (** vertex.cpp:165-168 hasConstraint. *)
  Definition vertex_has (v : vertex T) (d : Z) : bool :=
    match map_find (v_con v) d with Some _ => true | None => false end.

  (** vertex.h:100 getNumberOfConstraints. *)
  Definition vertex_count (v : vertex T) : nat := length (v_con v).

  (** Eigen isZero(tol): every entry satisfies |x| <= 1 * tol.  The subtraction of
      vectors of different sizes is undefined. *)
  Definition diff_isZero (x y : list T) (tol : T) : outcome bool :=
    if Nat.eqb (length x) (length y)
    then Ok (forallb (fun p => nabs (fst p - snd p) <=? tol) (combine x y))
    else UB.

  (** vertex.cpp:170-182 isEqualTol. *)
  Fixpoint equal_tol_loop (m rhs : list (Z * list T)) (tol : T) : outcome bool :=
    match m with
    | [] => Ok true
    | (k, x) :: m' =>
        match map_find rhs k with
        | None => Ok false
        | Some y =>
            b <-- diff_isZero x y tol ;;
            if b then equal_tol_loop m' rhs tol else Ok false
        end
    end.
  Definition vertex_isEqualTol (v rhs : vertex T) (tol : T) : outcome bool :=
    if negb (Nat.eqb (length (v_con v)) (length (v_con rhs))) then Ok false
    else equal_tol_loop (v_con v) (v_con rhs) tol.

  (** vertex.cpp:184-207 getSubdimension: the returned flag and *subvertex (a
      distinct object).  Element access beyond a constraint's size is undefined. *)
  Definition vertex_getSubdimension (v : vertex T) (dims : list nat) (max_order : Z)
    : outcome (bool * vertex T) :=
    let sub := vertex_new (length dims) in
    if existsb (fun k => Nat.leb (v_D v) k) dims then Ok (false, sub)
    else
      r <-- ofold (fun sv c =>
                     if (max_order <? fst c)%Z then Ok sv
                     else x <-- omap (oget (snd c)) dims ;;
                          vertex_add sv (fst c) x) (v_con v) sub ;;
      Ok (true, r).

  (** Euclidean norm of a vector (Eigen norm()); sum in index order. *)
  Definition vec_norm (x : list T) : T :=
    nsqrt (fold_left (fun acc a => acc + a * a) x n0).
  (** Eigen difference of equally long vectors. *)
  Definition vec_sub (x y : list T) : outcome (list T) :=
    if Nat.eqb (length x) (length y)
    then Ok (map (fun p => fst p - snd p) (combine x y)) else UB.

  (** vertex.cpp:274-290 computeTimeVelocityRamp. *)
  Definition ramp_time (distance v_max a_max : T) : T :=
    let acc_time := v_max / a_max in
    let acc_distance := nlit 5 10 * v_max * acc_time in
    if distance <? nofZ 2 * acc_distance
    then nofZ 2 * nsqrt (distance / a_max)
    else nofZ 2 * acc_time + (distance - nofZ 2 * acc_distance) / v_max.
  Definition computeTimeVelocityRamp (start goal : list T) (v_max a_max : T) : outcome T :=
    diff <-- vec_sub start goal ;;
    Ok (ramp_time (vec_norm diff) v_max a_max).

  (** Position constraint as read by the estimators: a missing constraint leaves
      the Eigen vector empty. *)
  Definition position_or_empty (v : vertex T) : list T :=
    match vertex_get v kPosition with Some x => x | None => [] end.

  (** Consecutive pairs vertices[i], vertices[i+1]. *)
  Fixpoint pairs {A : Type} (l : list A) : list (A * A) :=
    match l with
    | a :: ((b :: _) as l') => (a, b) :: pairs l'
    | _ => []
    end.

  (** vertex.cpp:233-253 estimateSegmentTimesVelocityRamp.  [time_factor] is a
      parameter of the C++ function that its body does not use. *)
  Definition estimateSegmentTimesVelocityRamp (vertices : list (vertex T))
             (v_max a_max time_factor : T) : outcome (list T) :=
    if Nat.ltb (length vertices) 2 then Abort
    else omap (fun p =>
                 t <-- computeTimeVelocityRamp (position_or_empty (fst p))
                         (position_or_empty (snd p)) v_max a_max ;;
                 Ok (nmax (nlit 1 10) t)) (pairs vertices).

  (** vertex.cpp:255-272 estimateSegmentTimesNfabian; [fexp] is exp. *)
  Definition nfabian_time (fexp : T -> T) (distance v_max a_max magic : T) : T :=
    distance / v_max * nofZ 2 * (n1 + magic * v_max / a_max * fexp (- distance / v_max * nofZ 2)).
  Definition estimateSegmentTimesNfabian (fexp : T -> T) (vertices : list (vertex T))
             (v_max a_max magic : T) : outcome (list T) :=
    if Nat.ltb (length vertices) 2 then Abort
    else omap (fun p =>
                 diff <-- vec_sub (position_or_empty (snd p)) (position_or_empty (fst p)) ;;
                 Ok (nfabian_time fexp (vec_norm diff) v_max a_max magic)) (pairs vertices).

  (** vertex.cpp:228-231 estimateSegmentTimes (default constant 6.5, vertex.h:139-141). *)
  Definition estimateSegmentTimes (fexp : T -> T) (vertices : list (vertex T))
             (v_max a_max : T) : outcome (list T) :=
    estimateSegmentTimesNfabian fexp vertices v_max a_max (nlit 65 10).

  (** vertex.cpp:84-120 createSquareVertices.  reserve(4 * rounds) with rounds < 0
      throws std::length_error.  center is a Vector3d. *)
  Definition square_corners (center : T * T * T) (side : T) : list T * list T * list T * list T :=
    let '(cx, cy, cz) := center in
    let h := side / nofZ 2 in
    ([cx - h; cy - h; cz], [cx - h; cy + h; cz], [cx + h; cy + h; cz], [cx + h; cy - h; cz]).
  (** vertices.front() / back() replaced by f applied to it. *)
  Definition update_last {A : Type} (f : A -> outcome A) (l : list A) : outcome (list A) :=
    match rev l with
    | [] => UB
    | x :: l' => y <-- f x ;; Ok (rev l' ++ [y])
    end.
  Definition createSquareVertices (max_derivative : Z) (center : T * T * T) (side : T) (rounds : Z)
    : outcome (list (vertex T)) :=
    let '(p1, p2, p3, p4) := square_corners center side in
    v1 <-- vertex_add (vertex_new 3) kPosition p1 ;;
    v2 <-- vertex_add (vertex_new 3) kPosition p2 ;;
    v3 <-- vertex_add (vertex_new 3) kPosition p3 ;;
    v4 <-- vertex_add (vertex_new 3) kPosition p4 ;;
    if (rounds <? 0)%Z then Throw
    else
      first <-- vertex_makeStartOrEnd v1 p1 max_derivative ;;
      let l := first :: concat (repeat [v2; v3; v4; v1] (Z.to_nat rounds)) in
      update_last (fun v => vertex_makeStartOrEnd v p1 max_derivative) l.

  (** vertex.cpp:27-82 createRandomVertices.  The random source is a function
      [draw n lo hi]: the n-th number requested, from the uniform distribution
      on [lo, hi) (undefined for hi < lo).  [fuel] bounds the number of attempts
      of the while(true) loop at 64-71; None: fuel exhausted. *)
  Definition draw_vector (draw : nat -> T -> T -> T) (n : nat) (lo hi : list T) : list T :=
    map (fun i => draw (n + i)%nat (nth i lo n0) (nth i hi n0)) (seq 0 (length lo)).
  Fixpoint draw_far (draw : nat -> T -> T -> T) (fuel n : nat) (lo hi last : list T)
    : option (nat * list T) :=
    match fuel with
    | O => None
    | S k =>
        let pos := draw_vector draw n lo hi in
        let n' := (n + length lo)%nat in
        if nlit 2 10 <? vec_norm (map (fun p => fst p - snd p) (combine pos last))
        then Some (n', pos)
        else draw_far draw k n' lo hi last
    end.
  Fixpoint random_loop (draw : nat -> T -> T -> T) (fuel n k : nat) (lo hi last : list T)
    : outcome (option (list (vertex T) * list T)) :=
    match k with
    | O => Ok (Some ([], last))
    | S k' =>
        match draw_far draw fuel n lo hi last with
        | None => Ok None
        | Some (n', pos) =>
            v <-- vertex_add (vertex_new (length lo)) kPosition pos ;;
            r <-- random_loop draw fuel n' k' lo hi pos ;;
            match r with
            | None => Ok None
            | Some (vs, last') => Ok (Some (v :: vs, last'))
            end
        end
    end.
  Definition createRandomVertices (draw : nat -> T -> T -> T) (fuel : nat)
             (max_derivative : Z) (n_segments : nat) (lo hi : list T)
    : outcome (option (list (vertex T))) :=
    if Nat.ltb n_segments 1 then Abort
    else if negb (Nat.eqb (length lo) (length hi)) then Abort
    else if negb (nlit 2 10 <=? vec_norm (map (fun p => fst p - snd p) (combine hi lo))) then Abort
    else if (max_derivative <=? 0)%Z then Abort
    else if existsb (fun p => snd p <? fst p) (combine lo hi) then UB
    else
      let first_pos := draw_vector draw 0 lo hi in
      first <-- vertex_makeStartOrEnd (vertex_new (length lo)) first_pos max_derivative ;;
      r <-- random_loop draw fuel (length lo) n_segments lo hi first_pos ;;
      match r with
      | None => Ok None
      | Some (vs, last) =>
          l <-- update_last (fun v => vertex_makeStartOrEnd v last max_derivative) (first :: vs) ;;
          Ok (Some l)
      end.

  (** vertex.cpp:122-128 createRandomVertices1D. *)
  Definition createRandomVertices1D (draw : nat -> T -> T -> T) (fuel : nat)
             (max_derivative : Z) (n_segments : nat) (lo hi : T) :=
    createRandomVertices draw fuel max_derivative n_segments [lo] [hi].
End Vertex.
