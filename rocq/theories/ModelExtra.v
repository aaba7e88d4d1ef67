(** Model of the sampled candidates of the optimization
    (impl/polynomial_optimization_linear_impl.h), of the random path and the
    timing run of src/polynomial_timing_evaluation.cpp, and of test_utils.h. *)
From Coq Require Import ZArith List Bool.
From Verif Require Import Num ModelPolynomial ModelSegment ModelVertex ModelTrajectory ModelLinear.
Import ListNotations.

Section Extra.
  Context {T : Type} `{NumOps T}.
  Local Open Scope num_scope.

  (** polynomial_optimization_linear_impl.h:432-452, the sampling loop.  [v] is
      the norm of value_new, [direction] the last difference of the norms.
      std::signbit(x) is modelled as x < 0: a difference of two norms is never
      -0, and the sign of a NaN is left out.  [fuel] bounds the iterations;
      None: bound reached. *)
  Fixpoint sampling_loop (fuel : nat) (derivative : Z) (s : segment T) (t_stop dt t t_old v direction : T)
           (last_sample : bool) (candidates : list T) : outcome (option (list T)) :=
    match fuel with
    | O => Ok None
    | S k =>
        if t <=? t_stop then
          value_new <-- seg_evaluate s t derivative ;;
          let v' := ModelLinear.vec_norm value_new in
          let direction_new := v' - v in
          candidates' <--
            (if xorb (direction <? n0) (direction_new <? n0) then
               value_deriv <-- seg_evaluate s t_old (derivative + 1) ;;
               Ok (if ModelLinear.vec_norm value_deriv <? nlit 1 100 then candidates ++ [t_old] else candidates)
             else Ok candidates) ;;
          let clip := (t_stop <? t + dt) && negb last_sample in
          let t' := if clip then t_stop - dt else t in
          sampling_loop k derivative s t_stop dt (t' + dt) t v' direction_new (last_sample || clip) candidates'
        else Ok (Some candidates)
    end.

  (** 411-457 computeSegmentMaximumMagnitudeCandidatesBySampling; [candidates] is
      the content of the caller's vector, which is not cleared.  The pointer is
      assumed not to be null (418). *)
  Definition opt_candidatesBySampling (fuel : nat) (derivative : Z) (s : segment T) (t_start t_stop dt : T)
             (candidates : list T) : outcome (option (list T)) :=
    let candidates := candidates ++ [t_start] in
    value_new <-- seg_evaluate s (t_start + dt) derivative ;;
    value_old <-- seg_evaluate s t_start derivative ;;
    let v := ModelLinear.vec_norm value_new in
    r <-- sampling_loop fuel derivative s t_stop dt (t_start + dt + dt) (t_start + dt) v
            (v - ModelLinear.vec_norm value_old) false candidates ;;
    match r with
    | None => Ok None
    | Some l => Ok (Some (if neqb (last l n0) t_stop then l else l ++ [t_stop]))
    end.

  (** polynomial_timing_evaluation.cpp:70-75: draw points of the cube [-1, 1)^dim
      until one has a norm above 0.2. *)
  Fixpoint draw_direction (draw : nat -> T -> T -> T) (fuel n dim : nat) : option (nat * list T) :=
    match fuel with
    | O => None
    | S k =>
        let p := draw_vector draw n (repeat (- n1) dim) (repeat n1 dim) in
        if nlit 2 10 <? ModelVertex.vec_norm p then Some ((n + dim)%nat, p)
        else draw_direction draw k (n + dim)%nat dim
    end.
  (** 77: position_sample.normalized() * random_distance(generator).  Eigen's
      normalized divides by the norm if its square is positive. *)
  Definition scaled_sample (p : list T) (r : T) : list T :=
    map (fun x => (if n0 <? fold_left (fun acc a => acc + a * a) p n0 then x / ModelVertex.vec_norm p else x) * r) p.
  (** 67-86, the loop over the vertices after the first one: the vertices and the
      last value of last_position. *)
  Fixpoint path_loop (draw : nat -> T -> T -> T) (fuel n k dim : nat) (average_distance : T) (last_position : list T)
    : outcome (option (list (vertex T) * list T)) :=
    match k with
    | O => Ok (Some ([], last_position))
    | S k' =>
        match draw_direction draw fuel n dim with
        | None => Ok None
        | Some (n', p) =>
            let sample := scaled_sample p (draw n' n0 (nofZ 2 * average_distance)) in
            v <-- vertex_add (vertex_new dim) kPosition (map (fun c => fst c + snd c) (combine sample last_position)) ;;
            r <-- path_loop draw fuel (S n') k' dim average_distance sample ;;
            match r with
            | None => Ok None
            | Some (vs, l) => Ok (Some (v :: vs, l))
            end
        end
    end.
  (** 34-89 createRandomVerticesPath.  The generator is a function [draw n lo hi]
      as for createRandomVertices; a negative average distance is outside the
      domain of the distribution (43-44).  A negative dimension (46, resize throws)
      is not modelled. *)
  Definition createRandomVerticesPath (draw : nat -> T -> T -> T) (fuel dim : nat) (n_segments : nat)
             (average_distance : T) (maximum_derivative : Z) : outcome (option (list (vertex T))) :=
    if Nat.ltb n_segments 1 then Abort
    else if (maximum_derivative <=? 0)%Z then Abort
    else if nofZ 2 * average_distance <? n0 then UB
    else
      let first_position := draw_vector draw 0 (repeat (- n1) dim) (repeat n1 dim) in
      first <-- vertex_makeStartOrEnd (vertex_new dim) first_position maximum_derivative ;;
      r <-- path_loop draw fuel dim n_segments dim average_distance first_position ;;
      match r with
      | None => Ok None
      | Some (vs, l) =>
          l' <-- update_last (fun v => vertex_makeStartOrEnd v l maximum_derivative) (first :: vs) ;;
          Ok (Some l')
      end.

  (** 91-115 timeEval, with N = 10 and SNAP (28-32) and without the timer.  The
      results of setupFromVertices and solveLinear are ignored as in the code. *)
  Definition timeEval (inv : mat T -> mat T) (solve : mat T -> list T -> list T) (fexp : T -> T)
             (draw : nat -> T -> T -> T) (fuel n_segments : nat) (average_distance : T)
    : outcome (option (opt T * bool)) :=
    r <-- createRandomVerticesPath draw fuel 3 n_segments average_distance 4 ;;
    match r with
    | None => Ok None
    | Some vertices =>
        times <-- estimateSegmentTimes fexp vertices (nofZ 2) (nofZ 2) ;;
        o1 <-- opt_setupFromVertices 5 inv (opt_new 3) vertices times 4 ;;
        o2 <-- opt_solveLinear 5 solve o1 ;;
        Ok (Some (o2, true))
    end.

  (** test_utils.h:31-35 createRandomDouble; [r] is std::rand(). *)
  Definition createRandomDouble (RAND_MAX r : Z) (min max : T) : T :=
    (max - min) * (nofZ r / nofZ RAND_MAX) + min.

  (** test_utils.h:37-41 checkMatrices: Eigen's maxCoeff compares in the order of
      the coefficients and is undefined on an empty matrix; matrices of different
      size violate an assertion of Eigen. *)
  Definition checkMatrices (rows cols : nat) (m1 m2 : list T) (tol : T) : outcome bool :=
    if negb (Nat.eqb (length m1) (rows * cols)) || negb (Nat.eqb (length m2) (rows * cols)) then UB
    else match map (fun p => nabs (fst p - snd p)) (combine m1 m2) with
         | [] => UB
         | d :: ds => Ok (fold_left (fun m x => if m <? x then x else m) ds d <? tol)
         end.

  (** test_utils.h:43-54 getMaximumMagnitude; the sampling loop with a bound on
      the iterations. *)
  Fixpoint magnitude_loop (fuel : nat) (tr : trajectory T) (derivative : Z) (dt ts maximum : T) : outcome (option T) :=
    match fuel with
    | O => Ok None
    | S k =>
        if ts <? tr_max_time tr then
          v <-- traj_evaluate tr ts derivative ;;
          let current_value := ModelLinear.vec_norm v in
          magnitude_loop k tr derivative dt (ts + dt) (if maximum <? current_value then current_value else maximum)
        else Ok (Some maximum)
    end.
  Definition getMaximumMagnitude (fuel : nat) (tr : trajectory T) (derivative : Z) (dt : T) : outcome (option T) :=
    magnitude_loop fuel tr derivative dt n0 (- nofZ 1000000000).

  (** test_utils.h:56-64 computeCostNumeric. *)
  Fixpoint cost_loop (fuel : nat) (tr : trajectory T) (derivative : Z) (dt ts cost : T) : outcome (option T) :=
    match fuel with
    | O => Ok None
    | S k =>
        if ts <? tr_max_time tr then
          v <-- traj_evaluate tr ts derivative ;;
          cost_loop k tr derivative dt (ts + dt) (cost + nsum (length v) (fun i => vget v i * vget v i) * dt)
        else Ok (Some cost)
    end.
  Definition computeCostNumeric (fuel : nat) (tr : trajectory T) (derivative : Z) (dt : T) : outcome (option T) :=
    cost_loop fuel tr derivative dt n0 n0.
End Extra.
