(** Specification notions for the nonlinear optimiser. *)
From Coq Require Import ZArith Reals List Bool.
From Verif Require Import Num RSum ModelSegment ModelVertex ModelLinear SpecSegment SpecLinear ModelNonlinear.
Import ListNotations.

Section SpecNonlinear.
  Context {T : Type} {ops : NumOps T}.

  (** The points at which an nlopt run evaluates the objective, in order. *)
  Fixpoint points_asked (h : nat) (rf : list T -> bool * list (T * T))
           (obj : nlo T -> bool -> list T -> outcome (nlo T * T * list T))
           (n : nlo T) (r : nlopt_run T) : list (list T) :=
    match r with
    | NlObjective grad x k =>
        x :: match obj n grad x with
             | Ok (n', v, g) => points_asked h rf obj n' (k v g)
             | _ => []
             end
    | NlConstraint grad j x k =>
        match nth_error (nl_hard n) j with
        | Some c => match nl_magnitudeConstraint h rf n grad c with
                    | Ok (n', v) => points_asked h rf obj n' (k v)
                    | _ => []
                    end
        | None => []
        end
    | _ => []
    end.

  (** The vector [times, free constraints of dimension 0, of dimension 1, ...]
      as described in polynomial_optimization_nonlinear.h:239-240: the i-th
      time and the i-th free constraint of dimension d. *)
  Definition times_of (nseg : nat) (x : list T) : list T := firstn nseg x.
  Definition free_of (nseg nfree d : nat) (x : list T) : list T :=
    firstn nfree (skipn (nseg + d * nfree) x).

  (** The (vertex, derivative) pairs below order h that no constraint fixes, by
      vertex, then by order. *)
  Definition unconstrained (h : nat) (vs : list (vertex T)) : list (nat * nat) :=
    flat_map (fun v => map (pair v)
                (filter (fun k => match vertex_get (nth v vs (mkVertex 0 [])) (Z.of_nat k) with
                                  | Some _ => false | None => true end) (seq 0 h)))
             (seq 0 (length vs)).

  (** The value of the last constraint for an order, if there is one. *)
  Fixpoint last_limit (con : list (Z * T)) (derivative : Z) : option T :=
    match con with
    | [] => None
    | (d, v) :: con' =>
        match last_limit con' derivative with
        | Some x => Some x
        | None => if (d =? derivative)%Z then Some v else None
        end
    end.

  (** The cost of the total time in optimizeTimeAndFreeConstraints: linear for the
      Richter method, else quadratic. *)
  Definition time_cost (n : nlo T) (total : T) : T :=
    match np_method (nl_par n) with
    | kRichterTimeAndConstraints => nmul total (np_penalty (nl_par n))
    | _ => nmul (nmul total total) (np_penalty (nl_par n))
    end.

  (** Calls that change an optimiser object; NInner uses the reference returned by
      getPolynomialOptimizationRef. *)
  Inductive ncall :=
  | NSetup (vs : list (vertex T)) (times : list T) (derivative : Z)
  | NSolve
  | NConstraint (accept : bool) (derivative : Z) (value : T)
  | NOptimize (algorithm : nlopt_algorithm (T := T))
  | NScale
  | NTotalCost
  | NInner (c : ocall T).
  Section NCalls.
    Context (h : nat) (inv : mat T -> mat T) (solve : mat T -> list T -> list T).
    Context (rf : list T -> bool * list (T * T)) (fexp : T -> T).
    Definition run_ncall (n : nlo T) (c : ncall) : outcome (nlo T) :=
      match c with
      | NSetup vs times r => nl_setupFromVertices h inv n vs times r
      | NSolve => nl_solveLinear h solve n
      | NConstraint accept d v => r <-- nl_addConstraint accept n d v ;; Ok (snd r)
      | NOptimize algorithm => r <-- nl_optimize h inv solve rf fexp algorithm n ;; Ok (fst r)
      | NScale => nl_scaleWithViolation h inv solve rf n
      | NTotalCost => r <-- nl_getTotalCost h rf fexp n ;; Ok (fst r)
      | NInner c => o <-- run_ocall h inv solve (nl_opt n) c ;; Ok (set_opt n o)
      end.
    Fixpoint run_ncalls (n : nlo T) (cs : list ncall) : outcome (nlo T) :=
      match cs with
      | [] => Ok n
      | c :: cs' => n' <-- run_ncall n c ;; run_ncalls n' cs'
      end.
    Definition no_nsetup (c : ncall) : Prop :=
      match c with NSetup _ _ _ => False | NInner c => no_setup c | _ => True end.
    (** n was set up with vs and r by some history of calls on a new object; no
        later setup followed. *)
    Definition nl_set_up (dim : nat) (p : nl_params T) (vs : list (vertex T)) (r : Z) (n : nlo T) : Prop :=
      exists pre times mid m0 m1,
        run_ncalls (nl_new dim p) pre = Ok m0 /\
        nl_setupFromVertices h inv m0 vs times r = Ok m1 /\
        List.Forall no_nsetup mid /\ run_ncalls m1 mid = Ok n.
  End NCalls.
End SpecNonlinear.

(** V is the largest norm of the d-th derivative along the segments. *)
Definition is_peak (dim d : nat) (segs : list (segment R)) (V : R) : Prop :=
  (forall j t, (j < length segs)%nat -> (0 <= t <= seg_time (nth j segs no_seg))%R ->
     (sqrt (rsum dim (fun k => seg_fun (nth j segs no_seg) k d t ^ 2)) <= V)%R) /\
  (exists j t, (j < length segs)%nat /\ (0 <= t <= seg_time (nth j segs no_seg))%R /\
     V = sqrt (rsum dim (fun k => seg_fun (nth j segs no_seg) k d t ^ 2))).

(** The d-th derivative in dimension k at vertex v, from either side. *)
Definition vertex_value (segs : list (segment R)) (v d k : nat) (x : R) : Prop :=
  ((v < length segs)%nat -> seg_fun (nth v segs no_seg) k d 0 = x) /\
  ((0 < v <= length segs)%nat ->
     seg_fun (nth (v - 1) segs no_seg) k d (seg_time (nth (v - 1) segs no_seg)) = x).

(** Cost of one soft constraint with the given weight, cap, peak and limit. *)
Definition soft_cost (weight cap peak limit : R) : R :=
  Rmin cap (exp (weight * ((peak - limit) / limit))).
