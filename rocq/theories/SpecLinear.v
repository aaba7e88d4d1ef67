(** Specification notions for the linear optimiser; independent of the model's
    matrix code. *)
From Coq Require Import ZArith Reals List Sorted.
From Coquelicot Require Import Coquelicot.
From Verif Require Import Num RSum SpecPoly ModelPolynomial ModelSegment SpecSegment ModelVertex SpecVertex ModelLinear.
Import ListNotations.
Open Scope R_scope.

(** Entry of an n x m product and the identity. *)
Definition prod_entry (n : nat) (A B : mat R) (i j : nat) : R :=
  rsum n (fun k => nth k (nth i A []) 0 * nth j (nth k B []) 0).
Definition is_inverse (n : nat) (A B : mat R) : Prop :=
  forall i j, (i < n)%nat -> (j < n)%nat ->
    prod_entry n A B i j = (if Nat.eqb i j then 1 else 0) /\
    prod_entry n B A i j = (if Nat.eqb i j then 1 else 0).
(** A matrix with n rows of length m. *)
Definition mat_dims {T} (n m : nat) (A : mat T) : Prop :=
  length A = n /\ List.Forall (fun r => length r = m) A.

(** Requirement on Eigen's inverse() for n x n matrices: correct on every
    matrix that has an inverse. *)
Definition inverse_ok (n : nat) (inv : mat R -> mat R) : Prop :=
  forall D, mat_dims n n D -> (exists E, is_inverse n D E) -> is_inverse n D (inv D).
(** Requirement on SparseQR: it returns a solution of every square system that
    has one. *)
Definition solver_ok (solve : mat R -> list R -> list R) : Prop :=
  forall n A b, mat_dims n n A -> length b = n ->
    length (solve A b) = n /\
    ((exists x, forall i, (i < n)%nat -> rsum n (fun k => nth k (nth i A []) 0 * x k) = nth i b 0) ->
     forall i, (i < n)%nat ->
       rsum n (fun k => nth k (nth i A []) 0 * nth k (solve A b) 0) = nth i b 0).

(** The default of list accesses; never used in range. *)
Definition no_vertex : vertex R := mkVertex 0 [].
Definition no_seg : segment R := mkSegment 0 [] 0.

(** A chain of segments of given dimension, number of coefficients and times. *)
Definition chain_shape (N dim : nat) (times : list R) (segs : list (segment R)) : Prop :=
  length segs = length times /\
  forall i, (i < length times)%nat ->
    seg_time (nth i segs no_seg) = nth i times 0 /\
    seg_N (nth i segs no_seg) = N /\
    seg_D (nth i segs no_seg) = dim /\
    seg_wf (nth i segs no_seg).

(** The segments next to vertex i have the constrained values of derivatives
    0..h-1 there. *)
Definition meets_constraints (h dim : nat) (vs : list (vertex R)) (segs : list (segment R)) : Prop :=
  forall i k x d, (i < length vs)%nat -> (k < h)%nat -> (d < dim)%nat ->
    vertex_get (nth i vs no_vertex) (Z.of_nat k) = Some x ->
    ((i < length segs)%nat -> seg_fun (nth i segs no_seg) d k 0 = nth d x 0) /\
    ((0 < i)%nat -> seg_fun (nth (i - 1) segs no_seg) d k (seg_time (nth (i - 1) segs no_seg)) = nth d x 0).

(** Derivatives 0..h-1 agree where two segments meet. *)
Definition smooth_chain (h dim : nat) (segs : list (segment R)) : Prop :=
  forall i k d, (S i < length segs)%nat -> (k < h)%nat -> (d < dim)%nat ->
    seg_fun (nth i segs no_seg) d k (seg_time (nth i segs no_seg)) =
    seg_fun (nth (S i) segs no_seg) d k 0.

(** ks lists the (vertex, derivative) pair of every column of M: first the
    constrained pairs, then the free ones, each in increasing order.  Row k
    (h + k) of the block of segment i selects derivative k of vertex i (i + 1).
    fx holds the constrained values per dimension. *)
Definition key_lt (a b : nat * nat) : Prop :=
  (fst a < fst b)%nat \/ (fst a = fst b /\ (snd a < snd b)%nat).
Definition pair_dec (a b : nat * nat) : {a = b} + {a <> b}.
Proof. repeat decide equality. Defined.
Definition reordering_ok (h : nat) (vs : list (vertex R)) (nseg dim nf np : nat) (M : mat R)
           (fx : list (list R)) (ks : list (nat * nat)) : Prop :=
  length ks = (nf + np)%nat /\
  (nf + np)%nat = (length vs * h)%nat /\
  StronglySorted key_lt (firstn nf ks) /\
  StronglySorted key_lt (skipn nf ks) /\
  (forall v k, In (v, k) (firstn nf ks) <->
     (v < length vs)%nat /\ (k < h)%nat /\ exists x, vertex_get (nth v vs no_vertex) (Z.of_nat k) = Some x) /\
  (forall v k, In (v, k) (skipn nf ks) <->
     (v < length vs)%nat /\ (k < h)%nat /\ vertex_get (nth v vs no_vertex) (Z.of_nat k) = None) /\
  mat_dims (nseg * (2 * h)) (nf + np) M /\
  (forall i k j, (i < nseg)%nat -> (k < h)%nat -> (j < nf + np)%nat ->
     nth j (nth (i * (2 * h) + k) M []) 0 = (if pair_dec (nth j ks (0, 0)%nat) (i, k) then 1 else 0) /\
     nth j (nth (i * (2 * h) + (h + k)) M []) 0 = (if pair_dec (nth j ks (0, 0)%nat) (S i, k) then 1 else 0)) /\
  (forall d j, (d < dim)%nat -> (j < nf)%nat ->
     let (v, k) := nth j ks (0, 0)%nat in
     exists x, vertex_get (nth v vs no_vertex) (Z.of_nat k) = Some x /\
       nth j (nth d fx []) 0 = nth d x 0).

(** Integral over the whole chain of the squared norm of derivative r. *)
Definition integral_cost (r dim : nat) (segs : list (segment R)) : R :=
  lsum (map (fun s => rsum dim (fun d =>
    RInt (fun t => seg_fun s d r t ^ 2) 0 (seg_time s))) segs).

(** Calls that change an optimiser object. *)
Inductive ocall (T : Type) :=
| CallSetup (vs : list (vertex T)) (times : list T) (derivative : Z)
| CallTimes (times : list T)
| CallFree (free : list (list T))
| CallSolve.
Arguments CallSetup {T}. Arguments CallTimes {T}. Arguments CallFree {T}. Arguments CallSolve {T}.

Section Calls.
  Context {T : Type} {ops : NumOps T}.
  Context (h : nat) (inv : mat T -> mat T) (solve : mat T -> list T -> list T).
  Definition run_ocall (o : opt T) (c : ocall T) : outcome (opt T) :=
    match c with
    | CallSetup vs times r => opt_setupFromVertices h inv o vs times r
    | CallTimes times => opt_updateSegmentTimes h inv o times
    | CallFree free => opt_setFreeConstraints h o free
    | CallSolve => opt_solveLinear h solve o
    end.
  Fixpoint run_ocalls (o : opt T) (cs : list (ocall T)) : outcome (opt T) :=
    match cs with
    | [] => Ok o
    | c :: cs' => o' <-- run_ocall o c ;; run_ocalls o' cs'
    end.
  Definition no_setup (c : ocall T) : Prop :=
    match c with CallSetup _ _ _ => False | _ => True end.
  (** The last call computed the segments. *)
  Definition computes_segments (c : ocall T) : Prop :=
    match c with CallFree _ | CallSolve => True | _ => False end.
  (** o was set up with vs and r by some history of calls on a new object; no
      later setup followed. *)
  Definition set_up (dim : nat) (vs : list (vertex T)) (r : Z) (o : opt T) : Prop :=
    exists pre times mid o0 o1,
      run_ocalls (opt_new dim) pre = Ok o0 /\
      opt_setupFromVertices h inv o0 vs times r = Ok o1 /\
      List.Forall no_setup mid /\ run_ocalls o1 mid = Ok o.
End Calls.
