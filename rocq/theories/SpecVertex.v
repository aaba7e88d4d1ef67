(** Specification of vertices as finite maps and of rest-to-rest motions;
    independent of the model's code. *)
From Coq Require Import ZArith Reals List Sorted.
From Coquelicot Require Import Coquelicot.
From Verif Require Import Num ModelVertex.
Import ListNotations.

(** A vertex of dimension D as a partial map from derivative order to a value
    with D components. *)
Definition vmap (T : Type) := Z -> option (list T).

(** Mutating calls on a vertex. *)
Inductive vop (T : Type) :=
| OpAdd (d : Z) (x : list T)
| OpAddScalar (d : Z) (x : T)
| OpRemove (d : Z)
| OpStartOrEnd (x : list T) (up_to : Z)
| OpStartOrEndScalar (x : T) (up_to : Z).
Arguments OpAdd {T}. Arguments OpAddScalar {T}. Arguments OpRemove {T}.
Arguments OpStartOrEnd {T}. Arguments OpStartOrEndScalar {T}.

Section Spec.
  Context {T : Type} {ops : NumOps T}.

  (** The effect each call must have; None: the call must abort. *)
  Definition spec_vop (D : nat) (f : vmap T) (o : vop T) : option (vmap T) :=
    let sized (x : list T) (g : vmap T) := if Nat.eq_dec (length x) D then Some g else None in
    let start (x : list T) (up : Z) : vmap T := fun k =>
      if Z.eq_dec k 0 then Some x
      else if Z_le_dec 1 k then (if Z_le_dec k up then Some (repeat n0 D) else f k)
      else f k in
    match o with
    | OpAdd d x => sized x (fun k => if Z.eq_dec k d then Some x else f k)
    | OpAddScalar d x => Some (fun k => if Z.eq_dec k d then Some (repeat x D) else f k)
    | OpRemove d => Some (fun k => if Z.eq_dec k d then None else f k)
    | OpStartOrEnd x up => sized x (start x up)
    | OpStartOrEndScalar x up => Some (start (repeat x D) up)
    end.
  Fixpoint spec_vops (D : nat) (f : vmap T) (l : list (vop T)) : option (vmap T) :=
    match l with
    | [] => Some f
    | o :: l' => match spec_vop D f o with None => None | Some g => spec_vops D g l' end
    end.

  (** The corresponding calls of the modelled code. *)
  Definition run_vop (v : vertex T) (o : vop T) : outcome (vertex T) :=
    match o with
    | OpAdd d x => vertex_add v d x
    | OpAddScalar d x => Ok (vertex_add_scalar v d x)
    | OpRemove d => Ok (snd (vertex_remove v d))
    | OpStartOrEnd x up => vertex_makeStartOrEnd v x up
    | OpStartOrEndScalar x up => vertex_makeStartOrEnd_scalar v x up
    end.

  (** Values of dimension D; keys of the underlying std::map ordered. *)
  Definition vertex_wf (v : vertex T) : Prop :=
    StronglySorted Z.lt (map fst (v_con v)) /\
    List.Forall (fun c => length (snd c) = v_D v) (v_con v).
End Spec.

Open Scope R_scope.
(** A motion x with velocity v along a line from rest to rest, covering [d] in
    time [tf], with speed at most vm and acceleration at most am (the velocity is
    am-Lipschitz, so that the acceleration may jump). *)
Definition rest_to_rest (d vm am tf : R) (x v : R -> R) : Prop :=
  0 <= tf /\
  (forall t, 0 <= t <= tf -> is_derive x t (v t)) /\
  (forall t, 0 <= t <= tf -> Rabs (v t) <= vm) /\
  (forall s t, 0 <= s <= tf -> 0 <= t <= tf -> Rabs (v t - v s) <= am * Rabs (t - s)) /\
  v 0 = 0 /\ v tf = 0 /\ x tf - x 0 = d.

(** Euclidean distance of two points. *)
Definition dist (p q : list R) : R :=
  sqrt (fold_right (fun c s => (fst c - snd c) ^ 2 + s) 0 (combine p q)).

(** Every vertex has a position constraint with n components. *)
Definition has_positions (n : nat) (vs : list (vertex R)) : Prop :=
  List.Forall (fun v => exists x, vertex_get v 0 = Some x /\ length x = n) vs.
(** Position of a vertex. *)
Definition pos_of (v : vertex R) : list R :=
  match vertex_get v 0 with Some x => x | None => [] end.
(** Derivatives 1..k of the vertex are constrained to zero. *)
Definition at_rest (n : nat) (k : Z) (v : vertex R) : Prop :=
  forall j, (1 <= j <= k)%Z -> vertex_get v j = Some (repeat 0 n).
(** The point lies in the box [lo, hi]. *)
Definition in_box (lo hi x : list R) : Prop :=
  forall j, (j < length lo)%nat -> nth j lo 0 <= nth j x 0 <= nth j hi 0.
