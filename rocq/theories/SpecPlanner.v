(** Specification notions for the example planner. *)
From Coq Require Import ZArith Reals List.
From Verif Require Import Num RSum ModelPolynomial ModelSegment ModelTrajectory ModelNonlinear SpecTrajectory.
Import ListNotations.
Open Scope R_scope.

(** nlopt evaluates the objective only between the bounds that it was given, and
    never asks for a gradient (documented of LN_BOBYQA, the default algorithm).
    It may fail, stop and return whatever it likes. *)
Inductive keeps_bounds (lower upper : list R) : nlopt_run R -> Prop :=
| KeepsReject : keeps_bounds lower upper NlReject
| KeepsReturn x f result : keeps_bounds lower upper (NlReturn x f result)
| KeepsThrow x f : keeps_bounds lower upper (NlThrow x f)
| KeepsObjective x k :
    length x = length lower ->
    (forall i, (i < length x)%nat -> nth i lower 0 <= nth i x 0 <= nth i upper 0) ->
    (forall v g, keeps_bounds lower upper (k v g)) ->
    keeps_bounds lower upper (NlObjective false x k).
Definition bounded_algorithm (nlopt : nlopt_algorithm (T := R)) : Prop :=
  forall steps lower upper x0, length lower = length x0 -> length upper = length x0 ->
    (forall i, (i < length x0)%nat -> nth i lower 0 <= nth i x0 0 <= nth i upper 0) ->
    keeps_bounds lower upper (nlopt steps lower upper x0).

(** evaluate returns position, velocity and zero acceleration, jerk and snap at
    time t. *)
Definition state_at (tr : trajectory R) (t : R) (pos vel : list R) : Prop :=
  traj_evaluate tr t 0 = Ok pos /\ traj_evaluate tr t 1 = Ok vel /\
  forall d, (2 <= d <= 4)%Z -> traj_evaluate tr t d = Ok (repeat 0 (length pos)).
