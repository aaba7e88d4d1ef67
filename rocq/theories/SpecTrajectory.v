(** Specification of trajectory-level notions; independent of the model's code. *)
From Coq Require Import ZArith Reals List.
From Coquelicot Require Import Coquelicot.
From Verif Require Import Num RSum SpecPoly ModelPolynomial ModelSegment SpecSegment ModelTrajectory.
Import ListNotations.

(** Calls that create or change a trajectory object. *)
Inductive top (T : Type) :=
| TopClear
| TopSet (segs : list (segment T))
| TopSetSelf
| TopAdd (segs : list (segment T))
| TopOffset (o : list T)
| TopScale (s : T)
| TopScaleToMeet (v a : T).
Arguments TopClear {T}. Arguments TopSet {T}. Arguments TopSetSelf {T}. Arguments TopAdd {T}.
Arguments TopOffset {T}. Arguments TopScale {T}. Arguments TopScaleToMeet {T}.

Section Spec.
  Context {T : Type} {ops : NumOps T}.

  Definition run_top (rf : root_oracle) (tr : trajectory T) (o : top T) : outcome (trajectory T) :=
    match o with
    | TopClear => Ok (traj_clear tr)
    | TopSet segs => traj_setSegments tr segs
    | TopSetSelf => traj_setSegments_self tr
    | TopAdd segs => traj_addSegments tr segs
    | TopOffset o => Ok (snd (traj_offset tr o))
    | TopScale s => Ok (snd (traj_scale tr s))
    | TopScaleToMeet v a => r <-- traj_scaleToMeet rf tr v a ;; Ok (snd r)
    end.

  (** All segments have the trajectory's dimension and number of coefficients
      and the total time is the running sum of the segment times. *)
  Definition traj_consistent (tr : trajectory T) : Prop :=
    List.Forall (fun s => seg_D s = tr_D tr /\ seg_N s = tr_N tr) (tr_segments tr) /\
    tr_max_time tr = fold_left nadd (map seg_time (tr_segments tr)) n0.
End Spec.

Open Scope R_scope.
(** Start time of segment i: the sum of the times of the segments before it. *)
Definition start_time (tr : trajectory R) (i : nat) : R :=
  lsum (map seg_time (firstn i (tr_segments tr))).
Definition duration (tr : trajectory R) : R := lsum (map seg_time (tr_segments tr)).
Definition times_nonneg (tr : trajectory R) : Prop :=
  List.Forall (fun s => 0 <= seg_time s) (tr_segments tr).
(** The default of list accesses; never used in range. *)
Definition no_segment : segment R := mkSegment 0 [] 0.
Definition seg_at (tr : trajectory R) (i : nat) : segment R := nth i (tr_segments tr) no_segment.
(** Every segment has the trajectory's dimension and N_ coefficients per
    dimension, at most 22. *)
Definition traj_wf (tr : trajectory R) : Prop :=
  List.Forall (fun s => seg_D s = tr_D tr /\ seg_N s = tr_N tr /\ seg_wf s) (tr_segments tr) /\
  (tr_N tr <= 22)%nat.
(** The value v of the d-th derivative on segment i at local time t. *)
Definition seg_value (s : segment R) (t : R) (d : nat) : list R :=
  map (fun k => seg_fun s k d t) (seq 0 (seg_D s)).

(** e describes the maximum (minimum) over the whole trajectory of the norm of
    the d-th derivative in the listed dimensions; e names the segment and the
    time within it. *)
Definition attained_at (tr : trajectory R) (dims : list Z) (d : nat) (e : extremum R) : Prop :=
  exists i, ext_segment e = Z.of_nat i /\ (i < tr_K tr)%nat /\
    0 <= ext_time e <= seg_time (seg_at tr i) /\
    seg_norm (seg_at tr i) dims d (ext_time e) = ext_value e.
Definition norm_at_most (tr : trajectory R) (dims : list Z) (d : nat) (b : R) : Prop :=
  forall i t, (i < tr_K tr)%nat -> 0 <= t <= seg_time (seg_at tr i) ->
    seg_norm (seg_at tr i) dims d t <= b.
Definition norm_at_least (tr : trajectory R) (dims : list Z) (d : nat) (b : R) : Prop :=
  forall i t, (i < tr_K tr)%nat -> 0 <= t <= seg_time (seg_at tr i) ->
    b <= seg_norm (seg_at tr i) dims d t.
(** The norms fit into a double. *)
Definition norm_finite (tr : trajectory R) (dims : list Z) (d : nat) : Prop :=
  forall i t, (i < tr_K tr)%nat -> 0 <= t <= seg_time (seg_at tr i) ->
    seg_norm (seg_at tr i) dims d t < IZR (2 ^ 1024 - 2 ^ 971).

(** ts are the times t_start, t_start + dt, ... before t_end, and vs the values
    of the d-th derivative at these times.  At a time where two segments meet
    the value of either of them is accepted. *)
Definition value_at (tr : trajectory R) (d : nat) (t : R) (v : list R) : Prop :=
  exists i, (i < tr_K tr)%nat /\ start_time tr i <= t <= start_time tr (S i) /\
    v = seg_value (seg_at tr i) (t - start_time tr i) d.
Definition window_samples (tr : trajectory R) (d : nat) (t_start t_end dt : R)
           (vs : list (list R)) (ts : list R) : Prop :=
  exists n, (forall k, (k < n)%nat <-> t_start + INR k * dt < t_end) /\
    ts = map (fun k => t_start + INR k * dt) (seq 0 n) /\
    Forall2 (value_at tr d) ts vs.
