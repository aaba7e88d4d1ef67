(** Model of mav_trajectory_generation/include/mav_trajectory_generation/timing.h
    and mav_trajectory_generation/src/timing.cpp.  Not modelled: printing
    (the layout of Print, SecondsToTimeString, max_tag_length_), DummyTimer. *)
From Coq Require Import ZArith List Bool String.
From Verif Require Import Num ModelPolynomial ModelSegment.
Import ListNotations.

(** timing.h:94-100: members of Accumulator<T, Total, N>.  Both T and Total are
    double in the only use (107); [None]: an element of samples_ that has not
    been written. *)
Record accumulator (T : Type) := mkAcc {
  ac_window_samples : Z;
  ac_total_samples : Z;
  ac_window_sum : T;
  ac_sum : T;
  ac_min : T;
  ac_max : T;
  ac_samples : list (option T)
}.
Arguments mkAcc {T}. Arguments ac_window_samples {T}. Arguments ac_total_samples {T}.
Arguments ac_window_sum {T}. Arguments ac_sum {T}. Arguments ac_min {T}. Arguments ac_max {T}.
Arguments ac_samples {T}.

(** timing.h:125-142 Timer: time_ (nanoseconds since the epoch), timing_, handle_. *)
Record timer := mkTimer { tm_time : Z; tm_timing : bool; tm_handle : nat }.

(** timing.h:176-180 Timing: timers_, tag_map_ (std::map: strictly increasing keys). *)
Record registry (T : Type) := mkReg { rg_timers : list (accumulator T); rg_tags : list (string * nat) }.
Arguments mkReg {T}. Arguments rg_timers {T}. Arguments rg_tags {T}.

(** std::map<std::string, size_t>: find, insert. *)
Fixpoint tag_find (m : list (string * nat)) (k : string) : option nat :=
  match m with
  | [] => None
  | (k', v) :: m' => if String.eqb k k' then Some v else tag_find m' k
  end.
Fixpoint tag_insert (m : list (string * nat)) (k : string) (v : nat) : list (string * nat) :=
  match m with
  | [] => [(k, v)]
  | (k', v') :: m' =>
      match String.compare k k' with
      | Lt => (k, v) :: (k', v') :: m'
      | Eq => (k, v) :: m'
      | Gt => (k', v') :: tag_insert m' k v
      end
  end.

Section Timing.
  Context {T : Type} {ops : NumOps T}.
  Local Open Scope num_scope.

  Section Accumulator.
    (** The template argument N (window size). *)
    Context (W : nat).

    (** timing.h:39-45 constructor; numeric_limits<double>::min() is the smallest
        positive normal number. *)
    Definition acc_new : accumulator T := mkAcc 0 0 n0 n0 dbl_max dbl_min (repeat None W).

    (** timing.h:47-64 Add.  Incrementing an int beyond 2^31 - 1 is undefined. *)
    Definition acc_Add (a : accumulator T) (sample : T) : outcome (accumulator T) :=
      let w := ac_window_samples a in
      if (w =? 2 ^ 31 - 1)%Z || (ac_total_samples a =? 2 ^ 31 - 1)%Z then UB
      else
        b <-- (if (w <? Z.of_nat W)%Z then
                 if Nat.ltb (Z.to_nat w) (List.length (ac_samples a))
                 then Ok (ac_window_sum a + sample, list_set (ac_samples a) (Z.to_nat w) (Some sample))
                 else UB
               else
                 let i := Z.to_nat (w mod Z.of_nat W) in
                 o <-- oget (ac_samples a) i ;;
                 match o with
                 | None => UB
                 | Some oldest =>
                     Ok (ac_window_sum a + (sample - oldest), list_set (ac_samples a) i (Some sample))
                 end) ;;
        Ok (mkAcc (w + 1) (ac_total_samples a + 1) (fst b) (ac_sum a + sample)
              (if sample <? ac_min a then sample else ac_min a)
              (if ac_max a <? sample then sample else ac_max a) (snd b)).

    (** timing.h:66-78. *)
    Definition acc_TotalSamples (a : accumulator T) : Z := ac_total_samples a.
    Definition acc_Sum (a : accumulator T) : T := ac_sum a.
    Definition acc_Mean (a : accumulator T) : T := ac_sum a / nofZ (ac_total_samples a).
    Definition acc_RollingMean (a : accumulator T) : T :=
      ac_window_sum a / nofZ (Z.min (ac_window_samples a) (Z.of_nat W)).
    Definition acc_Max (a : accumulator T) : T := ac_max a.
    Definition acc_Min (a : accumulator T) : T := ac_min a.

    (** timing.h:80-91 LazyVariance. *)
    Definition acc_LazyVariance (a : accumulator T) : outcome T :=
      if (ac_window_samples a =? 0)%Z then Ok n0
      else
        let m := Z.min (ac_window_samples a) (Z.of_nat W) in
        let mean := acc_RollingMean a in
        var <-- ofold (fun var i =>
                         o <-- oget (ac_samples a) i ;;
                         match o with
                         | None => UB
                         | Some x => Ok (var + (x - mean) * (x - mean))
                         end) (seq 0 (Z.to_nat m)) n0 ;;
        Ok (var / nofZ m).
  End Accumulator.

  (** timing.h:107: window of 50 samples. *)
  Definition kWindow : nat := 50.

  (** timing.cpp:40 constructor. *)
  Definition reg_new : registry T := mkReg [] [].

  (** timing.cpp:45-61 GetHandle: state afterwards and handle. *)
  Definition reg_GetHandle (r : registry T) (tag : string) : registry T * nat :=
    match tag_find (rg_tags r) tag with
    | Some handle => (r, handle)
    | None =>
        let handle := List.length (rg_timers r) in
        (mkReg (rg_timers r ++ [acc_new kWindow]) (tag_insert (rg_tags r) tag handle), handle)
    end.

  (** timing.cpp:63-73 GetTag; the empty string if there is none. *)
  Definition reg_GetTag (r : registry T) (handle : nat) : string :=
    match find (fun e => Nat.eqb (snd e) handle) (rg_tags r) with
    | Some e => fst e
    | None => EmptyString
    end.

  (** timing.cpp:106-108 AddTime. *)
  Definition reg_AddTime (r : registry T) (handle : nat) (seconds : T) : outcome (registry T) :=
    a <-- oget (rg_timers r) handle ;;
    a' <-- acc_Add kWindow a seconds ;;
    Ok (mkReg (list_set (rg_timers r) handle a') (rg_tags r)).

  (** timing.cpp:200 Reset: timers_ is kept. *)
  Definition reg_Reset (r : registry T) : registry T := mkReg (rg_timers r) [].

  (** timing.cpp:110-151: the queries by handle, given the member they read. *)
  Definition reg_query {A : Type} (r : registry T) (handle : nat) (f : accumulator T -> A) : outcome A :=
    a <-- oget (rg_timers r) handle ;; Ok (f a).
  Definition reg_GetTotalSeconds r handle := reg_query r handle acc_Sum.
  Definition reg_GetMeanSeconds r handle := reg_query r handle acc_Mean.
  Definition reg_GetNumSamples r handle := reg_query r handle acc_TotalSamples.
  Definition reg_GetVarianceSeconds r handle := v <-- reg_query r handle (acc_LazyVariance kWindow) ;; v.
  Definition reg_GetMinSeconds r handle := reg_query r handle acc_Min.
  Definition reg_GetMaxSeconds r handle := reg_query r handle acc_Max.
  Definition reg_GetHz r handle := reg_query r handle (fun a => n1 / acc_RollingMean kWindow a).

  (** timing.cpp:113-155: the queries by tag; an unknown tag gets a handle. *)
  Definition reg_by_tag {A : Type} (r : registry T) (tag : string) (q : registry T -> nat -> outcome A)
    : outcome (registry T * A) :=
    let (r', handle) := reg_GetHandle r tag in
    x <-- q r' handle ;; Ok (r', x).

  (** timing.cpp:163-191 Print: the numbers of each line in the order of the map;
      the layout (widths, SecondsToTimeString, headings) is not modelled. *)
  Definition reg_Print (r : registry T) : outcome (list (string * Z * option (T * T * T * T * T))) :=
    omap (fun e : string * nat =>
            n <-- reg_GetNumSamples r (snd e) ;;
            if (0 <? n)%Z then
              total <-- reg_GetTotalSeconds r (snd e) ;;
              meansec <-- reg_GetMeanSeconds r (snd e) ;;
              var <-- reg_GetVarianceSeconds r (snd e) ;;
              minsec <-- reg_GetMinSeconds r (snd e) ;;
              maxsec <-- reg_GetMaxSeconds r (snd e) ;;
              Ok (fst e, n, Some (total, meansec, nsqrt var, minsec, maxsec))
            else Ok (fst e, n, None)) (rg_tags r).

  (** timing.cpp:90-93 Start; the clock reading is an argument (nanoseconds). *)
  Definition timer_Start (t : timer) (now : Z) : timer := mkTimer now true (tm_handle t).
  (** timing.cpp:95-102 Stop; duration<double>(now - time_).count(). *)
  Definition timer_Stop (r : registry T) (t : timer) (now : Z) : outcome (registry T * timer) :=
    r' <-- reg_AddTime r (tm_handle t) (nofZ (now - tm_time t) / nofZ (10 ^ 9)) ;;
    Ok (r', mkTimer (tm_time t) false (tm_handle t)).
  (** timing.cpp:76-84 constructors; time_ is the epoch until Start. *)
  Definition timer_new (handle : nat) (constructStopped : bool) (now : Z) : timer :=
    let t := mkTimer 0 false handle in
    if constructStopped then t else timer_Start t now.
  Definition timer_new_tag (r : registry T) (tag : string) (constructStopped : bool) (now : Z)
    : registry T * timer :=
    let (r', handle) := reg_GetHandle r tag in (r', timer_new handle constructStopped now).
  (** timing.cpp:86-88 destructor. *)
  Definition timer_destroy (r : registry T) (t : timer) (now : Z) : outcome (registry T) :=
    if tm_timing t then x <-- timer_Stop r t now ;; Ok (fst x) else Ok r.

  (** Use of the registry by a program: calls on the registry and on timer
      objects (numbered in order of construction; None: destroyed). *)
  Inductive tcall :=
  | TGetHandle (tag : string)
  | TNewHandle (handle : nat) (stopped : bool) (now : Z)
  | TNewTag (tag : string) (stopped : bool) (now : Z)
  | TStart (i : nat) (now : Z)
  | TStop (i : nat) (now : Z)
  | TDestroy (i : nat) (now : Z)
  | TReset.
  Definition tstate := (registry T * list (option timer))%type.
  Definition the_timer (ts : list (option timer)) (i : nat) : outcome timer :=
    o <-- oget ts i ;; match o with Some t => Ok t | None => UB end.
  Definition run_tcall (s : tstate) (c : tcall) : outcome tstate :=
    let (r, ts) := s in
    match c with
    | TGetHandle tag => Ok (fst (reg_GetHandle r tag), ts)
    | TNewHandle handle stopped now => Ok (r, ts ++ [Some (timer_new handle stopped now)])
    | TNewTag tag stopped now =>
        let (r', t) := timer_new_tag r tag stopped now in Ok (r', ts ++ [Some t])
    | TStart i now => t <-- the_timer ts i ;; Ok (r, list_set ts i (Some (timer_Start t now)))
    | TStop i now =>
        t <-- the_timer ts i ;; x <-- timer_Stop r t now ;; Ok (fst x, list_set ts i (Some (snd x)))
    | TDestroy i now =>
        t <-- the_timer ts i ;; r' <-- timer_destroy r t now ;; Ok (r', list_set ts i None)
    | TReset => Ok (reg_Reset r, ts)
    end.
  Definition run_tcalls (s : tstate) (cs : list tcall) : outcome tstate := ofold run_tcall cs s.

  (** timing.h:205-211 MiniTimer::getTime: start_, end_ in nanoseconds. *)
  Definition mini_getTime (start_ end_ : Z) : T :=
    if (end_ <? start_)%Z then n0 else nofZ (end_ - start_) / nofZ (10 ^ 9).
  (** timing.h:190-215 MiniTimer: start_ and end_; end_ is the epoch until stop(). *)
  Definition mini_new (now : Z) : Z * Z := (now, 0%Z).
  Definition mini_start (m : Z * Z) (now : Z) : Z * Z := (now, snd m).
  Definition mini_stop (m : Z * Z) (now : Z) : (Z * Z) * T := ((fst m, now), mini_getTime (fst m) now).
End Timing.
