(** What a user of timers sees, as an abstract machine; independent of the model
    in ModelTiming. *)
From Coq Require Import ZArith List String Bool.
Import ListNotations.

(** A program: register a tag, make a timer (by handle or by tag; running unless
    [stopped]), start, stop or destroy the i-th timer made, forget all tags.
    The clock readings are in nanoseconds. *)
Inductive user_call :=
| UHandle (tag : string)
| UNew (handle : nat) (stopped : bool) (now : Z)
| UNewTag (tag : string) (stopped : bool) (now : Z)
| UStart (i : nat) (now : Z)
| UStop (i : nat) (now : Z)
| UDestroy (i : nat) (now : Z)
| UReset.

(** A timer: its handle, when it was started last (0: never), whether it runs. *)
Record watch := mkWatch { w_handle : nat; w_since : Z; w_running : bool }.

(** Known tags, the number of handles given out, timers (None: destroyed), and
    all durations recorded so far with the handle they belong to. *)
Record user_state := mkUser {
  u_tag : string -> option nat;
  u_handles : nat;
  u_watches : list (option watch);
  u_log : list (nat * Z)
}.
Definition user_start : user_state := mkUser (fun _ => None) 0 [] [].

Definition register (s : user_state) (tag : string) : user_state * nat :=
  match u_tag s tag with
  | Some h => (s, h)
  | None => (mkUser (fun x => if String.eqb x tag then Some (u_handles s) else u_tag s x)
               (S (u_handles s)) (u_watches s) (u_log s), u_handles s)
  end.
Definition new_watch (s : user_state) (h : nat) (stopped : bool) (now : Z) : user_state :=
  mkUser (u_tag s) (u_handles s) (u_watches s ++ [Some (mkWatch h (if stopped then 0 else now) (negb stopped))]) (u_log s).
Definition with_watch (s : user_state) (i : nat) (w : option watch) : user_state :=
  mkUser (u_tag s) (u_handles s) (firstn i (u_watches s) ++ w :: skipn (S i) (u_watches s)) (u_log s).
(** Record the duration since the last start; None: unknown handle. *)
Definition record (s : user_state) (w : watch) (now : Z) : option user_state :=
  if Nat.ltb (w_handle w) (u_handles s)
  then Some (mkUser (u_tag s) (u_handles s) (u_watches s) (u_log s ++ [(w_handle w, now - w_since w)%Z]))
  else None.

(** None: use of a timer that does not exist, or of an unknown handle. *)
Definition user_step (s : user_state) (c : user_call) : option user_state :=
  match c with
  | UHandle tag => Some (fst (register s tag))
  | UNew h stopped now => Some (new_watch s h stopped now)
  | UNewTag tag stopped now => Some (new_watch (fst (register s tag)) (snd (register s tag)) stopped now)
  | UStart i now =>
      match nth_error (u_watches s) i with
      | Some (Some w) => Some (with_watch s i (Some (mkWatch (w_handle w) now true)))
      | _ => None
      end
  | UStop i now =>
      match nth_error (u_watches s) i with
      | Some (Some w) =>
          match record s w now with
          | Some s' => Some (with_watch s' i (Some (mkWatch (w_handle w) (w_since w) false)))
          | None => None
          end
      | _ => None
      end
  | UDestroy i now =>
      match nth_error (u_watches s) i with
      | Some (Some w) =>
          if w_running w then
            match record s w now with Some s' => Some (with_watch s' i None) | None => None end
          else Some (with_watch s i None)
      | _ => None
      end
  | UReset => Some (mkUser (fun _ => None) (u_handles s) (u_watches s) (u_log s))
  end.
Fixpoint user_run (s : user_state) (cs : list user_call) : option user_state :=
  match cs with
  | [] => Some s
  | c :: rest => match user_step s c with Some s' => user_run s' rest | None => None end
  end.

(** The durations recorded for one handle, oldest first (nanoseconds). *)
Definition durations (s : user_state) (h : nat) : list Z :=
  map snd (filter (fun e => Nat.eqb (fst e) h) (u_log s)).
