(** Reading a table of values separated by commas; independent of ModelReport.v. *)
From Coq Require Import ZArith List Bool String Ascii.
From Verif Require Import Num ModelBench.
Import ListNotations.
Notation length := List.length.
Open Scope string_scope.

(** The pieces of a text between the occurrences of a character. *)
Fixpoint split (c : ascii) (s : string) : list string :=
  match s with
  | "" => [""]
  | String a s' => if Ascii.eqb a c then "" :: split c s'
                   else match split c s' with [] => [String a ""] | h :: t => String a h :: t end
  end.
Fixpoint has (c : ascii) (s : string) : Prop := match s with "" => False | String a s' => a = c \/ has c s' end.
(** A text without comma, line feed and space. *)
Definition plain (s : string) : Prop := ~ has "," s /\ ~ has "010" s /\ ~ has " " s.
Definition strip (s : string) : string := match s with String " " s' => s' | _ => s end.
(** The lines of a text each of whose lines ends with a line feed; the cells of a line. *)
Definition lines (s : string) : list string := removelast (split "010" s).
Definition cells (s : string) : list string := map strip (split "," s).
Fixpoint position (x : string) (l : list string) : option nat :=
  match l with [] => None | y :: l' => if String.eqb x y then Some O else option_map S (position x l') end.
(** The cell of the i-th line below the first one in the column that the first line names. *)
Definition lookup (table : string) (i : nat) (name : string) : option string :=
  match lines table with
  | [] => None
  | h :: rows => match position name (cells h) with
                 | None => None
                 | Some c => match nth_error rows i with None => None | Some row => nth_error (cells row) c end
                 end
  end.

(** The meaning of the columns. *)
Section Columns.
  Context {T : Type} (text_of_int : Z -> string) (text_of_double : T -> string).
  Definition columns : list (string * (bench_result T -> string)) :=
    [("trial_number", fun r => text_of_int (br_trial r)); ("method_name", br_method); ("num_segments", fun r => text_of_int (br_segments r));
     ("optimization_success", fun r => text_of_int (br_success r)); ("nominal_length", fun r => text_of_double (br_nominal r));
     ("trajectory_length", fun r => text_of_double (br_length r)); ("trajectory_time", fun r => text_of_double (br_time r));
     ("computation_time", fun r => text_of_double (br_computation r)); ("bounds_violated", fun r => if br_violated r then "1" else "0");
     ("v_max", fun r => text_of_double (br_v_max r)); ("a_max", fun r => text_of_double (br_a_max r)); ("cost", fun r => text_of_double (br_cost r));
     ("max_dist_sl_traj", fun r => text_of_double (br_max_dist r)); ("area_traj_sl", fun r => text_of_double (br_area r))].
End Columns.
