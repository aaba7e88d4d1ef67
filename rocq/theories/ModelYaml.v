(** The part of the yaml-cpp node interface that /repo uses.  yaml-cpp itself is
    not in /repo; this file fixes the behaviour of its nodes that io.cpp and
    input_constraints.cpp rely on (yaml-cpp 0.5/0.6).  Texts of numbers and of
    whole documents are produced and read by the [codec] and by [load]/[dump]
    arguments of later files. *)
From Coq Require Import ZArith List Bool String.
From Verif Require Import Num.
Import ListNotations.

(** Contents of a defined node.  Map keys are scalars. *)
Inductive yaml :=
| YNull
| YScalar (s : string)
| YSeq (l : list yaml)
| YMap (l : list (string * yaml)).

(** Conversions between numbers and scalar texts (YAML::convert<double>,
    <int>, <uint64_t>, <size_t>): encode as used by io.cpp:37-49 and
    input_constraints.cpp:101, decode as used by as<>(). *)
Record codec (T : Type) := mkCodec {
  fmtD : T -> string;
  parseD : string -> option T;
  fmtZ : Z -> string;
  parseI : string -> option Z;   (* as<int>: a value in the range of int *)
  parseU : string -> option Z    (* as<uint64_t>, as<size_t> *)
}.
Arguments fmtD {T} _ _.
Arguments parseD {T} _ _.
Arguments fmtZ {T} _ _.
Arguments parseI {T} _ _.
Arguments parseU {T} _ _.

(** A node as returned by operator[] of a const node: None is the node returned
    for a missing key, which tests false, and throws on any other use. *)
Definition ynode := option yaml.

Fixpoint assoc (l : list (string * yaml)) (k : string) : option yaml :=
  match l with
  | [] => None
  | (k', v) :: l' => if String.eqb k k' then Some v else assoc l' k
  end.

(** node[key] on a const node with a text key (io.cpp:88-92, 98-104, 119,
    input_constraints.cpp:108-142): a scalar throws BadSubscript. *)
Definition y_get (n : ynode) (k : string) : outcome ynode :=
  match n with
  | None => Throw
  | Some YNull => Ok None
  | Some (YScalar _) => Throw
  | Some (YSeq _) => Ok None
  | Some (YMap l) => Ok (assoc l k)
  end.

(** if (node) *)
Definition y_defined (n : ynode) : bool := match n with Some _ => true | None => false end.

(** node.IsSequence() (io.cpp:75, 92, 109). *)
Definition y_isSeq (n : ynode) : outcome bool :=
  match n with None => Throw | Some (YSeq _) => Ok true | Some _ => Ok false end.

(** node.size() (io.cpp:76, 111, 187, 200, 204). *)
Definition y_size (n : ynode) : outcome nat :=
  match n with
  | None => Throw
  | Some (YSeq l) => Ok (List.length l)
  | Some (YMap l) => Ok (List.length l)
  | Some _ => Ok 0
  end.

Section Typed.
  Context {T : Type}.
  Variable cd : codec T.

  (** node[i] on a const node with a size_t index; in a map it is a key that
      reads as that number. *)
  Definition y_idx (n : ynode) (i : nat) : outcome ynode :=
    match n with
    | None => Throw
    | Some YNull => Ok None
    | Some (YScalar _) => Throw
    | Some (YSeq l) => Ok (nth_error l i)
    | Some (YMap l) =>
        Ok (option_map snd (find (fun e => match parseU cd (fst e) with Some z => (z =? Z.of_nat i)%Z | None => false end) l))
    end.

  (** as<>(): throws unless the node is a scalar with a text of that type. *)
  Definition y_as {A : Type} (parse : string -> option A) (n : ynode) : outcome A :=
    match n with
    | Some (YScalar s) => match parse s with Some a => Ok a | None => Throw end
    | _ => Throw
    end.
  Definition y_asDouble := y_as (parseD cd).
  Definition y_asInt := y_as (parseI cd).
  Definition y_asU64 := y_as (parseU cd).
End Typed.

(** node[key] = value on a node under construction that is null or a map. *)
Fixpoint y_put (l : list (string * yaml)) (k : string) (v : yaml) : list (string * yaml) :=
  match l with
  | [] => [(k, v)]
  | (k', v') :: l' => if String.eqb k k' then (k', v) :: l' else (k', v') :: y_put l' k v
  end.
Definition y_set (n : yaml) (k : string) (v : yaml) : yaml :=
  match n with YMap l => YMap (y_put l k v) | _ => YMap [(k, v)] end.
