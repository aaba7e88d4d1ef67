(** Arithmetic interface of the model, its two instances, and outcomes.

    The numeric C++ code is written against [double].  The model is written once
    over [NumOps T]; [R_ops] idealises doubles as real numbers (no rounding,
    overflow or NaN), [B64_ops] is IEEE-754 binary64 (Flocq, round to nearest
    even).  Division by zero and square roots of negative numbers are total in
    [R_ops]; theorems at [R_ops] carry the guards that exclude them. *)
From Coq Require Import ZArith Reals Lra List Bool.
From Flocq Require Import IEEE754.BinarySingleNaN Core.
Import ListNotations.

(** Result of a C++ call.
    [Abort]: a glog CHECK failed (process terminates).
    [UB]: undefined behaviour (out-of-range access, Eigen size mismatch, ...).
    [Throw]: a C++ exception is thrown. *)
Inductive outcome (A : Type) : Type :=
| Ok (a : A)
| Abort
| UB
| Throw.
Arguments Ok {A} _.
Arguments Abort {A}.
Arguments UB {A}.
Arguments Throw {A}.

Definition obind {A B : Type} (x : outcome A) (f : A -> outcome B) : outcome B :=
  match x with
  | Ok a => f a
  | Abort => Abort
  | UB => UB
  | Throw => Throw
  end.

Declare Scope outcome_scope.
Delimit Scope outcome_scope with outcome.
Notation "x <-- e ;; k" := (obind e (fun x => k))
  (at level 100, e at next level, right associativity) : outcome_scope.
Open Scope outcome_scope.

(** Evaluate a list of calls left to right, stopping at the first failure. *)
Fixpoint omap {A B : Type} (f : A -> outcome B) (l : list A) : outcome (list B) :=
  match l with
  | [] => Ok []
  | a :: l' => b <-- f a ;; bs <-- omap f l' ;; Ok (b :: bs)
  end.

(** A loop whose body may fail, threading a state. *)
Fixpoint ofold {A S : Type} (f : S -> A -> outcome S) (l : list A) (s : S) : outcome S :=
  match l with
  | [] => Ok s
  | a :: l' => s' <-- f s a ;; ofold f l' s'
  end.

(** std::vector<T>::operator[] : out-of-range access is undefined behaviour. *)
Definition oget {A : Type} (l : list A) (i : nat) : outcome A :=
  match nth_error l i with
  | Some a => Ok a
  | None => UB
  end.

Class NumOps (T : Type) := {
  nadd : T -> T -> T;
  nsub : T -> T -> T;
  nmul : T -> T -> T;
  ndiv : T -> T -> T;
  nopp : T -> T;
  nabs : T -> T;
  nsqrt : T -> T;
  nltb : T -> T -> bool;         (* C++ <  on doubles *)
  nleb : T -> T -> bool;         (* C++ <= on doubles *)
  neqb : T -> T -> bool;         (* C++ == on doubles *)
  nofZ : Z -> T;                 (* integer to double conversion *)
  ntoZ : T -> option Z           (* truncation toward zero; None: not finite *)
}.

Declare Scope num_scope.
Delimit Scope num_scope with num.
Infix "+" := nadd : num_scope.
Infix "-" := nsub : num_scope.
Infix "*" := nmul : num_scope.
Infix "/" := ndiv : num_scope.
Notation "- x" := (nopp x) : num_scope.
Infix "<?" := nltb : num_scope.
Infix "<=?" := nleb : num_scope.
Infix "=?" := neqb : num_scope.

Section Derived.
  Context {T : Type} {ops : NumOps T}.
  Local Open Scope num_scope.
  Definition n0 : T := nofZ 0.
  Definition n1 : T := nofZ 1.
  (** Decimal literal p/q: the correctly rounded quotient of two exactly
      representable integers is the nearest double, i.e. the C++ literal. *)
  Definition nlit (p q : Z) : T := nofZ p / nofZ q.
  (** std::numeric_limits<double>::epsilon(), ::min(), ::max(), ::lowest(). *)
  Definition dbl_epsilon : T := nlit 1 (2 ^ 52).
  Definition dbl_min : T := nlit 1 (2 ^ 1022).
  Definition dbl_max : T := nofZ (2 ^ 1024 - 2 ^ 971).
  Definition dbl_lowest : T := - dbl_max.
  (** std::max(a, b) returns a unless a < b; std::min(a, b) returns a unless b < a. *)
  Definition nmax (a b : T) : T := if a <? b then b else a.
  Definition nmin (a b : T) : T := if b <? a then b else a.
  (** sum_{i<n} f i accumulated in increasing index order. *)
  Fixpoint nsum (n : nat) (f : nat -> T) : T :=
    match n with
    | O => n0
    | S k => nsum k f + f k
    end.
  (** x^k by repeated multiplication. *)
  Fixpoint npow (x : T) (k : nat) : T :=
    match k with
    | O => n1
    | S j => npow x j * x
    end.
End Derived.

(** Real-number instance. *)
Definition Rltb (x y : R) : bool := if Rlt_dec x y then true else false.
Definition Rleb (x y : R) : bool := if Rle_dec x y then true else false.
Definition Reqb (x y : R) : bool := if Req_EM_T x y then true else false.
(** truncation toward zero *)
Definition Rtrunc (x : R) : Z :=
  if Rlt_dec x 0 then (- (Int_part (- x)))%Z else Int_part x.

Global Instance R_ops : NumOps R := {
  nadd := Rplus;
  nsub := Rminus;
  nmul := Rmult;
  ndiv := Rdiv;
  nopp := Ropp;
  nabs := Rabs;
  nsqrt := R_sqrt.sqrt;
  nltb := Rltb;
  nleb := Rleb;
  neqb := Reqb;
  nofZ := IZR;
  ntoZ := fun x => Some (Rtrunc x)
}.

(** IEEE-754 binary64 instance (Flocq). *)
Notation b64 := (binary_float 53 1024).
Lemma b64_prec_gt_0 : FLX.Prec_gt_0 53.
Proof. reflexivity. Qed.
Lemma b64_prec_lt_emax : Prec_lt_emax 53 1024.
Proof. reflexivity. Qed.

Definition b64_of_Z (z : Z) : b64 :=
  @binary_normalize 53 1024 b64_prec_gt_0 b64_prec_lt_emax mode_NE z 0 false.

Definition b64_cmp (x y : b64) : option comparison := @Bcompare 53 1024 x y.

Definition B64_ops : NumOps b64 := {|
  nadd := @Bplus 53 1024 b64_prec_gt_0 b64_prec_lt_emax mode_NE;
  nsub := @Bminus 53 1024 b64_prec_gt_0 b64_prec_lt_emax mode_NE;
  nmul := @Bmult 53 1024 b64_prec_gt_0 b64_prec_lt_emax mode_NE;
  ndiv := @Bdiv 53 1024 b64_prec_gt_0 b64_prec_lt_emax mode_NE;
  nopp := @Bopp 53 1024;
  nabs := @Babs 53 1024;
  nsqrt := @Bsqrt 53 1024 b64_prec_gt_0 b64_prec_lt_emax mode_NE;
  nltb := fun x y => match b64_cmp x y with Some Lt => true | _ => false end;
  nleb := fun x y => match b64_cmp x y with Some Lt | Some Eq => true | _ => false end;
  neqb := fun x y => match b64_cmp x y with Some Eq => true | _ => false end;
  nofZ := b64_of_Z;
  ntoZ := fun x => if is_finite x then Some (Btrunc x) else None
|}.
