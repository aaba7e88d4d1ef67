(** Model of mav_trajectory_generation_ros/src/input_constraints.cpp. *)
From Coq Require Import ZArith List Bool String.
From Verif Require Import Num ModelVertex ModelYaml.
Import ListNotations.

Section Input.
  Context {T : Type} {ops : NumOps T}.
  Local Open Scope num_scope.

  (** input_constraints.h:29-36 enum InputConstraintType. *)
  Definition kFMin : Z := 0.
  Definition kFMax : Z := 1.
  Definition kVMax : Z := 2.
  Definition kOmegaXYMax : Z := 3.
  Definition kOmegaZMax : Z := 4.
  Definition kOmegaZDotMax : Z := 5.

  (** input_constraints.h:70 constraints_: std::map<int, double>, in key order. *)
  Definition constraints := list (Z * T).

  (** input_constraints.cpp:67-70 hasConstraint. *)
  Definition hasConstraint (c : constraints) (constraint_type : Z) : bool :=
    match map_find c constraint_type with Some _ => true | None => false end.

  (** input_constraints.cpp:33-45 addConstraint. *)
  Definition addConstraint (c : constraints) (constraint_type : Z) (v : T) : constraints :=
    let value := nabs v in
    let c1 :=
      if (constraint_type =? kFMin)%Z && hasConstraint c kFMax then
        match map_find c kFMax with
        | Some m => map_set c kFMax (if m <? value then value else m)
        | None => c
        end
      else if (constraint_type =? kFMax)%Z && hasConstraint c kFMin then
        match map_find c kFMin with
        | Some m => map_set c kFMin (if value <? m then value else m)
        | None => c
        end
      else c in
    map_set c1 constraint_type value.

  (** mav_msgs/default_values.h kGravity = 9.80665. *)
  Definition kGravity : T := nlit 980665 100000.

  (** input_constraints.cpp:47-54 setDefaultValues; [pi] is M_PI. *)
  Definition setDefaultValues (pi : T) (c : constraints) : constraints :=
    map_set (map_set (map_set (map_set (map_set (map_set c
      kFMin (nlit 1 2 * kGravity)) kFMax (nlit 3 2 * kGravity)) kVMax (nofZ 3))
      kOmegaXYMax (pi / nofZ 2)) kOmegaZMax (pi / nofZ 2)) kOmegaZDotMax (nofZ 2 * pi).

  (** input_constraints.cpp:56-65 getConstraint; None: returns false. *)
  Definition getConstraint (c : constraints) (constraint_type : Z) : option T := map_find c constraint_type.

  (** input_constraints.cpp:72-81 removeConstraint. *)
  Definition removeConstraint (c : constraints) (constraint_type : Z) : bool * constraints :=
    match map_find c constraint_type with
    | Some _ => (true, map_erase c constraint_type)
    | None => (false, c)
    end.

  (** input_constraints.cpp:83-99 getInputConstraintName. *)
  Definition getInputConstraintName (type : Z) : string :=
    match type with
    | 0%Z => "f_min"
    | 1%Z => "f_max"
    | 2%Z => "v_max"
    | 3%Z => "omega_xy_max"
    | 4%Z => "omega_z_max"
    | 5%Z => "omega_z_dot_max"
    | _ => "Unknown!"
    end%string.

  Variable cd : codec T.

  (** input_constraints.cpp:101-112 toYaml. *)
  Definition ic_toYaml (c : constraints) : yaml :=
    fold_left (fun node e => y_set node (getInputConstraintName (fst e)) (YScalar (fmtD cd (snd e)))) c YNull.

  (** input_constraints.cpp:114-143 fromYaml: one type. *)
  Definition ic_fromYaml1 (node : ynode) (c : constraints) (type : Z) : outcome constraints :=
    n <-- y_get node (getInputConstraintName type) ;;
    if y_defined n then v <-- y_asDouble cd n ;; Ok (addConstraint c type v) else Ok c.
  (** input_constraints.cpp:114-143 fromYaml.  Throw: the object keeps what was
      added so far; not represented. *)
  Definition ic_fromYaml (node : ynode) (c : constraints) : outcome constraints :=
    ofold (ic_fromYaml1 node) [kFMin; kFMax; kVMax; kOmegaXYMax; kOmegaZMax; kOmegaZDotMax] c.

  (** The public operations that change an object. *)
  Inductive icall :=
  | IAdd (type : Z) (v : T)
  | IDefaults
  | IRemove (type : Z)
  | IFromYaml (node : ynode).
  Definition run_icall (pi : T) (c : constraints) (call : icall) : outcome constraints :=
    match call with
    | IAdd type v => Ok (addConstraint c type v)
    | IDefaults => Ok (setDefaultValues pi c)
    | IRemove type => Ok (snd (removeConstraint c type))
    | IFromYaml node => ic_fromYaml node c
    end.
End Input.
