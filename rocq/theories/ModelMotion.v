(** Model of mav_trajectory_generation/src/motion_defines.cpp. *)
From Coq Require Import ZArith String List.
Import ListNotations.
Local Open Scope string_scope.

(** motion_defines.h:29-40: derivative orders; INVALID = -1. *)
Definition INVALID : Z := -1.

(** motion_defines.cpp:24-33 positionDerivativeToString. *)
Definition positionDerivativeToString (derivative : Z) : string :=
  if ((0 <=? derivative) && (derivative <=? 4))%Z%bool
  then nth (Z.to_nat derivative) ["position"; "velocity"; "acceleration"; "jerk"; "snap"] ""
  else "invalid".

(** motion_defines.cpp:35-50 positionDerivativeToInt. *)
Definition positionDerivativeToInt (s : string) : Z :=
  if String.eqb s "position" then 0
  else if String.eqb s "velocity" then 1
  else if String.eqb s "acceleration" then 2
  else if String.eqb s "jerk" then 3
  else if String.eqb s "snap" then 4
  else INVALID.

(** motion_defines.cpp:52-61 orintationDerivativeToString. *)
Definition orintationDerivativeToString (derivative : Z) : string :=
  if ((0 <=? derivative) && (derivative <=? 2))%Z%bool
  then nth (Z.to_nat derivative) ["orientation"; "angular_velocity"; "angular_acceleration"] ""
  else "invalid".

(** motion_defines.cpp:63-74 orientationDerivativeToInt. *)
Definition orientationDerivativeToInt (s : string) : Z :=
  if String.eqb s "orientation" then 0
  else if String.eqb s "angular_velocity" then 1
  else if String.eqb s "angular_acceleration" then 2
  else INVALID.
