(** Model of the feasibility checks of mav_trajectory_generation_ros:
    feasibility_base, feasibility_recursive, feasibility_analytic and
    feasibility_sampling (.h, .cpp).  Logging is left out. *)
From Coq Require Import ZArith List Bool String.
From Verif Require Import Num ModelPolynomial ModelSegment ModelVertex ModelTrajectory ModelInput ModelSampling.
Import ListNotations.
Notation length := List.length.

(** feasibility_base.h:34-51 enum InputFeasibilityResult. *)
Inductive feasibility :=
| kInputFeasible | kInputIndeterminable | kInputInfeasibleThrustHigh | kInputInfeasibleThrustLow
| kInputInfeasibleVelocity | kInputInfeasibleRollPitchRates | kInputInfeasibleYawRates | kInputInfeasibleYawAcc.

(** feasibility_base.cpp:31-52 getInputFeasibilityResultName, for the values of
    the enumeration. *)
Definition getInputFeasibilityResultName (fr : feasibility) : string :=
  match fr with
  | kInputFeasible => "Feasible"
  | kInputIndeterminable => "Indeterminable"
  | kInputInfeasibleThrustHigh => "InfeasibleThrustHigh"
  | kInputInfeasibleThrustLow => "InfeasibleThrustLow"
  | kInputInfeasibleVelocity => "InfeasibleVelocity"
  | kInputInfeasibleRollPitchRates => "InfeasibleRollPitchRates"
  | kInputInfeasibleYawRates => "InfeasibleYawRates"
  | kInputInfeasibleYawAcc => "InfeasibleYawAcc"
  end.

(** A statement sequence with return statements: inl v is "return v". *)
Definition ebind {A B} (x : outcome (feasibility + A)) (k : A -> outcome (feasibility + B)) : outcome (feasibility + B) :=
  r <-- x ;; match r with inl v => Ok (inl v) | inr a => k a end.
Notation "x <== e ;; k" := (ebind e (fun x => k)) (at level 100, e at level 99, right associativity).
(** if (b) return v; *)
Definition return_if (b : bool) (v : feasibility) : outcome (feasibility + unit) := Ok (if b then inl v else inr tt).
(** The value of a function whose last statement is "return last". *)
Definition finish (x : outcome (feasibility + unit)) (last : feasibility) : outcome feasibility :=
  r <-- x ;; Ok (match r with inl v => v | inr _ => last end).

(** feasibility_base.h:57-73 HalfPlane: point and normal, three entries each. *)
Record half_plane (T : Type) := mkHalfPlane { hp_point : list T; hp_normal : list T }.
Arguments mkHalfPlane {T}. Arguments hp_point {T}. Arguments hp_normal {T}.

(** feasibility_base.h:76-108 with the settings of the derived classes:
    input_constraints_, half_plane_constraints_, gravity_. *)
Record checker (T : Type) := mkChecker {
  ck_input : @constraints T;
  ck_planes : list (half_plane T);
  ck_gravity : list T
}.
Arguments mkChecker {T}. Arguments ck_input {T}. Arguments ck_planes {T}. Arguments ck_gravity {T}.

(** mav_msgs::EigenMavState (mav_msgs is not part of the repository): the members
    read in feasibility_sampling.cpp:70-127. *)
Record mav_state (T : Type) := mkMavState {
  ms_acceleration_B : list T;
  ms_velocity_W : list T;
  ms_angular_velocity_B : list T;
  ms_angular_acceleration_B : list T
}.
Arguments mkMavState {T}. Arguments ms_acceleration_B {T}. Arguments ms_velocity_W {T}.
Arguments ms_angular_velocity_B {T}. Arguments ms_angular_acceleration_B {T}.

Section Feasibility.
  Context {T : Type} {ops : NumOps T}.
  Local Open Scope num_scope.

  (** Eigen's squaredNorm, norm, dot, difference and sum of vectors; the sums
      from left to right. *)
  Definition vsqr (v : list T) : T := fold_left (fun m x => m + x * x) v n0.
  Definition vnorm (v : list T) : T := nsqrt (vsqr v).
  Definition vdot (v w : list T) : T := fold_left (fun m p => m + fst p * snd p) (combine v w) n0.
  Definition vsub (v w : list T) : list T := map (fun p => fst p - snd p) (combine v w).
  Definition vadd (v w : list T) : list T := map (fun p => fst p + snd p) (combine v w).
  (** Eigen's normalize()/normalized(): unchanged unless squaredNorm() > 0. *)
  Definition vnormalize (v : list T) : list T :=
    if n0 <? vsqr v then map (fun x => x / nsqrt (vsqr v)) v else v.
  (** Eigen's cross product of vectors with three entries. *)
  Definition vcross (v w : list T) : list T :=
    let e l i := nth i l n0 in
    [e v 1%nat * e w 2%nat - e v 2%nat * e w 1%nat; e v 2%nat * e w 0%nat - e v 0%nat * e w 2%nat;
     e v 0%nat * e w 1%nat - e v 1%nat * e w 0%nat].
  (** Eigen's a == b on vectors of the same size. *)
  Definition veqb (v w : list T) : bool := forallb (fun p => fst p =? snd p) (combine v w).

  (** feasibility_base.cpp:54-59 HalfPlane(point, normal). *)
  Definition half_plane_new (point normal : list T) : outcome (half_plane T) :=
    if n0 <? vnorm normal then Ok (mkHalfPlane point (vnormalize normal)) else Abort.
  (** feasibility_base.cpp:61-67 HalfPlane(a, b, c). *)
  Definition half_plane_points (a b c : list T) : outcome (half_plane T) :=
    if veqb a b then Abort else if veqb a c then Abort
    else Ok (mkHalfPlane a (vnormalize (vcross (vsub b a) (vsub c a)))).
  (** feasibility_base.cpp:69-86 createBoundingBox. *)
  Definition createBoundingBox (point size : list T) : outcome (list (half_plane T)) :=
    let bbx_min := map (fun p => fst p - snd p / nofZ 2) (combine point size) in
    let bbx_max := map (fun p => fst p + snd p / nofZ 2) (combine point size) in
    ofold (fun box axis =>
      lo <-- half_plane_new bbx_min (map (fun i => if Nat.eqb i axis then n1 else n0) (seq 0 3)) ;;
      hi <-- half_plane_new bbx_max (map (fun i => if Nat.eqb i axis then nopp n1 else n0) (seq 0 3)) ;;
      Ok (box ++ [lo; hi])) (seq 0 3) [].

  (** feasibility_base.cpp:88-95: gravity_ is (0, 0, kGravity), no half planes. *)
  Definition checker_new (c : @constraints T) : checker T := mkChecker c [] [n0; n0; kGravity].

  (** feasibility_base.cpp:97-107 checkInputFeasibilityTrajectory, for the
      (virtual) check of a segment. *)
  Fixpoint check_segments (check : segment T -> outcome feasibility) (segs : list (segment T)) (result : feasibility)
    : outcome feasibility :=
    match segs with
    | [] => Ok result
    | s :: segs' =>
        r <-- check s ;;
        match r with kInputFeasible => check_segments check segs' r | _ => Ok r end
    end.
  Definition checkInputFeasibilityTrajectory (check : segment T -> outcome feasibility) (tr : trajectory T) : outcome feasibility :=
    check_segments check (tr_segments tr) kInputIndeterminable.
  (** feasibility_base.h:88-92 checkInputFeasibility of the base class. *)
  Definition base_check (s : segment T) : outcome feasibility := Ok kInputIndeterminable.

  (** feasibility_base.cpp:121, feasibility_recursive.cpp:45,
      feasibility_analytic.cpp:45, feasibility_sampling.cpp:43. *)
  Definition dimension_ok (s : segment T) : bool := Nat.eqb (seg_D s) 3 || Nat.eqb (seg_D s) 4.

  (** feasibility_base.cpp:132-135: the projection of the position. *)
  Definition hp_projection (s : segment T) (hp : half_plane T) : outcome (list T) :=
    ofold (fun proj dim =>
      p <-- seg_index s dim ;; n <-- oget (hp_normal hp) dim ;;
      poly_add proj (poly_scalar_mul p n)) (seq 0 3) (repeat n0 (seg_N s)).
  (** feasibility_base.cpp:144-151: the candidates are checked in order.  Left: the
      function returns false. *)
  Fixpoint hp_check_times (s : segment T) (hp : half_plane T) (ts : list T) : outcome bool :=
    match ts with
    | [] => Ok true
    | t :: ts' =>
        v <-- seg_evaluate s t 0%Z ;; p <-- vec_head v 3 ;;
        if vdot (vsub p (hp_point hp)) (hp_normal hp) <=? n0 then Ok false else hp_check_times s hp ts'
    end.
  (** feasibility_base.cpp:119-154 checkHalfPlaneFeasibility(segment).  When the
      candidates cannot be computed the vector stays empty. *)
  Fixpoint hp_check_planes (rf : @root_oracle T) (s : segment T) (planes : list (half_plane T)) : outcome bool :=
    match planes with
    | [] => Ok true
    | hp :: planes' =>
        proj <-- hp_projection s hp ;;
        c <-- computeMinMaxCandidates rf proj n0 (seg_time s) 0%Z ;;
        b <-- hp_check_times s hp (match c with Some ts => ts | None => [] end) ;;
        if b then hp_check_planes rf s planes' else Ok false
    end.
  Definition checkHalfPlaneSegment (rf : @root_oracle T) (ck : checker T) (s : segment T) : outcome bool :=
    if negb (dimension_ok s) then Ok false else hp_check_planes rf s (ck_planes ck).
  (** feasibility_base.cpp:109-117 checkHalfPlaneFeasibility(trajectory). *)
  Fixpoint hp_check_segments (rf : @root_oracle T) (ck : checker T) (segs : list (segment T)) : outcome bool :=
    match segs with
    | [] => Ok true
    | s :: segs' => b <-- checkHalfPlaneSegment rf ck s ;; if b then hp_check_segments rf ck segs' else Ok false
    end.
  Definition checkHalfPlaneTrajectory (rf : @root_oracle T) (ck : checker T) (tr : trajectory T) : outcome bool :=
    hp_check_segments rf ck (tr_segments tr).

  (** input_constraints_.getConstraint(k, &limit) && test limit. *)
  Definition with_limit (c : @constraints T) (k : Z) (test : T -> bool) : bool :=
    match getConstraint c k with Some limit => test limit | None => false end.
  (** feasibility_recursive.cpp:62-64, 197-199; feasibility_analytic.cpp:52-54. *)
  Definition needs_thrust (c : @constraints T) : bool :=
    hasConstraint c kFMin || hasConstraint c kFMax || hasConstraint c kOmegaXYMax.

  (** std::max(std::abs(a), std::abs(b)). *)
  Definition max_abs (a b : T) : T := nmax (nabs a) (nabs b).

  (** feasibility_recursive.cpp:92-126, feasibility_analytic.cpp:81-111: the yaw
      rate and acceleration of a segment with four dimensions, on [t_1, t_2]. *)
  Definition yaw_limit (rf : @root_oracle T) (c : @constraints T) (s : segment T) (t_1 t_2 : T)
             (k : Z) (derivative : Z) (verdict : feasibility) : outcome (feasibility + unit) :=
    match getConstraint c k with
    | None => Ok (inr tt)
    | Some limit =>
        p <-- seg_index s 3 ;;
        r <-- computeMinMax rf p t_1 t_2 derivative ;;
        match r with
        | None => Ok (inl kInputIndeterminable)
        | Some (mn, mx) => return_if (limit <? max_abs (snd mn) (snd mx)) verdict
        end
    end.
  Definition yaw_check (rf : @root_oracle T) (c : @constraints T) (s : segment T) (t_1 t_2 : T) : outcome (feasibility + unit) :=
    if Nat.eqb (seg_D s) 4 then
      _ <== yaw_limit rf c s t_1 t_2 kOmegaZMax 1%Z kInputInfeasibleYawRates ;;
      yaw_limit rf c s t_1 t_2 kOmegaZDotMax 2%Z kInputInfeasibleYawAcc
    else Ok (inr tt).

  (** ** feasibility_recursive *)

  (** feasibility_recursive.cpp:299-304 evaluateThrust. *)
  Definition evaluateThrust (ck : checker T) (s : segment T) (t : T) : outcome T :=
    v <-- seg_evaluate s t 2%Z ;; a <-- vec_head v 3 ;; Ok (vnorm (vadd a (ck_gravity ck))).
  (** feasibility_recursive.cpp:162, 164: speed at one time. *)
  Definition evaluateSpeed (s : segment T) (t : T) : outcome T :=
    v <-- seg_evaluate s t 1%Z ;; w <-- vec_head v 3 ;; Ok (vnorm w).

  (** feasibility_recursive.cpp:50-81: the roots of one derivative of the first
      three dimensions, when needed; inl: a root finder failed. *)
  Definition axis_roots (rf : @root_oracle T) (s : segment T) (needed : bool) (derivative : Z)
    : outcome (feasibility + list (list (T * T))) :=
    if needed then
      ofold (fun acc i =>
        match acc with
        | inl v => Ok (inl v)
        | inr rs =>
            p <-- seg_index s i ;; r <-- poly_getRoots rf p derivative ;;
            Ok (if fst r then inr (rs ++ [snd r]) else inl kInputIndeterminable)
        end) (seq 0 3) (inr [])
    else Ok (inr []).

  (** segment[i].selectMinMaxFromRoots(t_1, t_2, derivative, roots[i], &min, &max):
      the extreme values.  The flag is ignored by the callers; the pairs start
      out as zeros. *)
  Definition axis_extrema (s : segment T) (t_1 t_2 : T) (derivative : Z) (roots : list (list (T * T))) (i : nat) : outcome (T * T) :=
    p <-- seg_index s i ;; rs <-- oget roots i ;;
    r <-- selectMinMaxFromRoots p t_1 t_2 derivative rs ;;
    Ok (match r with Some (mn, mx) => (snd mn, snd mx) | None => (n0, n0) end).

  (** feasibility_recursive.cpp:139-155: thrust at the boundaries. *)
  Definition boundary_thrust (ck : checker T) (s : segment T) (t_1 t_2 : T) : outcome (feasibility + unit) :=
    let c := ck_input ck in
    if hasConstraint c kFMin || hasConstraint c kFMax then
      f_1 <-- evaluateThrust ck s t_1 ;; f_2 <-- evaluateThrust ck s t_2 ;;
      _ <== return_if (with_limit c kFMin (fun limit => nmin f_1 f_2 <? limit)) kInputInfeasibleThrustLow ;;
      return_if (with_limit c kFMax (fun limit => limit <? nmax f_1 f_2)) kInputInfeasibleThrustHigh
    else Ok (inr tt).
  (** feasibility_recursive.cpp:157-168: velocity at the boundaries. *)
  Definition boundary_velocity (ck : checker T) (s : segment T) (t_1 t_2 : T) : outcome (feasibility + unit) :=
    match getConstraint (ck_input ck) kVMax with
    | None => Ok (inr tt)
    | Some limit =>
        v_1 <-- evaluateSpeed s t_1 ;; v_2 <-- evaluateSpeed s t_2 ;;
        return_if (limit <? nmax v_1 v_2) kInputInfeasibleVelocity
    end.
  (** feasibility_recursive.cpp:176-193: upper bound of the squared velocity.
      std::pow(x, 2) is x * x. *)
  Definition velocity_bound (ck : checker T) (s : segment T) (roots_acc : list (list (T * T))) (t_1 t_2 : T) : outcome (feasibility + T) :=
    match getConstraint (ck_input ck) kVMax with
    | None => Ok (inr n0)
    | Some limit =>
        ofold (fun acc i =>
          match acc with
          | inl v => Ok (inl v)
          | inr v_max_sqr =>
              r <-- axis_extrema s t_1 t_2 1%Z roots_acc i ;;
              Ok (if limit * limit <? nmax (fst r * fst r) (snd r * snd r) then inl kInputInfeasibleVelocity
                  else inr (v_max_sqr + max_abs (fst r) (snd r) * max_abs (fst r) (snd r)))
          end) (seq 0 3) (inr n0)
    end.
  (** feasibility_recursive.cpp:195-228: lower and upper bound of the squared thrust. *)
  Definition thrust_bounds (ck : checker T) (s : segment T) (roots_jerk : list (list (T * T))) (t_1 t_2 : T) : outcome (feasibility + T * T) :=
    let c := ck_input ck in
    if needs_thrust c then
      ofold (fun acc i =>
        match acc with
        | inl v => Ok (inl v)
        | inr (f_min_sqr, f_max_sqr) =>
            r <-- axis_extrema s t_1 t_2 2%Z roots_jerk i ;; g <-- oget (ck_gravity ck) i ;;
            let f_i_min := fst r + g in
            let f_i_max := snd r + g in
            Ok (if with_limit c kFMax (fun limit => limit <? max_abs f_i_min f_i_max) then inl kInputInfeasibleThrustHigh
                else inr ((if f_i_min * f_i_max <? n0 then f_min_sqr + n0
                           else f_min_sqr + nmin (nabs f_i_min) (nabs f_i_max) * nmin (nabs f_i_min) (nabs f_i_max)),
                          f_max_sqr + max_abs f_i_min f_i_max * max_abs f_i_min f_i_max))
        end) (seq 0 3) (inr (n0, n0))
    else Ok (inr (n0, n0)).
  (** feasibility_recursive.cpp:230-242: upper bound of the squared jerk. *)
  Definition jerk_bound (ck : checker T) (s : segment T) (roots_snap : list (list (T * T))) (t_1 t_2 : T) : outcome T :=
    if hasConstraint (ck_input ck) kOmegaXYMax then
      ofold (fun j_max_sqr i =>
        r <-- axis_extrema s t_1 t_2 3%Z roots_snap i ;;
        Ok (j_max_sqr + max_abs (fst r) (snd r) * max_abs (fst r) (snd r))) (seq 0 3) n0
    else Ok n0.

  (** feasibility_recursive.cpp:139-296 for a section that is long enough: a
      verdict, or inr tt: the section has to be halved (line 281). *)
  Definition section_check (ck : checker T) (s : segment T) (roots_acc roots_jerk roots_snap : list (list (T * T))) (t_1 t_2 : T)
    : outcome (feasibility + unit) :=
    let c := ck_input ck in
    _ <== boundary_thrust ck s t_1 t_2 ;;
    _ <== boundary_velocity ck s t_1 t_2 ;;
    v_max_sqr <== velocity_bound ck s roots_acc t_1 t_2 ;;
    f_sqr <== thrust_bounds ck s roots_jerk t_1 t_2 ;;
    j_max_sqr <-- jerk_bound ck s roots_snap t_1 t_2 ;;
    let f_lower_bound := nsqrt (fst f_sqr) in
    let f_upper_bound := nsqrt (snd f_sqr) in
    let v_upper_bound := nsqrt v_max_sqr in
    let omega_xy_upper_bound := if nlit 1 1000000 <? fst f_sqr then nsqrt (j_max_sqr / fst f_sqr) else dbl_max in
    _ <== return_if (with_limit c kFMin (fun limit => f_upper_bound <? limit)) kInputInfeasibleThrustLow ;;
    _ <== return_if (with_limit c kFMax (fun limit => limit <? f_lower_bound)) kInputInfeasibleThrustHigh ;;
    return_if (negb (with_limit c kFMin (fun limit => f_lower_bound <? limit) ||
                     with_limit c kFMax (fun limit => limit <? f_upper_bound) ||
                     with_limit c kVMax (fun limit => limit <? v_upper_bound) ||
                     with_limit c kOmegaXYMax (fun limit => limit <? omega_xy_upper_bound))) kInputFeasible.

  (** The recursion of feasibility_recursive.cpp:135-138, 281-294 and
      feasibility_analytic.cpp:182-184, 213-228.  None: more than fuel nested calls. *)
  Fixpoint halving (min_section : T) (check : T -> T -> outcome (feasibility + unit)) (fuel : nat) (t_1 t_2 : T)
    : outcome (option feasibility) :=
    if t_2 - t_1 <? min_section then Ok (Some kInputIndeterminable)
    else match fuel with
         | O => Ok None
         | S fuel' =>
             r <-- check t_1 t_2 ;;
             match r with
             | inl v => Ok (Some v)
             | inr _ =>
                 let t_half := (t_1 + t_2) / nofZ 2 in
                 r1 <-- halving min_section check fuel' t_1 t_half ;;
                 match r1 with
                 | Some kInputFeasible => halving min_section check fuel' t_half t_2
                 | _ => Ok r1
                 end
             end
         end.
  (** feasibility_recursive.cpp:133-297 recursiveFeasibility. *)
  Definition recursiveFeasibility (ck : checker T) (min_section : T) (fuel : nat) (s : segment T)
             (roots_acc roots_jerk roots_snap : list (list (T * T))) (t_1 t_2 : T) : outcome (option feasibility) :=
    halving min_section (section_check ck s roots_acc roots_jerk roots_snap) fuel t_1 t_2.

  (** feasibility_recursive.h:57-59, feasibility_analytic.h:43-45
      setMinSectionTimeS, feasibility_sampling.h:38-40 setSamplingIntervalS. *)
  Definition setting (x : T) : T := nabs x.
  (** feasibility_recursive.cpp:32, feasibility_analytic.cpp:31,
      feasibility_sampling.cpp:28: the default settings. *)
  Definition default_min_section : T := nlit 5 100.
  Definition default_sampling_interval : T := nlit 1 100.

  (** feasibility_recursive.cpp:42-131 checkInputFeasibility.  None: the recursion
      goes deeper than fuel. *)
  Definition recursive_check (rf : @root_oracle T) (ck : checker T) (min_section : T) (fuel : nat) (s : segment T)
    : outcome (option feasibility) :=
    let c := ck_input ck in
    if negb (dimension_ok s) then Ok (Some kInputIndeterminable)
    else
      ra <-- axis_roots rf s (hasConstraint c kVMax) 2%Z ;;
      match ra with inl v => Ok (Some v) | inr roots_acc =>
      rj <-- axis_roots rf s (needs_thrust c) 3%Z ;;
      match rj with inl v => Ok (Some v) | inr roots_jerk =>
      rs <-- axis_roots rf s (hasConstraint c kOmegaXYMax) 4%Z ;;
      match rs with inl v => Ok (Some v) | inr roots_snap =>
      r <-- recursiveFeasibility ck min_section fuel s roots_acc roots_jerk roots_snap n0 (seg_time s) ;;
      match r with
      | Some kInputFeasible =>
          v <-- finish (yaw_check rf c s n0 (seg_time s)) kInputFeasible ;; Ok (Some v)
      | _ => Ok r
      end end end end.

  (** ** feasibility_analytic *)

  (** feasibility_analytic.cpp:24 kPosDim. *)
  Definition kPosDim : list Z := [0; 1; 2]%Z.
  (** std::min_element and std::max_element on extrema, dereferenced: the first
      smallest (largest); undefined for an empty vector. *)
  Definition min_element (es : list (extremum T)) : outcome (extremum T) :=
    match es with [] => UB | e :: es' => Ok (fold_left ext_min es' e) end.
  Definition max_element (es : list (extremum T)) : outcome (extremum T) :=
    match es with [] => UB | e :: es' => Ok (fold_left ext_max es' e) end.

  (** feasibility_analytic.cpp:135-145: the thrust segment.  The segment with N - 2
      coefficients is created at line 51; N - 2 < 0 is undefined, and so is the
      access to thrust_coeffs(0) for N = 2. *)
  Definition thrust_coefficients (ck : checker T) (s : segment T) (i : nat) : outcome (list T) :=
    p <-- seg_index s i ;; a <-- poly_getCoefficients p 2%Z ;;
    h <-- vec_head a (Z.of_nat (seg_N s) - 2) ;; g <-- oget (ck_gravity ck) i ;;
    match h with [] => UB | x :: h' => Ok ((x + g) :: h') end.
  Definition thrust_segment (ck : checker T) (s : segment T) : outcome (segment T) :=
    ps <-- omap (thrust_coefficients ck s) (seq 0 3) ;; Ok (mkSegment (seg_N s - 2) ps (seg_time s)).

  (** feasibility_analytic.cpp:132-175 analyticThrustFeasibility: the verdict or
      the thrust segment with its candidates. *)
  Definition analytic_thrust (rf : @root_oracle T) (ck : checker T) (s : segment T)
    : outcome (feasibility + segment T * list (extremum T)) :=
    let c := ck_input ck in
    f <-- thrust_segment ck s ;;
    r <-- seg_candidates rf f 0%Z n0 (seg_time f) kPosDim ;;
    if negb (fst r) then Ok (inl kInputIndeterminable)
    else
      _ <== match getConstraint c kFMin with
            | None => Ok (inr tt)
            | Some limit => e <-- min_element (snd r) ;; return_if (ext_value e <? limit) kInputInfeasibleThrustLow
            end ;;
      _ <== match getConstraint c kFMax with
            | None => Ok (inr tt)
            | Some limit => e <-- max_element (snd r) ;; return_if (limit <? ext_value e) kInputInfeasibleThrustHigh
            end ;;
      Ok (inr (f, snd r)).
  (** feasibility_analytic.cpp:62-77: velocity. *)
  Definition analytic_velocity (rf : @root_oracle T) (ck : checker T) (s : segment T) : outcome (feasibility + unit) :=
    match getConstraint (ck_input ck) kVMax with
    | None => Ok (inr tt)
    | Some limit =>
        r <-- seg_candidates rf s 1%Z n0 (seg_time s) kPosDim ;;
        if negb (fst r) then Ok (inl kInputIndeterminable)
        else e <-- max_element (snd r) ;; return_if (limit <? ext_value e) kInputInfeasibleVelocity
    end.

  (** feasibility_analytic.cpp:186-231 for a section that is long enough; inr tt:
      halve it.  Extremum() is all zeros (extremum.h:32). *)
  Definition roll_pitch_section (c : @constraints T) (thrust_candidates jerk_candidates : list (extremum T)) (t_1 t_2 : T)
    : outcome (feasibility + unit) :=
    let e0 := mkExtremum n0 n0 0%Z in
    match seg_selectMinMax t_1 t_2 thrust_candidates e0 e0, seg_selectMinMax t_1 t_2 jerk_candidates e0 e0 with
    | Some (f_min, _), Some (_, j_max) =>
        let omega_xy_upper_bound :=
          if nlit 1 1000000 <? ext_value f_min then nsqrt (ext_value j_max / ext_value f_min) else dbl_max in
        match getConstraint c kOmegaXYMax with
        | None => Ok (inl kInputFeasible)
        | Some limit => Ok (if limit <? omega_xy_upper_bound then inr tt else inl kInputFeasible)
        end
    | _, _ => Ok (inl kInputIndeterminable)
    end.
  (** feasibility_analytic.cpp:177-233 recursiveRollPitchFeasibility. *)
  Definition recursiveRollPitch (c : @constraints T) (min_section : T) (fuel : nat)
             (thrust_candidates jerk_candidates : list (extremum T)) (t_1 t_2 : T) : outcome (option feasibility) :=
    halving min_section (roll_pitch_section c thrust_candidates jerk_candidates) fuel t_1 t_2.

  (** feasibility_analytic.cpp:42-130 checkInputFeasibility.  None: the recursion
      goes deeper than fuel. *)
  Definition analytic_check (rf : @root_oracle T) (ck : checker T) (min_section : T) (fuel : nat) (s : segment T)
    : outcome (option feasibility) :=
    let c := ck_input ck in
    if negb (dimension_ok s) then Ok (Some kInputIndeterminable)
    else if Nat.ltb (seg_N s) 2 then UB
    else
      r <-- (tc <== (if needs_thrust c then r <== analytic_thrust rf ck s ;; Ok (inr (snd r)) else Ok (inr [])) ;;
             _ <== analytic_velocity rf ck s ;;
             _ <== yaw_check rf c s n0 (seg_time s) ;;
             Ok (inr tc)) ;;
      match r with
      | inl v => Ok (Some v)
      | inr thrust_candidates =>
          if hasConstraint c kOmegaXYMax then
            jc <-- seg_candidates rf s 3%Z n0 (seg_time s) kPosDim ;;
            if negb (fst jc) then Ok (Some kInputIndeterminable)
            else recursiveRollPitch c min_section fuel thrust_candidates (snd jc) n0 (seg_time s)
          else Ok (Some kInputFeasible)
      end.

  (** ** feasibility_sampling *)
  Variable mav : mav_functions T.
  (** mav_msgs::EigenMavStateFromEigenTrajectoryPoint. *)
  Variable full_state : point T -> mav_state T.

  (** feasibility_sampling.cpp:74-126: the checks of one state. *)
  Definition state_check (c : @constraints T) (st : mav_state T) : outcome (feasibility + unit) :=
    let thrust := vnorm (ms_acceleration_B st) in
    w2 <-- vec_head (ms_angular_velocity_B st) 2 ;;
    wz <-- oget (ms_angular_velocity_B st) 2 ;;
    az <-- oget (ms_angular_acceleration_B st) 2 ;;
    _ <== return_if (with_limit c kFMin (fun limit => thrust <? limit)) kInputInfeasibleThrustLow ;;
    _ <== return_if (with_limit c kFMax (fun limit => limit <? thrust)) kInputInfeasibleThrustHigh ;;
    _ <== return_if (with_limit c kVMax (fun limit => limit <? vnorm (ms_velocity_W st))) kInputInfeasibleVelocity ;;
    _ <== return_if (with_limit c kOmegaXYMax (fun limit => limit <? vnorm w2)) kInputInfeasibleRollPitchRates ;;
    _ <== return_if (with_limit c kOmegaZMax (fun limit => limit <? nabs wz)) kInputInfeasibleYawRates ;;
    return_if (with_limit c kOmegaZDotMax (fun limit => limit <? nabs az)) kInputInfeasibleYawAcc.
  (** feasibility_sampling.cpp:49-72: the state at one time. *)
  Definition state_at (s : segment T) (t : T) : outcome (mav_state T) :=
    p <-- seg_evaluate s t 0%Z ;; v <-- seg_evaluate s t 1%Z ;; a <-- seg_evaluate s t 2%Z ;;
    j <-- seg_evaluate s t 3%Z ;; sn <-- seg_evaluate s t 4%Z ;;
    pt <-- fill_state mav (seg_D s) p v a j sn t point_new ;;
    Ok (full_state pt).
  (** feasibility_sampling.cpp:47-131: the loop.  None: more than fuel samples. *)
  Fixpoint sampling_loop (c : @constraints T) (dt : T) (s : segment T) (fuel : nat) (t : T) : outcome (option feasibility) :=
    if t <=? seg_time s then
      match fuel with
      | O => Ok None
      | S fuel' =>
          st <-- state_at s t ;;
          r <-- state_check c st ;;
          match r with
          | inl v => Ok (Some v)
          | inr _ => sampling_loop c dt s fuel' (t + dt)
          end
      end
    else Ok (Some kInputFeasible).
  (** feasibility_sampling.cpp:40-132 checkInputFeasibility. *)
  Definition sampling_check (ck : checker T) (dt : T) (fuel : nat) (s : segment T) : outcome (option feasibility) :=
    if negb (dimension_ok s) then Ok (Some kInputIndeterminable)
    else sampling_loop (ck_input ck) dt s fuel n0.
End Feasibility.
