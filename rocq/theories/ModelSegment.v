(** Model of Segment and Extremum
    (mav_trajectory_generation/include/mav_trajectory_generation/segment.h,
     mav_trajectory_generation/src/segment.cpp, extremum.h). *)
From Coq Require Import ZArith List Bool.
From Verif Require Import Num ModelPolynomial.
Import ListNotations.

(** segment.h:44-47,119-125: members N_, polynomials_, time_.  D_ is the length
    of [seg_polys] (the constructor resizes polynomials_ to D_ and nothing
    changes either afterwards).  The polynomials can be replaced through the
    mutable operator[] (cpp:41-44), so their lengths need not be N_. Negative N
    or D are outside the model. *)
Record segment (T : Type) := mkSegment {
  seg_N : nat;
  seg_polys : list (list T);
  seg_time : T
}.
Arguments mkSegment {T} _ _ _.
Arguments seg_N {T} _.
Arguments seg_polys {T} _.
Arguments seg_time {T} _.
Definition seg_D {T} (s : segment T) : nat := length (seg_polys s).

(** extremum.h:29-44. *)
Record extremum (T : Type) := mkExtremum {
  ext_time : T;
  ext_value : T;
  ext_segment : Z
}.
Arguments mkExtremum {T} _ _ _.
Arguments ext_time {T} _.
Arguments ext_value {T} _.
Arguments ext_segment {T} _.

Section Segment.
  Context {T : Type} {ops : NumOps T}.
  Local Open Scope num_scope.

  (** segment.h:44-46 Segment(int N, int D): time 0, D polynomials of N
      coefficients.  polynomial.h:52: Polynomial(int N) sets the coefficients to zero. *)
  Definition seg_new (N D : nat) : segment T := mkSegment N (repeat (repeat n0 N) D) n0.

  (** segment.cpp:41-49 operator[]. *)
  Definition seg_index (s : segment T) (idx : nat) : outcome (list T) :=
    if Nat.ltb idx (seg_D s) then oget (seg_polys s) idx else Abort.

  (** segment.h:61 setTime. *)
  Definition seg_setTime (s : segment T) (t : T) : segment T :=
    mkSegment (seg_N s) (seg_polys s) t.

  (** segment.cpp:28-39 operator==. *)
  Fixpoint polys_eqb (ps qs : list (list T)) : outcome bool :=
    match ps, qs with
    | p :: ps', q :: qs' =>
        b <-- poly_eqb p q ;;
        if b then polys_eqb ps' qs' else Ok false
    | _, _ => Ok true
    end.
  Definition seg_eqb (s r : segment T) : outcome bool :=
    if negb (Nat.eqb (seg_D s) (seg_D r)) || negb (seg_time s =? seg_time r)
    then Ok false
    else polys_eqb (seg_polys s) (seg_polys r).

  (** segment.cpp:51-58 evaluate. *)
  Definition seg_evaluate (s : segment T) (t : T) (derivative : Z) : outcome (list T) :=
    omap (fun p => poly_evaluate p t derivative) (seg_polys s).

  (** Eigen's v.head(n): n must be in [0, size]. *)
  Definition vec_head (v : list T) (n : Z) : outcome (list T) :=
    if (n <? 0)%Z || (Z.of_nat (length v) <? n)%Z then UB
    else Ok (firstn (Z.to_nat n) v).

  (** segment.cpp:99-117: loop over the dimensions accumulating the convolution
      of the derivative with the next derivative.  None: an out-of-range
      dimension was met (returns false). *)
  Fixpoint convolved_sum (s : segment T) (derivative n_d n_dd : Z)
           (dims : list Z) (acc : list T) : outcome (option (list T)) :=
    match dims with
    | [] => Ok (Some acc)
    | dim :: dims' =>
        if (dim <? 0)%Z || (Z.of_nat (seg_D s) <=? dim)%Z then Ok None
        else
          p <-- oget (seg_polys s) (Z.to_nat dim) ;;
          cd <-- poly_getCoefficients p derivative ;;
          d <-- vec_head cd n_d ;;
          cdd <-- poly_getCoefficients p (derivative + 1) ;;
          dd <-- vec_head cdd n_dd ;;
          cv <-- convolve d dd ;;
          acc' <-- poly_add acc cv ;;
          convolved_sum s derivative n_d n_dd dims' acc'
    end.

  (** segment.cpp:83-134 computeMinMaxMagnitudeCandidateTimes.  None: returns
      false (with an empty output vector).  VectorXd of negative size is
      undefined; dimensions[0] is not range-checked in the single-dimension case. *)
  Definition seg_candidateTimes (rf : root_oracle) (s : segment T) (derivative : Z)
             (t_start t_end : T) (dims : list Z) : outcome (option (list T)) :=
    match dims with
    | [] => Ok None
    | [dim] =>
        p <-- (if (dim <? 0)%Z then UB else oget (seg_polys s) (Z.to_nat dim)) ;;
        computeMinMaxCandidates rf p t_start t_end derivative
    | _ =>
        let n_d := (Z.of_nat (seg_N s) - derivative)%Z in
        let n_dd := (n_d - 1)%Z in
        let len := getConvolutionLength n_d n_dd in
        if (len <? 0)%Z then UB
        else
          r <-- convolved_sum s derivative n_d n_dd dims (repeat n0 (Z.to_nat len)) ;;
          match r with
          | None => Ok None
          | Some conv => computeMinMaxCandidates rf conv t_start t_end (-1)
          end
    end.

  (** segment.cpp:149-154: magnitude at one candidate time.  std::pow(x, 2) is
      modelled as x * x.  polynomials_[dim] is not range-checked. *)
  Definition seg_magnitude (s : segment T) (derivative : Z) (dims : list Z) (t : T) : outcome T :=
    m <-- ofold (fun m dim =>
                   p <-- (if (dim <? 0)%Z then UB else oget (seg_polys s) (Z.to_nat dim)) ;;
                   v <-- poly_evaluate p t derivative ;;
                   Ok (m + v * v)) dims n0 ;;
    Ok (nsqrt m).

  (** segment.cpp:136-159 computeMinMaxMagnitudeCandidates: the returned flag and
      the candidates.  The flag of the inner call is ignored. *)
  Definition seg_candidates (rf : root_oracle) (s : segment T) (derivative : Z)
             (t_start t_end : T) (dims : list Z) : outcome (bool * list (extremum T)) :=
    r <-- seg_candidateTimes rf s derivative t_start t_end dims ;;
    let times := match r with None => [] | Some ts => ts end in
    es <-- omap (fun t => m <-- seg_magnitude s derivative dims t ;;
                          Ok (mkExtremum t m 0)) times ;;
    Ok (true, es).

  (** std::max / std::min on Extremum with operator< (extremum.h:37). *)
  Definition ext_max (a b : extremum T) : extremum T :=
    if ext_value a <? ext_value b then b else a.
  Definition ext_min (a b : extremum T) : extremum T :=
    if ext_value b <? ext_value a then b else a.

  (** segment.cpp:161-185 selectMinMaxMagnitudeFromCandidates on the caller's
      objects (minimum, maximum).  None: returns false, objects unchanged. *)
  Definition seg_selectMinMax (t_start t_end : T) (candidates : list (extremum T))
             (mn mx : extremum T) : option (extremum T * extremum T) :=
    if t_end <? t_start then None
    else
      Some (fold_left
              (fun st c =>
                 if (ext_time c <? t_start) || (t_end <? ext_time c) then st
                 else (ext_min (fst st) c, ext_max (snd st) c))
              candidates
              (mkExtremum (ext_time mn) dbl_max (ext_segment mn),
               mkExtremum (ext_time mx) dbl_lowest (ext_segment mx))).

  (** segment.cpp:187-199 getSegmentWithSingleDimension into a distinct object.
      None: returns false. *)
  Definition seg_single (s : segment T) (dim : Z) : outcome (option (segment T)) :=
    if (dim <? 0)%Z || (Z.of_nat (seg_D s) <=? dim)%Z then Ok None
    else
      p <-- oget (seg_polys s) (Z.to_nat dim) ;;
      Ok (Some (mkSegment (seg_N s) [p] (seg_time s))).

  (** The same function called with new_segment == this: the assignment
      [*new_segment = Segment(N_, 1)] overwrites the members read afterwards. *)
  Definition seg_single_aliased (s : segment T) (dim : Z) : outcome (option (segment T)) :=
    if (dim <? 0)%Z || (Z.of_nat (seg_D s) <=? dim)%Z then Ok None
    else
      let s' := seg_new (seg_N s) 1 in
      p <-- oget (seg_polys s') (Z.to_nat dim) ;;
      Ok (Some (mkSegment (seg_N s') [p] (seg_time s'))).

  (** Where new_segment of getSegmentWithAppendedDimension points. *)
  Inductive append_target := ToOther | ToThis | ToArgument.

  (** x[i] = v for an index in range. *)
  Fixpoint list_set {A : Type} (l : list A) (i : nat) (v : A) : list A :=
    match l, i with
    | [], _ => []
    | _ :: l', O => v :: l'
    | x :: l', S j => x :: list_set l' j v
    end.

  (** segment.cpp:233-240, equal numbers of coefficients: fill the output [out]
      from the (scaled) copies; [D] is the value of D_ at that point. *)
  Definition append_equal (D : nat) (cur app : list (list T)) (out : list (list T)) (i : nat)
    : outcome (list (list T)) :=
    p <-- (if Nat.ltb i D
           then (if Nat.ltb i (length cur) then oget cur i else Abort)
           else (if Nat.ltb (i - D) (length app) then oget app (i - D) else Abort)) ;;
    Ok (list_set out i p).

  (** segment.cpp:241-257, different numbers of coefficients.  [D] is the value
      of D_ at that point; this->polynomials_ and segment_to_append read the
      output vector itself when they are the output object.  None: returns false. *)
  Definition append_differing (target : append_target) (D : nat) (this app : list (list T))
             (new_N : nat) (st : option (list (list T))) (i : nat)
    : outcome (option (list (list T))) :=
    match st with
    | None => Ok None
    | Some out =>
        let this' := match target with ToThis => out | _ => this end in
        let app' := match target with ToArgument => out | _ => app end in
        p <-- (if Nat.ltb i D then oget this' i
               else if Nat.ltb (i - D) (length app') then oget app' (i - D) else Abort) ;;
        let r := poly_append p (Z.of_nat new_N) in
        Ok (if fst r then Some (list_set out i (snd r)) else None)
    end.

  (** segment.cpp:201-262 getSegmentWithAppendedDimension.  [this] and [app] are
      the operands on entry; the assignment at line 231 overwrites the output
      object, so N_, D_ (resp. segment_to_append.N()) are re-read from it if it
      is an operand.  None: returns false. *)
  Definition seg_append (target : append_target) (this app : segment T)
    : outcome (option (segment T)) :=
    if Nat.eqb (seg_N this) 0 || Nat.eqb (seg_D this) 0 then Ok (Some app)
    else if Nat.eqb (seg_N app) 0 || Nat.eqb (seg_D app) 0 then Ok (Some this)
    else
      let new_N := Nat.max (seg_N app) (seg_N this) in
      let new_D := (seg_D this + seg_D app)%nat in
      let new_time := nmax (seg_time this) (seg_time app) in
      let scale_this := (seg_time this <? new_time) && (n0 <? new_time) in
      let scale_app := negb scale_this && ((seg_time app <? new_time) && (n0 <? new_time)) in
      let cur_polys :=
        if scale_this
        then map (fun p => poly_scale_time p (seg_time this / new_time)) (seg_polys this)
        else seg_polys this in
      let app_polys :=
        if scale_app
        then map (fun p => poly_scale_time p (seg_time app / new_time)) (seg_polys app)
        else seg_polys app in
      let out := seg_polys (seg_new new_N new_D) in
      let this_N := match target with ToThis => new_N | _ => seg_N this end in
      let this_D := match target with ToThis => new_D | _ => seg_D this end in
      let app_N := match target with ToArgument => new_N | _ => seg_N app end in
      r <-- (if Nat.eqb this_N app_N
             then ps <-- ofold (append_equal this_D cur_polys app_polys) (seq 0 new_D) out ;;
                  Ok (Some ps)
             else ofold (append_differing target this_D (seg_polys this) (seg_polys app) new_N)
                        (seq 0 new_D) (Some out)) ;;
      match r with
      | None => Ok None
      | Some ps => Ok (Some (mkSegment new_N ps new_time))
      end.

  (** segment.cpp:264-276 offsetSegment; None: returns false, segment unchanged. *)
  Definition seg_offset (s : segment T) (o : list T) : option (segment T) :=
    let n := Nat.min (seg_D s) 3 in
    if Nat.ltb (length o) n then None
    else Some (mkSegment (seg_N s)
                 (map (fun i => let p := nth i (seg_polys s) [] in
                                if Nat.ltb i n then poly_offset p (nth i o n0) else p)
                      (seq 0 (seg_D s)))
                 (seg_time s)).
End Segment.
