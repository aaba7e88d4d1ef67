(** Model of Polynomial
    (mav_trajectory_generation/include/mav_trajectory_generation/polynomial.h,
     mav_trajectory_generation/src/polynomial.cpp and convolution.h).

    A [Polynomial] is represented by its coefficient vector (lowest order
    first).  The member N_ is the length of that list: every constructor
    (polynomial.h:52-61) and setter (91-94) keeps N_ == coefficients_.size();
    [Polynomial(int N)] with N < 0 is outside the model.  C++ [int] is modelled
    by [Z] without overflow. *)
From Coq Require Import ZArith List Bool.
From Verif Require Import Num.
Import ListNotations.

Section Polynomial.
  Context {T : Type} {ops : NumOps T}.
  Local Open Scope num_scope.

  (** polynomial.h:44-47: kMaxN = 12, kMaxConvolutionSize = 2*kMaxN - 2. *)
  Definition kMaxN : nat := 12.
  Definition kMaxConvolutionSize : nat := 2 * kMaxN - 2.

  (** polynomial.cpp:145-160 computeBaseCoefficients, entry (n, i).  Row 0 is
      all ones; iteration n of the loop has DEG - order = n - 1, so it writes
      the entries i >= n-1 of row n as (i - (n-1)) * row(n-1)[i]; the others
      keep the initial zero.  The table is 22 x 22 (polynomial.cpp:213-214);
      range checks are made by the callers below. *)
  Fixpoint base_coefficient (n i : nat) : T :=
    match n with
    | O => n1
    | S m => if Nat.ltb i m then n0
             else nofZ (Z.of_nat i - Z.of_nat m) * base_coefficient m i
    end.

  Definition coeff (c : list T) (j : nat) : T := nth j c n0.

  (** Horner loop of polynomial.h:143-147 (and 125-129): j runs from
      d+k-1 down to d; acc = acc * t + row[j] * coefficients_[j]. *)
  Fixpoint horner (f : nat -> T) (t : T) (d k : nat) (acc : T) : T :=
    match k with
    | O => acc
    | S k' => horner f t d k' (acc * t + f (d + k')%nat)
    end.

  (** One evaluation row: polynomial.h:141-148 with derivative d < N. *)
  Definition eval_row (c : list T) (t : T) (d : nat) : T :=
    let N := length c in
    let f := fun j => base_coefficient d j * coeff c j in
    horner f t d (N - 1 - d) (f (N - 1)%nat).

  (** polynomial.h:136-149 double evaluate(double t, int derivative).
      base_coefficients_.block(derivative, 0, 1, N_) is out of range for
      derivative < 0 or N_ > 22. *)
  Definition poly_evaluate (c : list T) (t : T) (derivative : Z) : outcome T :=
    let N := Z.of_nat (length c) in
    if (N <=? derivative)%Z then Ok n0
    else if (derivative <? 0)%Z || (Nat.ltb kMaxConvolutionSize (length c)) then UB
    else Ok (eval_row c t (Z.to_nat derivative)).

  (** polynomial.h:118-132 void evaluate(double t, VectorXd* result), where
      [size] is result->size(). *)
  Definition poly_evaluate_vec (c : list T) (t : T) (size : nat) : outcome (list T) :=
    if Nat.ltb (length c) size then Abort
    else if Nat.eqb size 0 then Ok []
    else if Nat.ltb kMaxConvolutionSize (length c) then UB
    else Ok (map (eval_row c t) (seq 0 size)).

  (** polynomial.h:98-113 getCoefficients.  derivative < 0 makes head()/tail()
      exceed the vector; block(derivative, derivative, 1, N-derivative) needs
      derivative + 1 <= 22 and N <= 22. *)
  Definition poly_getCoefficients (c : list T) (derivative : Z) : outcome (list T) :=
    let N := length c in
    if (Z.of_nat N <? derivative)%Z then Abort
    else if (derivative =? 0)%Z then Ok c
    else if (derivative <? 0)%Z then UB
    else if Nat.ltb kMaxConvolutionSize N
            || (Z.of_nat kMaxConvolutionSize <=? derivative)%Z then UB
    else
      let d := Z.to_nat derivative in
      Ok (map (fun j => if Nat.ltb j (N - d)
                        then coeff c (d + j) * base_coefficient d (d + j)
                        else n0) (seq 0 N)).

  (** polynomial.h:91-94 setCoefficients (on a polynomial with N coefficients). *)
  Definition poly_setCoefficients (c coeffs : list T) : outcome (list T) :=
    if Nat.eqb (length c) (length coeffs) then Ok coeffs else Abort.

  (** polynomial.h:55-58 Polynomial(int N, const VectorXd& coeffs). *)
  Definition poly_make (N : Z) (coeffs : list T) : outcome (list T) :=
    if (N =? Z.of_nat (length coeffs))%Z then Ok coeffs else Abort.

  (** polynomial.h:71-77 operator+ and operator+= : Eigen vector sum; differing
      sizes violate Eigen's precondition. *)
  Definition poly_add (c d : list T) : outcome (list T) :=
    if Nat.eqb (length c) (length d)
    then Ok (map (fun p => fst p + snd p) (combine c d)) else UB.

  (** polynomial.h:84-86 operator*(double). *)
  Definition poly_scalar_mul (c : list T) (s : T) : list T := map (fun x => x * s) c.

  (** polynomial.h:65-67 operator==; Eigen compares vectors of equal size. *)
  Definition poly_eqb (c d : list T) : outcome bool :=
    if Nat.eqb (length c) (length d)
    then Ok (forallb (fun p => fst p =? snd p) (combine c d)) else UB.

  (** polynomial.h:235-237 getConvolutionLength. *)
  Definition getConvolutionLength (data_size kernel_size : Z) : Z :=
    (data_size + kernel_size - 1)%Z.

  (** polynomial.cpp:169-178, one output entry i:
      data_idx = i - |kernel| + 1; kernel_idx runs over
      [max(0,-data_idx), min(|kernel|, |data| - data_idx)).
      Index ranges are justified in ProofPolynomial.convolve_indices_in_range. *)
  Definition convolve_entry (data kernel : list T) (i : nat) : T :=
    let data_idx := (Z.of_nat i - Z.of_nat (length kernel) + 1)%Z in
    let lower := Z.to_nat (Z.max 0 (- data_idx)) in
    let upper := Z.to_nat (Z.min (Z.of_nat (length kernel))
                                 (Z.of_nat (length data) - data_idx)) in
    let kernel_reverse := rev kernel in
    fold_left (fun acc kernel_idx =>
                 acc + coeff kernel_reverse kernel_idx
                       * coeff data (Z.to_nat (data_idx + Z.of_nat kernel_idx)))
              (seq lower (upper - lower)) n0.

  (** polynomial.cpp:162-180 convolve.  VectorXd::Zero(-1) for two empty
      vectors is undefined. *)
  Definition convolve (data kernel : list T) : outcome (list T) :=
    let dim := getConvolutionLength (Z.of_nat (length data)) (Z.of_nat (length kernel)) in
    if (dim <? 0)%Z then UB
    else Ok (map (convolve_entry data kernel) (seq 0 (Z.to_nat dim))).

  (** polynomial.h:79-81 operator*(Polynomial). *)
  Definition poly_mul (c d : list T) : outcome (list T) := convolve c d.

  (** convolution.h:31-55, template convolve on fixed sizes D (data) and K
      (kernel), both >= 1. Same loop with fixed-size matrices. *)
  Definition convolve_fixed (data kernel : list T) : list T :=
    map (fun i =>
           let data_idx := (Z.of_nat i - Z.of_nat (length kernel) + 1)%Z in
           let lower := Z.to_nat (Z.max 0 (- data_idx)) in
           let upper := Z.to_nat (Z.min (Z.of_nat (length kernel))
                                        (Z.of_nat (length data) - data_idx)) in
           fold_left (fun acc kernel_idx =>
                 acc + coeff (rev kernel) kernel_idx
                       * coeff data (Z.to_nat (data_idx + Z.of_nat kernel_idx)))
              (seq lower (upper - lower)) n0)
        (seq 0 (length data + length kernel - 1)).

  (** polynomial.cpp:182-197 getPolynomialWithAppendedCoefficients: (returned
      flag, output polynomial).  new_N < 0 falls under new_N < N_. *)
  Definition poly_append (c : list T) (new_N : Z) : bool * list T :=
    let N := Z.of_nat (length c) in
    if (new_N =? N)%Z then (true, c)
    else if (new_N <? N)%Z then (false, c)
    else (true, c ++ repeat n0 (Z.to_nat (new_N - N))).

  (** polynomial.cpp:199-205 scalePolynomialInTime: running factor [scale]. *)
  Fixpoint scale_loop (c : list T) (scale factor : T) : list T :=
    match c with
    | [] => []
    | x :: c' => (x * scale) :: scale_loop c' (scale * factor) factor
    end.
  Definition poly_scale_time (c : list T) (factor : T) : list T := scale_loop c n1 factor.

  (** polynomial.cpp:207-211 offsetPolynomial. *)
  Definition poly_offset (c : list T) (offset : T) : list T :=
    match c with
    | [] => []
    | x :: c' => (x + offset) :: c'
    end.

  (** t_power of polynomial.h:213-218 after k multiplications: t, t*t, (t*t)*t... *)
  Fixpoint t_power (t : T) (k : nat) : T :=
    match k with
    | O => t
    | S j => t_power t j * t
    end.

  (** polynomial.h:201-219 baseCoeffsWithTime. base_coefficients_(d, j) with
      j < N is out of range for N > 22. *)
  Definition baseCoeffsWithTime (N derivative : Z) (t : T) : outcome (list T) :=
    if (N <=? derivative)%Z then Abort
    else if (derivative <? 0)%Z then Abort
    else if (Z.of_nat kMaxConvolutionSize <? N)%Z then UB
    else
      let d := Z.to_nat derivative in
      let small := nabs t <? dbl_epsilon in
      Ok (map (fun j => if Nat.ltb j d then n0
                        else if Nat.eqb j d then base_coefficient d d
                        else if small then n0
                        else base_coefficient d j * t_power t (j - d - 1))
              (seq 0 (Z.to_nat N))).

  (** Roots are complex numbers (re, im) as in Eigen::VectorXcd. *)
  Definition is_candidate (t_start t_end : T) (r : T * T) : bool :=
    negb (dbl_epsilon <? nabs (snd r))
    && negb ((fst r <? t_start) || (t_end <? fst r)).

  (** polynomial.cpp:32-63 selectMinMaxCandidatesFromRoots.  None = returns
      false (output vector untouched). *)
  Definition selectMinMaxCandidatesFromRoots (t_start t_end : T)
             (roots : list (T * T)) : option (list T) :=
    if t_end <? t_start then None
    else Some (t_start :: t_end ::
               map fst (filter (is_candidate t_start t_end) roots)).

  (** The root finder findRootsJenkinsTraub as an oracle: coefficients to
      (success flag, roots).  polynomial.cpp:28-30 getRoots. *)
  Definition root_oracle := list T -> bool * list (T * T).
  Definition poly_getRoots (rf : root_oracle) (c : list T) (derivative : Z)
    : outcome (bool * list (T * T)) :=
    cs <-- poly_getCoefficients c derivative ;; Ok (rf cs).

  (** polynomial.cpp:65-83 computeMinMaxCandidates.  None = returns false
      (output vector cleared).  The root finder's success flag is only logged. *)
  Definition computeMinMaxCandidates (rf : root_oracle) (c : list T)
             (t_start t_end : T) (derivative : Z) : outcome (option (list T)) :=
    if (Z.of_nat (length c) - derivative - 1 <? 0)%Z then Ok None
    else
      r <-- poly_getRoots rf c (derivative + 1) ;;
      Ok (selectMinMaxCandidatesFromRoots t_start t_end (snd r)).

  (** polynomial.cpp:131-141: one iteration of the selection loop on the state
      (minimum pair, maximum pair); pairs are (time, value). *)
  Definition minmax_step (c : list T) (derivative : Z)
             (s : (T * T) * (T * T)) (t : T) : outcome ((T * T) * (T * T)) :=
    value <-- poly_evaluate c t derivative ;;
    let mn := if value <? snd (fst s) then (t, value) else fst s in
    let mx := if snd (snd s) <? value then (t, value) else snd s in
    Ok (mn, mx).

  (** polynomial.cpp:116-143 selectMinMaxFromCandidates. None = returns false. *)
  Definition selectMinMaxFromCandidates (c : list T) (candidates : list T)
             (derivative : Z) : outcome (option ((T * T) * (T * T))) :=
    match candidates with
    | [] => Ok None
    | t0 :: _ =>
        r <-- ofold (minmax_step c derivative) candidates
                    ((t0, dbl_max), (t0, dbl_lowest)) ;;
        Ok (Some r)
    end.

  (** polynomial.cpp:85-100 selectMinMaxFromRoots. *)
  Definition selectMinMaxFromRoots (c : list T) (t_start t_end : T) (derivative : Z)
             (roots : list (T * T)) : outcome (option ((T * T) * (T * T))) :=
    match selectMinMaxCandidatesFromRoots t_start t_end roots with
    | None => Ok None
    | Some cs => selectMinMaxFromCandidates c cs derivative
    end.

  (** polynomial.cpp:102-114 computeMinMax. *)
  Definition computeMinMax (rf : root_oracle) (c : list T) (t_start t_end : T)
             (derivative : Z) : outcome (option ((T * T) * (T * T))) :=
    cs <-- computeMinMaxCandidates rf c t_start t_end derivative ;;
    match cs with
    | None => Ok None
    | Some cs => selectMinMaxFromCandidates c cs derivative
    end.
End Polynomial.
