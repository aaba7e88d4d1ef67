(** C06, C07: extrema of a polynomial's derivative on an interval.
    The root finder is an arbitrary function [rf]; where it matters it is assumed
    to report every real zero inside the interval ([covers_real_roots]).
    The bound (2^1024 - 2^971) is DBL_MAX, the start value of the search. *)
From Coq Require Import Reals Lra Lia List Arith ZArith Bool.
From Coquelicot Require Import Coquelicot.
From Verif Require Import Num RSum SpecPoly ModelPolynomial ProofPolynomial ExtremaMath ProofExtrema.
Import ListNotations.
Open Scope R_scope.

(** * C06 *)
Theorem C06_computeMinMax_global :
  forall rf (c : list R) (a b : R) (d : nat),
    (d < length c <= 22)%nat -> (d < 21)%nat -> a <= b ->
    (forall cs, length cs = length c -> (forall t, poly_fun cs t = Derive_n (poly_fun c) (S d) t) ->
       covers_real_roots (poly_fun cs) a b (snd (rf cs))) ->
    (forall t, a <= t <= b -> Rabs (Derive_n (poly_fun c) d t) < IZR (2 ^ 1024 - 2 ^ 971)) ->
    exists tmin vmin tmax vmax,
      computeMinMax rf c a b (Z.of_nat d) = Ok (Some ((tmin, vmin), (tmax, vmax))) /\
      is_min_on (Derive_n (poly_fun c) d) a b tmin vmin /\
      is_max_on (Derive_n (poly_fun c) d) a b tmax vmax.
Proof. exact computeMinMax_global. Qed.
Print Assumptions C06_computeMinMax_global.

(** x(t) = t^2 - 2t on [0,3] with the exact root finder: all hypotheses hold. *)
Example C06_nonvacuous :
  let c := [0; -2; 1] in let rf := fun _ : list R => (true, [(1, 0)]) in
  (0 < length c <= 22)%nat /\ (0 < 21)%nat /\ 0 <= 3 /\
  (forall cs, length cs = length c -> (forall t, poly_fun cs t = Derive_n (poly_fun c) 1 t) ->
     covers_real_roots (poly_fun cs) 0 3 (snd (rf cs))) /\
  (forall t, 0 <= t <= 3 -> Rabs (Derive_n (poly_fun c) 0 t) < IZR (2 ^ 1024 - 2 ^ 971)) /\
  computeMinMax rf c 0 3 0 = Ok (Some ((1, -1), (3, 3))).
Proof.
  cbv zeta. split; [cbn; lia|]. split; [lia|]. split; [lra|]. split; [|split].
  - intros cs _ H. right. intros t Ht Hz. exists 0. rewrite Rabs_R0. split.
    + left. apply Rinv_0_lt_compat, pow_lt. lra.
    + left. f_equal. rewrite H in Hz. rewrite <- dpoly_Derive_n in Hz.
      unfold dpoly in Hz. cbn in Hz. rnum. lra.
  - intros t Ht. rewrite <- dpoly_Derive_n, dpoly_0. unfold poly_fun. cbn [length rsum nth pow].
    apply Rlt_trans with 10; [apply Rabs_def1; nra|]. apply IZR_lt. reflexivity.
  - exact computeMinMax_example.
Qed.

(** selectMinMaxFromRoots, with the roots passed in directly. *)
Theorem C06_selectMinMaxFromRoots_global :
  forall (c : list R) (a b : R) (d : nat) (roots : list (R * R)),
    (length c <= 22)%nat \/ (length c <= d)%nat -> a <= b ->
    covers_real_roots (Derive_n (poly_fun c) (S d)) a b roots ->
    (forall t, a <= t <= b -> Rabs (Derive_n (poly_fun c) d t) < IZR (2 ^ 1024 - 2 ^ 971)) ->
    exists tmin vmin tmax vmax,
      selectMinMaxFromRoots c a b (Z.of_nat d) roots = Ok (Some ((tmin, vmin), (tmax, vmax))) /\
      is_min_on (Derive_n (poly_fun c) d) a b tmin vmin /\
      is_max_on (Derive_n (poly_fun c) d) a b tmax vmax.
Proof.
  intros c a b d roots. rewrite <- !dpoly_Derive_n. apply selectMinMaxFromRoots_global.
Qed.
Print Assumptions C06_selectMinMaxFromRoots_global.

Example C06_selectMinMaxFromRoots_nonvacuous :
  covers_real_roots (Derive_n (poly_fun [0; -2; 1]) 1) 0 3 [(7, 3); (1, 0)].
Proof.
  right. intros t Ht Hz. exists 0. rewrite Rabs_R0. split.
  - left. apply Rinv_0_lt_compat, pow_lt. lra.
  - right. left. f_equal. rewrite <- dpoly_Derive_n in Hz.
    unfold dpoly in Hz. cbn in Hz. rnum. lra.
Qed.

(** false is returned exactly for a reversed interval or an order >= N; the root
    finder's answer is irrelevant. *)
Theorem C06_computeMinMax_false_iff :
  forall rf (c : list R) (a b : R) (d : nat),
    (length c <= 21)%nat \/ ((length c <= 22)%nat /\ (d < 21)%nat) ->
    (computeMinMax rf c a b (Z.of_nat d) = Ok None <-> b < a \/ (length c <= d)%nat).
Proof. exact computeMinMax_false. Qed.
Print Assumptions C06_computeMinMax_false_iff.

Example C06_false_nonvacuous :
  (length [0; -2; 1]%R <= 21)%nat /\
  computeMinMax (fun _ => (true, [])) [0; -2; 1] 3 0 0 = Ok None.
Proof.
  split; [cbn; lia|]. apply (computeMinMax_false _ _ _ _ 0); [cbn; lia|]. left. lra.
Qed.

(** * C07 *)
Theorem C07_selectMinMaxCandidatesFromRoots :
  forall (a b : R) (roots : list (R * R)),
    (b < a -> selectMinMaxCandidatesFromRoots a b roots = None) /\
    (a <= b -> exists rest, selectMinMaxCandidatesFromRoots a b roots = Some (a :: b :: rest) /\
       (forall t, In t rest <-> exists im, In (t, im) roots /\ Rabs im <= / 2 ^ 52 /\ a <= t <= b) /\
       (length rest <= length roots)%nat).
Proof. exact selectCandidates_exact. Qed.
Print Assumptions C07_selectMinMaxCandidatesFromRoots.

Theorem C07_selectMinMaxFromCandidates :
  forall (c cs : list R) (d : nat),
    (length c <= 22)%nat \/ (length c <= d)%nat ->
    (selectMinMaxFromCandidates c cs (Z.of_nat d) = Ok None <-> cs = []) /\
    (cs <> [] -> (forall t, In t cs -> Rabs (Derive_n (poly_fun c) d t) < IZR (2 ^ 1024 - 2 ^ 971)) ->
     exists tmin vmin tmax vmax,
      selectMinMaxFromCandidates c cs (Z.of_nat d) = Ok (Some ((tmin, vmin), (tmax, vmax))) /\
      first_argmin (Derive_n (poly_fun c) d) cs tmin vmin /\
      first_argmax (Derive_n (poly_fun c) d) cs tmax vmax).
Proof. exact selectFromCandidates_exact. Qed.
Print Assumptions C07_selectMinMaxFromCandidates.

(** A tie (t = 0 and t = 2 both give 0) is resolved to the first candidate. *)
Example C07_nonvacuous :
  (length [0; -2; 1]%R <= 22)%nat /\
  (forall t, In t [2; 0; 1] -> Rabs (Derive_n (poly_fun [0; -2; 1]) 0 t) < IZR (2 ^ 1024 - 2 ^ 971)) /\
  first_argmax (Derive_n (poly_fun [0; -2; 1]) 0) [2; 0; 1] 2 0.
Proof.
  split; [cbn; lia|]. split.
  - intros t Ht. rewrite <- dpoly_Derive_n, dpoly_0. unfold poly_fun. cbn [length rsum nth pow].
    apply Rlt_trans with 10; [|apply IZR_lt; reflexivity].
    destruct Ht as [<-|[<-|[<-|[]]]]; apply Rabs_def1; lra.
  - exists [], [0; 1]. rewrite <- dpoly_Derive_n.
    split; [reflexivity|]. rewrite dpoly_0. unfold poly_fun. cbn [length rsum nth pow].
    split; [lra|]. split; [intros x []|].
    intros x [<-|[<-|[]]]; rewrite dpoly_0; unfold poly_fun; cbn [length rsum nth pow]; lra.
Qed.
