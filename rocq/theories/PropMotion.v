(** Property C54 (names of derivative orders). *)
From Coq Require Import ZArith String List Lia.
From Verif Require Import ModelMotion.
Import ListNotations.
Local Open Scope Z_scope.

(** The documented names. *)
Definition position_name (d : Z) (s : string) : Prop :=
  (d, s) = (0, "position"%string) \/ (d, s) = (1, "velocity"%string) \/ (d, s) = (2, "acceleration"%string) \/
  (d, s) = (3, "jerk"%string) \/ (d, s) = (4, "snap"%string).
Definition orientation_name (d : Z) (s : string) : Prop :=
  (d, s) = (0, "orientation"%string) \/ (d, s) = (1, "angular_velocity"%string) \/ (d, s) = (2, "angular_acceleration"%string).

Lemma range5 d : 0 <= d <= 4 -> d = 0 \/ d = 1 \/ d = 2 \/ d = 3 \/ d = 4.
Proof. lia. Qed.

Theorem C54_position_roundtrip (d : Z) :
  positionDerivativeToInt (positionDerivativeToString d) = (if (0 <=? d) && (d <=? 4) then d else -1)%bool /\
  (0 <= d <= 4 -> position_name d (positionDerivativeToString d)) /\
  (~ 0 <= d <= 4 -> positionDerivativeToString d = "invalid"%string).
Proof.
  unfold position_name. destruct (Z.leb_spec 0 d) as [H0|H0]; destruct (Z.leb_spec d 4) as [H4|H4]; cbn [andb].
  - destruct (range5 d ltac:(lia)) as [-> | [-> | [-> | [-> | ->]]]]; cbn; (split; [reflexivity|]); (split; [tauto|lia]).
  - unfold positionDerivativeToString. replace ((0 <=? d) && (d <=? 4))%bool with false by (destruct (Z.leb_spec d 4); [lia|]; destruct (0 <=? d); reflexivity).
    split; [reflexivity|]. split; [lia|reflexivity].
  - unfold positionDerivativeToString. replace (0 <=? d) with false by (destruct (Z.leb_spec 0 d); [lia|reflexivity]).
    split; [reflexivity|]. split; [lia|reflexivity].
  - lia.
Qed.
Print Assumptions C54_position_roundtrip.

Theorem C54_position_names (s : string) (d : Z) :
  (positionDerivativeToInt s = d /\ d <> -1) <-> position_name d s.
Proof.
  unfold position_name, positionDerivativeToInt, INVALID. split.
  - repeat match goal with |- context [String.eqb ?a ?b] => destruct (String.eqb_spec a b) as [->|] end; intros (<- & H); try tauto; congruence.
  - intros [E | [E | [E | [E | E]]]]; injection E as -> ->; split; (reflexivity || discriminate).
Qed.
Print Assumptions C54_position_names.

Theorem C54_orientation_roundtrip (d : Z) :
  orientationDerivativeToInt (orintationDerivativeToString d) = (if (0 <=? d) && (d <=? 2) then d else -1)%bool /\
  (0 <= d <= 2 -> orientation_name d (orintationDerivativeToString d)) /\
  (~ 0 <= d <= 2 -> orintationDerivativeToString d = "invalid"%string).
Proof.
  unfold orientation_name. destruct (Z.leb_spec 0 d) as [H0|H0]; destruct (Z.leb_spec d 2) as [H4|H4]; cbn [andb].
  - assert (D : d = 0 \/ d = 1 \/ d = 2) by lia. destruct D as [-> | [-> | ->]]; cbn; (split; [reflexivity|]); (split; [tauto|lia]).
  - unfold orintationDerivativeToString. replace ((0 <=? d) && (d <=? 2))%bool with false by (destruct (Z.leb_spec d 2); [lia|]; destruct (0 <=? d); reflexivity).
    split; [reflexivity|]. split; [lia|reflexivity].
  - unfold orintationDerivativeToString. replace (0 <=? d) with false by (destruct (Z.leb_spec 0 d); [lia|reflexivity]).
    split; [reflexivity|]. split; [lia|reflexivity].
  - lia.
Qed.
Print Assumptions C54_orientation_roundtrip.

Theorem C54_orientation_names (s : string) (d : Z) :
  (orientationDerivativeToInt s = d /\ d <> -1) <-> orientation_name d s.
Proof.
  unfold orientation_name, orientationDerivativeToInt, INVALID. split.
  - repeat match goal with |- context [String.eqb ?a ?b] => destruct (String.eqb_spec a b) as [->|] end; intros (<- & H); try tauto; congruence.
  - intros [E | [E | E]]; injection E as -> ->; split; (reflexivity || discriminate).
Qed.
Print Assumptions C54_orientation_names.

Theorem C54_names_distinct (d d' : Z) :
  (0 <= d <= 4 -> 0 <= d' <= 4 -> positionDerivativeToString d = positionDerivativeToString d' -> d = d') /\
  (0 <= d <= 2 -> 0 <= d' <= 2 -> orintationDerivativeToString d = orintationDerivativeToString d' -> d = d').
Proof.
  split; intros H H' E.
  - destruct (C54_position_roundtrip d) as (R & _). destruct (C54_position_roundtrip d') as (R' & _). rewrite E, R' in R.
    replace ((0 <=? d) && (d <=? 4))%bool with true in R by lia. replace ((0 <=? d') && (d' <=? 4))%bool with true in R by lia. congruence.
  - destruct (C54_orientation_roundtrip d) as (R & _). destruct (C54_orientation_roundtrip d') as (R' & _). rewrite E, R' in R.
    replace ((0 <=? d) && (d <=? 2))%bool with true in R by lia. replace ((0 <=? d') && (d' <=? 2))%bool with true in R by lia. congruence.
Qed.
Print Assumptions C54_names_distinct.
Example C54_example : positionDerivativeToString 3 = "jerk"%string /\ positionDerivativeToInt "snap" = 4 /\
  positionDerivativeToInt "yaw" = -1 /\ orintationDerivativeToString 7 = "invalid"%string.
Proof. repeat split. Qed.
