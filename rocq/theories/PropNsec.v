(** C48, C49: segment times stored as whole nanoseconds, in IEEE binary64
    arithmetic. *)
From Coq Require Import ZArith Reals List Bool Lia Lra.
From Flocq Require Import IEEE754.BinarySingleNaN Core.
From Verif Require Import Num RSum ModelPolynomial ModelSegment ModelTrajectory ModelYaml ModelIO ProofIO PropIO ProofNsec.
Import ListNotations.
Open Scope R_scope.

Definition seg_of (t : b64) : segment b64 := mkSegment 1 [[b64_of_Z 1]] t.

(** ** C48.  Exact below 2^52 nanoseconds (52 days); C48_refuted shows that the
    bound of the property, 2^53, is too large. *)
Theorem C48_roundtrip_partial (s : segment b64) (n : Z) : (0 <= n < 2 ^ 52)%Z ->
  @seg_getTimeNSec b64 B64_ops (@seg_setTimeNSec b64 B64_ops s n) = Ok n.
Proof. exact (nsec_roundtrip s n). Qed.
Print Assumptions C48_roundtrip_partial.

(** Up to 2^53 - 3 the result is the value itself or one more. *)
Theorem C48_near (s : segment b64) (n : Z) : (0 <= n < 2 ^ 53 - 2)%Z -> exists m,
  @seg_getTimeNSec b64 B64_ops (@seg_setTimeNSec b64 B64_ops s n) = Ok m /\ (n <= m <= n + 1)%Z.
Proof. exact (nsec_near s n). Qed.
Print Assumptions C48_near.

Example C48_example : (0 <= 1234567890123456 < 2 ^ 52)%Z /\
  @seg_getTimeNSec b64 B64_ops (@seg_setTimeNSec b64 B64_ops (seg_of (b64_of_Z 7)) 1234567890123456) = Ok 1234567890123456%Z.
Proof. split; [lia|vm_compute; reflexivity]. Qed.

Theorem C48_refuted : exists (s : segment b64) (n m : Z), (0 <= n < 2 ^ 53)%Z /\ m <> n /\
  @seg_getTimeNSec b64 B64_ops (@seg_setTimeNSec b64 B64_ops s n) = Ok m.
Proof. exists (seg_of (b64_of_Z 7)), 4503602375511762%Z, 4503602375511763%Z. split; [lia|]. split; [discriminate|]. vm_compute. reflexivity. Qed.
Print Assumptions C48_refuted.

(** ** C49.  One save and load of a segment time. *)
Definition cycle (s : segment b64) : outcome (segment b64) :=
  n <-- @seg_getTimeNSec b64 B64_ops s ;; Ok (@seg_setTimeNSec b64 B64_ops s n).
Fixpoint cycles (k : nat) (s : segment b64) : outcome (segment b64) :=
  match k with O => Ok s | S k' => s' <-- cycle s ;; cycles k' s' end.

(** For times of less than 2^52 nanoseconds any number of cycles, at least one,
    changes the time by at most a nanosecond, and all of them after the first
    change nothing. *)
Theorem C49_cycles_partial (s : segment b64) (n : Z) : @seg_getTimeNSec b64 B64_ops s = Ok n -> (n < 2 ^ 52)%Z ->
  exists s', Rabs (B2R (seg_time s') - B2R (seg_time s)) <= / 1000000000 /\ @seg_getTimeNSec b64 B64_ops s' = Ok n /\
    forall k, cycles (S k) s = Ok s'.
Proof.
  intros H Hn. destruct (get_value s n H) as (H0 & _). exists (@seg_setTimeNSec b64 B64_ops s n). split; [exact (nsec_cycle s n H Hn)|].
  assert (Q : forall s0, @seg_getTimeNSec b64 B64_ops (@seg_setTimeNSec b64 B64_ops s0 n) = Ok n) by (intros; apply nsec_roundtrip; lia).
  split; [apply Q|]. intros k. cbn [cycles]. unfold cycle at 1. rewrite H. cbn [obind]. induction k as [|k IH]; [reflexivity|].
  cbn [cycles]. unfold cycle at 1. rewrite Q. cbn [obind]. exact IH.
Qed.
Print Assumptions C49_cycles_partial.

(** The same through the YAML nodes: a trajectory loaded from what was saved is
    reproduced exactly by saving and loading it again. *)
Theorem C49_yaml_partial (cd : codec b64) (tr tr0 : trajectory b64) :
  traj_uniform tr -> (1 <= tr_D tr)%nat -> (Z.of_nat (tr_D tr) < 2 ^ 31)%Z -> (Z.of_nat (tr_N tr) < 2 ^ 31)%Z ->
  texts_ok cd tr -> (forall s, In s (tr_segments tr) -> exists ns, @seg_getTimeNSec b64 B64_ops s = Ok ns /\ (ns < 2 ^ 52)%Z) ->
  exists y tr1, @trajectoryToYaml b64 B64_ops cd tr = Ok y /\ @trajectoryFromYaml b64 B64_ops cd (Some y) tr0 = Ok (true, tr1) /\
    Forall2 (fun s s1 => seg_polys s1 = seg_polys s /\ Rabs (B2R (seg_time s1) - B2R (seg_time s)) <= / 1000000000) (tr_segments tr) (tr_segments tr1) /\
    @trajectoryToYaml b64 B64_ops cd tr1 = Ok y.
Proof.
  intros Hu HD1 HD HN Hc Ht.
  destruct (@C46_roundtrip b64 B64_ops cd tr tr0 Hu HD1 HD HN Hc) as (y & tr1 & Ey & Eb & D1 & N1 & F2 & M1).
  { intros s Hs. destruct (Ht s Hs) as (ns & E & _). exists ns. exact E. }
  assert (G : Forall2 (fun s s1 => seg_N s1 = seg_N s /\ seg_polys s1 = seg_polys s /\
     exists ns, @seg_getTimeNSec b64 B64_ops s = Ok ns /\ @seg_getTimeNSec b64 B64_ops s1 = Ok ns /\
       Rabs (B2R (seg_time s1) - B2R (seg_time s)) <= / 1000000000) (tr_segments tr) (tr_segments tr1)).
  { clear -Ht F2. revert Ht. induction F2 as [|s s1 l l1 (A & B & ns & E & E1) F2 IH]; intros Ht; [constructor|].
    constructor; [|apply IH; intros; apply Ht; right; assumption].
    destruct (Ht s (or_introl eq_refl)) as (ns' & E' & Hn). rewrite E in E'. apply Ok_inj in E'. subst ns'.
    split; [exact A|]. split; [exact B|]. exists ns. split; [exact E|]. destruct (get_value s ns E) as (H0 & _).
    assert (Es : seg_time s1 = seg_time (@seg_setTimeNSec b64 B64_ops s ns)) by (rewrite E1; reflexivity).
    split; [|rewrite Es; apply nsec_cycle; assumption].
    rewrite <- (nsec_roundtrip s ns) at 1 by lia. unfold seg_getTimeNSec. rewrite Es. reflexivity. }
  exists y, tr1. split; [exact Ey|]. split; [exact Eb|]. split.
  - clear -G. induction G as [|s s1 l l1 (A & B & ns & C & D & E)]; constructor; auto.
  - rewrite <- Ey. unfold trajectoryToYaml, segmentsToYaml. f_equal. clear -G.
    induction G as [|s s1 l l1 (A & B & ns & C & D & E) G IH]; [reflexivity|]. cbn [omap]. rewrite IH. f_equal.
    unfold segmentToYaml. rewrite C, D. cbn [obind]. unfold seg_D. rewrite A, B. reflexivity.
Qed.
Print Assumptions C49_yaml_partial.

Definition a_third : b64 := @ndiv b64 B64_ops (b64_of_Z 10) (b64_of_Z 3).
Definition stored_after (k : nat) (s : segment b64) : outcome Z := s' <-- cycles k s ;; @seg_getTimeNSec b64 B64_ops s'.
Definition time_after (k : nat) (s : segment b64) : outcome SpecFloat.spec_float := s' <-- cycles k s ;; Ok (B2SF (seg_time s')).
Example C49_example : (3333333333 < 2 ^ 52)%Z /\ @seg_getTimeNSec b64 B64_ops (seg_of a_third) = Ok 3333333333%Z /\
  time_after 1 (seg_of a_third) <> Ok (B2SF a_third) /\ time_after 5 (seg_of a_third) = time_after 1 (seg_of a_third).
Proof.
  split; [lia|]. split; [vm_compute; reflexivity|]. split; [vm_compute; discriminate|vm_compute; reflexivity].
Qed.

(** From 2^52 nanoseconds on saving and loading drifts: each of three cycles
    adds a nanosecond. *)
Definition drifting : segment b64 := @seg_setTimeNSec b64 B64_ops (seg_of (b64_of_Z 0)) 4503602375511762.
Theorem C49_refuted : exists s : segment b64, exists n : Z, stored_after 0 s = Ok n /\ (n < 2 ^ 53)%Z /\
  stored_after 1 s = Ok (n + 1)%Z /\ stored_after 2 s = Ok (n + 2)%Z.
Proof. exists drifting, 4503602375511763%Z. split; [vm_compute; reflexivity|]. split; [lia|]. split; vm_compute; reflexivity. Qed.
Print Assumptions C49_refuted.

(** In exact arithmetic the stored time is rounded down (C46_times); in doubles
    the time that comes back can be later: 3e-9 does. *)
Definition three_ns : b64 := @nlit b64 B64_ops 3 (10 ^ 9).
Definition later_than (t : b64) (o : outcome (segment b64)) : bool := match o with Ok s' => @nltb b64 B64_ops t (seg_time s') | _ => false end.
Lemma later_than_true t o : later_than t o = true -> exists s', o = Ok s' /\ @nltb b64 B64_ops t (seg_time s') = true.
Proof. destruct o as [s'| | |]; try discriminate. intros H. exists s'. split; [reflexivity|exact H]. Qed.
Lemma three_ns_later : later_than three_ns (cycle (seg_of three_ns)) = true.
Proof. vm_compute. reflexivity. Qed.
Theorem C49_rounded_down_refuted : exists (s s' : segment b64), cycle s = Ok s' /\ @nltb b64 B64_ops (seg_time s) (seg_time s') = true.
Proof. exists (seg_of three_ns). exact (later_than_true three_ns (cycle (seg_of three_ns)) three_ns_later). Qed.
Print Assumptions C49_rounded_down_refuted.
