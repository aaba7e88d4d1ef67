(** C08: the Jenkins-Traub root finder. *)
From Coq Require Import Reals ZArith List Bool Lia Lra.
From Coquelicot Require Import Complex.
From Flocq Require Import IEEE754.BinarySingleNaN.
From Verif Require Import Num RSum SpecPoly SpecRoots ModelRpoly ProofRpoly ProofRpoly2 ProofRpoly3.
Import ListNotations.
Open Scope R_scope.
Local Open Scope nat_scope.

(** A coefficient counts when its modulus is at least the smallest normal double. *)
Definition counts {T} {ops : NumOps T} (c : T) : bool := nleb dbl_min (nabs c).

(** * Every arithmetic *)
Section Any.
  Context {T : Type} {ops : NumOps T}.
  Variable math : rp_math T.
  Variable junk : T.

  (** Leading coefficients that do not count are ignored. *)
  Theorem C08_small_leading_ignored : forall fuel cs tail roots, (forall c, In c tail -> counts c = false) ->
    findRootsJenkinsTraub math junk fuel (cs ++ tail) roots = findRootsJenkinsTraub math junk fuel cs roots.
  Proof.
    intros fuel cs tail roots H. unfold findRootsJenkinsTraub. rewrite rev_app_distr, drop_small_skip; [reflexivity |].
    intros x X. apply H. now apply in_rev.
  Qed.

  (** No root and success for a constant or zero polynomial. *)
  Theorem C08_constant : forall fuel c tail roots, (forall c, In c tail -> counts c = false) ->
    findRootsJenkinsTraub math junk fuel (c :: tail) roots = Ok (Some (true, [])) /\
    findRootsJenkinsTraub math junk fuel tail roots = Ok (Some (true, [])).
  Proof.
    intros fuel c tail roots H. split.
    - change (c :: tail) with ([c] ++ tail). rewrite C08_small_leading_ignored by exact H.
      unfold findRootsJenkinsTraub. cbn [rev app drop_small]. destruct (nleb _ _); reflexivity.
    - change tail with ([] ++ tail). rewrite C08_small_leading_ignored by exact H. reflexivity.
  Qed.

  (** Otherwise the roots are those that the driver reports, in its order: as many
      as the degree it returns, each of them written by it. *)
  Theorem C08_as_many_as_found : forall fuel cs roots d z,
    let op := drop_small (rev cs) in
    sane (T := T) -> 2 <= length op <= 101 -> rpoly math junk fuel op (repeat None 100) = Ok (Some (d, z)) ->
    exists l, findRootsJenkinsTraub math junk fuel cs roots = Ok (Some l) /\
      ((0 < d)%Z -> fst l = true /\ Z.of_nat (length (snd l)) = d /\ forall i, i < length (snd l) -> nth_error z i = Some (nth_error (snd l) i)) /\
      ((d <= 0)%Z -> l = (false, roots)).
  Proof.
    intros fuel cs roots d z op HS L E.
    assert (NU : findRootsJenkinsTraub math junk fuel cs roots <> UB).
    { destruct (zeros_first cs HS) as (zs & c & cs' & E1 & F & C & D & LL); [fold op; destruct op; [cbn in L; lia | discriminate] |].
      fold op in LL. pose proof (findRoots_split math junk fuel zs c cs' roots HS F C D ltac:(lia)) as M. rewrite <- E1 in M. fold op in M.
      destruct (driver math junk fuel _) as [[l |] | | |]; try contradiction.
      - destruct M as (_ & M). congruence.
      - congruence.
      - destruct M as (_ & M & _). congruence. }
    revert NU. unfold findRootsJenkinsTraub. fold op.
    destruct (Nat.ltb_spec (length op) 2); [lia |]. destruct (Nat.ltb_spec 101 (length op)); [lia |].
    rewrite E. cbn [obind]. destruct (Z.ltb_spec 0 d) as [D | D].
    2: { intros _. exists (false, roots). split; [reflexivity |]. split; [lia | intros _; reflexivity]. }
    assert (G : forall k n, omap (fun i => o <-- oget z i ;; match o with Some x => Ok x | None => UB end) (seq k n) <> UB ->
      exists zs, omap (fun i => o <-- oget z i ;; match o with Some x => Ok x | None => UB end) (seq k n) = Ok zs /\ length zs = n /\
        forall i, i < n -> nth_error z (k + i) = Some (nth_error zs i)).
    { intros k n. revert k. induction n as [| n IH]; intros k HU; [exists []; repeat split; intros; lia |].
      cbn [seq omap] in *. unfold oget in *. destruct (nth_error z k) as [[x |] |] eqn:X; cbn [obind] in *; try congruence.
      destruct (IH (S k)) as (zs & E1 & L1 & N1). { intros Q. rewrite Q in HU. cbn in HU. congruence. }
      rewrite E1. cbn [obind]. exists (x :: zs). split; [reflexivity |]. split; [cbn; lia |].
      intros [| i] Hi; [rewrite Nat.add_0_r; exact X |]. replace (k + S i) with (S k + i) by lia. apply N1. lia. }
    intros HU. destruct (G 0 (Z.to_nat d)) as (zs & E1 & L1 & N1).
    { intros Q. rewrite Q in HU. cbn in HU. congruence. }
    rewrite E1. cbn [obind]. exists (true, zs). split; [reflexivity |]. split; [| lia].
    intros _. cbn [fst snd]. split; [reflexivity |]. split; [lia |]. intros i Hi. apply (N1 i). lia.
  Qed.

  (** For at most 101 coefficients no slot is read that was not written and no
      array is left: the only undefined behaviour is the conversion of a number
      out of range to int while scaling.  The list never has more entries than
      the degree. *)
  Theorem C08_every_slot_written : forall fuel cs roots, sane (T := T) -> length cs <= 101 ->
    (forall p, length p <= length cs -> scale_coefficients math p <> UB) ->
    findRootsJenkinsTraub math junk fuel cs roots = Ok None \/
    exists b zs, findRootsJenkinsTraub math junk fuel cs roots = Ok (Some (b, zs)) /\
      (b = true -> length zs <= length cs - 1) /\ (b = false -> zs = roots).
  Proof.
    intros fuel cs roots HS HL HU.
    pose proof (drop_small_length (rev cs)) as DL. rewrite rev_length in DL.
    destruct (Nat.ltb (length (drop_small (rev cs))) 2) eqn:L2.
    { right. unfold findRootsJenkinsTraub. rewrite L2. exists true, []. split; [reflexivity |]. split; [intros _; cbn; lia | discriminate]. }
    apply Nat.ltb_ge in L2.
    destruct (zeros_first cs HS) as (zs & c & cs' & E & F & C & D & L); [destruct (drop_small (rev cs)); [cbn in L2; lia | discriminate] |].
    pose proof (findRoots_split math junk fuel zs c cs' roots HS F C D ltac:(lia)) as M. rewrite <- E in M.
    destruct (driver math junk fuel _) as [[l |] | | |]; try contradiction.
    - destruct M as (LL & M). right. destruct (repeat (n0, n0) (length zs) ++ l) as [| r0 r] eqn:R.
      + exists false, roots. split; [exact M |]. split; [discriminate | reflexivity].
      + exists true, (r0 :: r). split; [exact M |]. split; [| discriminate]. intros _.
        rewrite <- R, app_length, repeat_length. lia.
    - left. exact M.
    - destruct M as (M & _ & p & Lp & U). exfalso. apply (HU p); [| exact U]. lia.
  Qed.

  (** Zeros at the origin are split off exactly and come first; the others are
      those of the polynomial without them. *)
  Theorem C08_zeros_at_origin : forall fuel zs c cs b l roots, sane (T := T) ->
    (forall x, In x zs -> neqb x n0 = true) -> zs <> [] -> neqb c n0 = false -> (exists x, In x (c :: cs) /\ counts x = true) ->
    length zs + length (c :: cs) <= 101 -> fuel <> 0 ->
    findRootsJenkinsTraub math junk fuel (c :: cs) [] = Ok (Some (b, l)) ->
    findRootsJenkinsTraub math junk fuel (zs ++ c :: cs) roots = Ok (Some (true, repeat (n0, n0) (length zs) ++ l)).
  Proof.
    intros fuel zs c cs b l roots HS HZ NZ HC (x & X & CX) HL HF E.
    assert (F : List.Forall (fun x => neqb x n0 = true) zs) by (apply Forall_forall; exact HZ).
    pose proof (drop_small_length (rev (c :: cs))) as DL. rewrite rev_length in DL.
    assert (D : drop_small (rev (c :: cs)) <> []).
    { intros Q. destruct (drop_small_split (rev (c :: cs))) as (l0 & E0 & F0). rewrite Q, app_nil_r in E0.
      unfold counts in CX. rewrite F0 in CX; [discriminate |]. rewrite <- E0. now apply in_rev in X. }
    assert (LZ : 1 <= length zs) by (destruct zs; [congruence | cbn; lia]).
    assert (D1 : 1 <= length (drop_small (rev (c :: cs)))) by (destruct (drop_small (rev (c :: cs))); [congruence | cbn; lia]).
    pose proof (findRoots_split math junk fuel zs c cs roots HS F HC D ltac:(lia)) as M.
    assert (R : forall l', exists r0 r, repeat (n0 : T, n0 : T) (length zs) ++ l' = r0 :: r).
    { intros l'. destruct zs; [congruence |]. cbn. eauto. }
    destruct (Nat.le_gt_cases 2 (length (drop_small (rev (c :: cs))))) as [L2 | L2].
    - pose proof (findRoots_split math junk fuel [] c cs [] HS (Forall_nil _) HC D ltac:(cbn [length]; lia)) as M0.
      cbn [app length repeat] in M0. rewrite E in M0.
      destruct (driver math junk fuel _) as [[l' |] | | |]; try contradiction; try discriminate; [| destruct M0; discriminate].
      destruct M as (_ & M), M0 as (_ & M0). rewrite M.
      assert (l = l') as -> by (destruct l'; congruence).
      destruct (R l') as (r0 & r & ->). reflexivity.
    - assert (l = []) as ->.
      { unfold findRootsJenkinsTraub in E. destruct (Nat.ltb_spec (length (drop_small (rev (c :: cs)))) 2); [| lia]. now injection E. }
      unfold driver in M. destruct (drop_small (rev (c :: cs))) as [| d0 [| d1 d]]; [congruence | | cbn in L2; lia].
      destruct fuel as [| fuel]; [congruence |]. cbn [roots_of] in M. destruct M as (_ & M). rewrite M.
      destruct (R []) as (r0 & r & ->). reflexivity.
  Qed.

  (** More than 101 coefficients that count are written past the end of the
      buffer before the degree is checked. *)
  Theorem C08_too_many_coefficients : forall fuel cs c roots, 101 <= length cs -> counts c = true ->
    findRootsJenkinsTraub math junk fuel (cs ++ [c]) roots = UB.
  Proof.
    intros fuel cs c roots L H. unfold findRootsJenkinsTraub. rewrite rev_app_distr. cbn [rev app drop_small].
    unfold counts in H. rewrite H. cbn [length]. rewrite rev_length.
    destruct (Nat.ltb_spec (S (length cs)) 2); [lia |]. destruct (Nat.ltb_spec 101 (S (length cs))); [reflexivity | lia].
  Qed.

  (** Apart from the two loops that look for the bound on the zeros every
      iteration is bounded: with 150 steps the rest never runs out of them. *)
  Theorem C08_only_bound_search_unbounded : forall fuel cs roots, sane (T := T) -> length cs <= 101 -> 150 < fuel ->
    findRootsJenkinsTraub math junk fuel cs roots = Ok None ->
    exists fuel' p, 46 < fuel' /\ 4 <= length p <= length cs /\ lower_bound math fuel' p = Ok None.
  Proof.
    intros fuel cs roots HS HL HF E.
    pose proof (drop_small_length (rev cs)) as DL. rewrite rev_length in DL.
    destruct (Nat.ltb (length (drop_small (rev cs))) 2) eqn:L2.
    { unfold findRootsJenkinsTraub in E. rewrite L2 in E. discriminate. }
    apply Nat.ltb_ge in L2.
    destruct (zeros_first cs HS) as (zs & c & cs' & E1 & F & C & D & L); [destruct (drop_small (rev cs)); [cbn in L2; lia | discriminate] |].
    pose proof (findRoots_split math junk fuel zs c cs' roots HS F C D ltac:(lia)) as M. rewrite <- E1, E in M.
    unfold driver in M. destruct (roots_of _ _ _ _ _ _ _) as [[l |] | | |] eqn:R; try contradiction.
    - destruct M as (_ & M). discriminate.
    - destruct (roots_of_total math junk fuel (drop_small (rev (c :: cs'))) _ _ _ ltac:(lia) R) as (f & p & A & B & Q). exists f, p. split; [exact A |]. split; [lia | exact Q].
    - destruct M as (M & _). discriminate.
  Qed.
End Any.
Print Assumptions C08_small_leading_ignored.
Print Assumptions C08_constant.
Print Assumptions C08_as_many_as_found.
Print Assumptions C08_every_slot_written.
Print Assumptions C08_zeros_at_origin.
Print Assumptions C08_too_many_coefficients.
Print Assumptions C08_only_bound_search_unbounded.

(** ** Examples in double arithmetic *)
Lemma B64_sane : @sane b64 B64_ops.
Proof.
  intros x. destruct x as [s | s | | s m e H].
  - destruct s; vm_compute; congruence.
  - intros _. destruct s; vm_compute; reflexivity.
  - intros _. vm_compute. reflexivity.
  - intros _. destruct s; reflexivity.
Qed.

(** Functions of <cmath> for the examples.  log: twelve square roots and the
    series of the area tangent; exp: the Taylor polynomial at x/4096 and twelve
    squarings; cos and sin are only called with 94 degrees; powers of two are
    exact. *)
Section Series.
  Context {T : Type} {ops : NumOps T}.
  Local Open Scope num_scope.
  Fixpoint twelve (k : nat) (f : T -> T) (x : T) := match k with O => x | S k' => twelve k' f (f x) end.
  Definition series_log (x : T) : T :=
    let r := twelve 12 nsqrt x in
    let y := (r - n1) / (r + n1) in let q := y * y in
    nofZ 8192 * (y * (n1 + q * (nlit 1 3 + q * (nlit 1 5 + q * nlit 1 7)))).
  Definition series_exp (x : T) : T :=
    let y := x / nofZ 4096 in
    twelve 12 (fun z => z * z) (n1 + y * (n1 + y * (nlit 1 2 + y * (nlit 1 6 + y * (nlit 1 24 + y * nlit 1 120))))).
  Definition exact_pow2 (l : Z) : T := if (l <? 0)%Z then nlit 1 (2 ^ (- l)) else nofZ (2 ^ l).
  Definition series_math : rp_math T :=
    mkRpMath T series_log series_exp (fun _ => nlit (-6975647374412530) (10 ^ 17)) (fun _ => nlit 9975640502598242 (10 ^ 16)) exact_pow2.
End Series.
Definition d_math : rp_math b64 := @series_math b64 B64_ops.
Definition d_ofZ : Z -> b64 := @nofZ b64 B64_ops.
Definition d_run (fuel : nat) (cs : list Z) : outcome (option (bool * list (b64 * b64))) :=
  @findRootsJenkinsTraub b64 B64_ops d_math (d_ofZ 0) fuel (map d_ofZ cs) [].
(** The reported zeros, in units of 10^-9 and truncated. *)
Definition nano (x : b64) : Z := match @ntoZ b64 B64_ops (@nmul b64 B64_ops x (d_ofZ 1000000000)) with Some z => z | None => 0%Z end.
Definition in_nano (r : outcome (option (bool * list (b64 * b64)))) : option (bool * list (Z * Z)) :=
  match r with Ok (Some (b, l)) => Some (b, map (fun p => (nano (fst p), nano (snd p))) l) | _ => None end.

(** (z - 1)(z - 2)(z - 3)(z - 4). *)
Example C08_doubles_example_real :
  in_nano (d_run 200 [24; -50; 35; -10; 1]%Z) = Some (true, [(1000000000, 0); (1999999999, 0); (3000000000, 0); (3999999999, 0)]%Z).
Proof. vm_compute. reflexivity. Qed.
(** z^2 (z^2 + 1)(z - 3). *)
Example C08_doubles_example_complex :
  in_nano (d_run 200 [0; 0; -3; 1; -3; 1]%Z) = Some (true, [(0, 0); (0, 0); (0, 1000000000); (0, -1000000000); (2999999999, 0)]%Z).
Proof. vm_compute. reflexivity. Qed.
Definition d_tiny : b64 := @nlit b64 B64_ops 1 (2 ^ 1023).
Example C08_small_leading_example : forall c : b64, In c [d_tiny; d_ofZ 0] -> @counts b64 B64_ops c = false.
Proof. intros c [<- | [<- | []]]; vm_compute; reflexivity. Qed.
Example C08_constant_example :
  @findRootsJenkinsTraub b64 B64_ops d_math (d_ofZ 0) 0 [d_ofZ 7; d_tiny; d_ofZ 0] [(d_ofZ 1, d_ofZ 1)] = Ok (Some (true, [])).
Proof. exact (proj1 (@C08_constant b64 B64_ops d_math (d_ofZ 0) 0 (d_ofZ 7) _ _ C08_small_leading_example)). Qed.
Definition d_op : list b64 := map d_ofZ [1; -10; 35; -50; 24]%Z.
Lemma d_found : match @rpoly b64 B64_ops d_math (d_ofZ 0) 200 d_op (repeat None 100) with Ok (Some (d, _)) => (d =? 4)%Z | _ => false end = true.
Proof. vm_compute. reflexivity. Qed.
Example C08_as_many_example : exists d z, @drop_small b64 B64_ops (rev (rev d_op)) = d_op /\ 2 <= length d_op <= 101 /\
  @rpoly b64 B64_ops d_math (d_ofZ 0) 200 d_op (repeat None 100) = Ok (Some (d, z)) /\ d = 4%Z.
Proof.
  generalize d_found. generalize (@rpoly b64 B64_ops d_math (d_ofZ 0) 200 d_op (repeat None 100)).
  intros [[[d z] |] | | |] H; try discriminate. exists d, z. apply Z.eqb_eq in H.
  rewrite rev_involutive. split; [| split; [cbn; lia | split; [reflexivity | exact H]]].
  assert (E : @nleb b64 B64_ops (@dbl_min b64 B64_ops) (@nabs b64 B64_ops (d_ofZ 1)) = true) by (vm_compute; reflexivity).
  unfold d_op. cbn [map drop_small]. rewrite E. reflexivity.
Qed.
Definition d_102 : list b64 := repeat (d_ofZ 1) 101.
Example C08_too_many_example : @findRootsJenkinsTraub b64 B64_ops d_math (d_ofZ 0) 5 (d_102 ++ [d_ofZ 1]) [] = UB.
Proof. apply C08_too_many_coefficients; [now vm_compute; lia | vm_compute; reflexivity]. Qed.
(** z (z - 1)(z - 2)(z - 3)(z - 4), from the run without the zero. *)
Definition succeeded (r : outcome (option (bool * list (b64 * b64)))) : bool := match r with Ok (Some (true, _)) => true | _ => false end.
Lemma succeeded_list : forall r, succeeded r = true -> exists l, r = Ok (Some (true, l)).
Proof. intros [[[[|] l] |] | | |] H; try discriminate. exists l. reflexivity. Qed.
Definition d_wilk : list b64 := map d_ofZ [-50; 35; -10; 1]%Z.
Lemma d_wilk_ok : succeeded (@findRootsJenkinsTraub b64 B64_ops d_math (d_ofZ 0) 200 (d_ofZ 24 :: d_wilk) []) = true.
Proof. vm_compute. reflexivity. Qed.
Lemma d_0 : @neqb b64 B64_ops (d_ofZ 0) (@n0 b64 B64_ops) = true.
Proof. vm_compute. reflexivity. Qed.
Lemma d_24 : @neqb b64 B64_ops (d_ofZ 24) (@n0 b64 B64_ops) = false /\ @counts b64 B64_ops (d_ofZ 24) = true.
Proof. split; vm_compute; reflexivity. Qed.
Example C08_zeros_at_origin_example : exists l, @findRootsJenkinsTraub b64 B64_ops d_math (d_ofZ 0) 200 (d_ofZ 24 :: d_wilk) [] = Ok (Some (true, l)) /\
  @findRootsJenkinsTraub b64 B64_ops d_math (d_ofZ 0) 200 ([d_ofZ 0] ++ d_ofZ 24 :: d_wilk) [] = Ok (Some (true, repeat (@n0 b64 B64_ops, @n0 b64 B64_ops) (length [d_ofZ 0]) ++ l)).
Proof.
  destruct (succeeded_list _ d_wilk_ok) as (l & E). exists l. split; [exact E |].
  refine (@C08_zeros_at_origin b64 B64_ops d_math (d_ofZ 0) 200 [d_ofZ 0] (d_ofZ 24) d_wilk true l [] B64_sane _ _ (proj1 d_24) _ _ _ E).
  - intros x [<- | []]. exact d_0.
  - discriminate.
  - exists (d_ofZ 24). split; [left; reflexivity | exact (proj2 d_24)].
  - unfold d_wilk. rewrite <- (map_cons d_ofZ), map_length. cbn [length]. lia.
  - discriminate.
Qed.
(** With an exp that overflows the search for the bound does not end. *)
Definition inf_math : rp_math b64 := mkRpMath b64 (m_log d_math) (fun _ => B754_infinity false) (m_cos d_math) (m_sin d_math) (m_pow2 d_math).
Lemma d_endless : match @findRootsJenkinsTraub b64 B64_ops inf_math (d_ofZ 0) 151 (map d_ofZ [-1; 0; 0; 1]%Z) [] with Ok None => true | _ => false end = true.
Proof. vm_compute. reflexivity. Qed.
Example C08_bound_search_example : exists fuel' p, 46 < fuel' /\ 4 <= length p <= 4 /\ @lower_bound b64 B64_ops inf_math fuel' p = Ok None.
Proof.
  apply (@C08_only_bound_search_unbounded b64 B64_ops inf_math (d_ofZ 0) 151 (map d_ofZ [-1; 0; 0; 1]%Z) []); [exact B64_sane | cbn; lia | lia |].
  generalize d_endless. generalize (@findRootsJenkinsTraub b64 B64_ops inf_math (d_ofZ 0) 151 (map d_ofZ [-1; 0; 0; 1]%Z) []).
  intros [[|] | | |] H; try discriminate. reflexivity.
Qed.

(** * Real arithmetic *)
Local Open Scope R_scope.

(** [dbl_min]. *)
Lemma R_dbl_min : (dbl_min : R) = / 2 ^ 1022.
Proof. unfold dbl_min, nlit. rnum. unfold Rdiv. rewrite Rmult_1_l. f_equal. rewrite pow_IZR. reflexivity. Qed.
Lemma R_dbl_min_pos : 0 < (dbl_min : R).
Proof. rewrite R_dbl_min. apply Rinv_0_lt_compat, pow_lt. lra. Qed.
Lemma R_counts (c : R) : counts c = true <-> / 2 ^ 1022 <= Rabs c.
Proof.
  unfold counts. rnum. rewrite R_dbl_min.
  destruct (Rleb_spec (/ 2 ^ 1022) (Rabs c)) as [H | H]; split; intros; try assumption; try discriminate; try reflexivity. lra.
Qed.
Lemma R_sane : sane (T := R).
Proof.
  intros x H. change (counts x = true) in H. apply R_counts in H. unfold n0. rnum.
  destruct (Reqb_spec x 0) as [-> | _]; [| reflexivity]. exfalso. rewrite Rabs_R0 in H.
  assert (0 < / 2 ^ 1022) by (apply Rinv_0_lt_compat, pow_lt; lra). lra.
Qed.
Local Opaque dbl_min.

Section Reals.
  Variable math : rp_math R.
  Variable junk : R.

  (** Up to two zeros apart from the origin: the list holds all zeros, with their
      multiplicities. *)
  Theorem C08_low_degree_exact : forall fuel m cs roots, (fuel <> 0)%nat ->
    (1 <= length cs <= 3)%nat -> nth 0 cs 0 <> 0 -> / 2 ^ 1022 <= Rabs (last cs 0) -> (m + length cs <= 101)%nat -> (2 <= m + length cs)%nat ->
    exists zs, findRootsJenkinsTraub math junk fuel (repeat 0 m ++ cs) roots = Ok (Some (true, zs)) /\
      (length zs = m + length cs - 1)%nat /\
      forall z, cpoly (repeat 0 m ++ cs) z = Cmult (RtoC (last cs 0)) (from_roots zs z).
  Proof.
    intros fuel m cs roots HF HL H0 HC HM HM2.
    destruct cs as [| c cs]; [cbn in HL; lia |]. cbn [nth] in H0.
    assert (KC : counts (last (c :: cs) 0) = true) by now apply R_counts.
    assert (DS : drop_small (rev (c :: cs)) = rev (c :: cs)).
    { destruct (exists_last (l := c :: cs) ltac:(discriminate)) as (l' & e & E). rewrite E in KC |- *. rewrite last_last in KC.
      rewrite rev_app_distr. cbn [rev app drop_small]. unfold counts in KC. rewrite KC. reflexivity. }
    assert (F : List.Forall (fun x => neqb x n0 = true) (repeat (0 : R) m)).
    { apply Forall_forall. intros x X. apply repeat_spec in X. subst x. unfold n0. rnum. destruct (Reqb_spec 0 0); [reflexivity | congruence]. }
    assert (C0 : neqb c n0 = false) by (unfold n0; rnum; destruct (Reqb_spec c 0); [congruence | reflexivity]).
    pose proof (findRoots_split math junk fuel (repeat 0 m) c cs roots R_sane F C0) as M.
    rewrite DS, rev_length, repeat_length in M. specialize (M ltac:(intros Q; apply (f_equal (@length R)) in Q; rewrite rev_length in Q; discriminate) ltac:(lia)).
    assert (LN : last (c :: cs) 0 <> 0).
    { intros Q. rewrite Q, Rabs_R0 in HC. assert (0 < / 2 ^ 1022) by (apply Rinv_0_lt_compat, pow_lt; lra). lra. }
    (* the zeros of the rest *)
    assert (R : exists l, driver math junk fuel (rev (c :: cs)) = Ok (Some l) /\ (length l = length cs)%nat /\
      forall z, cpoly (c :: cs) z = Cmult (RtoC (last (c :: cs) 0)) (from_roots l z)).
    { unfold driver. destruct fuel as [| fuel]; [congruence |].
      destruct cs as [| c1 [| c2 [| c3 cs]]]; cbn [length] in HL; try lia; cbn [rev app roots_of last] in *.
      - exists []. split; [reflexivity |]. split; [reflexivity |]. intros z. cbn [cpoly from_roots]. ring.
      - eexists. split; [reflexivity |]. split; [reflexivity |]. intros z. unfold n0. rnum. apply C_eq; cbn; field; exact LN.
      - destruct (quad c2 c1 c) as [[sr si] [lr li]] eqn:Q. eexists. split; [reflexivity |]. split; [reflexivity |].
        intros z. now apply quad_exact. }
    destruct R as (l & ER & LR & PR). rewrite ER in M. destruct M as (_ & M).
    assert (LEN : length (repeat (n0 : R, n0 : R) m ++ l) = (m + length (c :: cs) - 1)%nat).
    { rewrite app_length, repeat_length, LR. cbn. lia. }
    exists (repeat (n0, n0) m ++ l). split; [| split; [exact LEN |]].
    - rewrite M. destruct (repeat (n0, n0) m ++ l) eqn:RR; [| reflexivity].
      apply (f_equal (@length _)) in RR. cbn [length] in RR, LEN, HM2. rewrite app_length, repeat_length in RR. lia.
    - intros z. clear - PR. induction m as [| m IH]; [exact (PR z) |].
      cbn [repeat app cpoly from_roots]. rewrite IH. unfold n0. rnum. change (0, 0) with (RtoC 0). ring.
  Qed.

  (** Then the list covers the real zeros in every interval, as the extremum
      search needs it. *)
  Theorem C08_low_degree_covers : forall fuel m cs roots a b, (fuel <> 0)%nat ->
    (1 <= length cs <= 3)%nat -> nth 0 cs 0 <> 0 -> / 2 ^ 1022 <= Rabs (last cs 0) -> (m + length cs <= 101)%nat -> (2 <= m + length cs)%nat ->
    exists zs, findRootsJenkinsTraub math junk fuel (repeat 0 m ++ cs) roots = Ok (Some (true, zs)) /\
      covers_real_roots (poly_fun (repeat 0 m ++ cs)) a b zs.
  Proof.
    intros fuel m cs roots a b HF HL H0 HC HM HM2.
    destruct (C08_low_degree_exact fuel m cs roots HF HL H0 HC HM HM2) as (zs & E & _ & P). exists zs. split; [exact E |].
    right. intros t _ Z.
    assert (LN : last cs 0 <> 0).
    { intros Q. rewrite Q, Rabs_R0 in HC. assert (0 < / 2 ^ 1022) by (apply Rinv_0_lt_compat, pow_lt; lra). lra. }
    assert (RE : forall l, cpoly l (RtoC t) = RtoC (poly_fun l t)).
    { induction l as [| c l IH]; [unfold poly_fun; reflexivity |]. cbn [cpoly]. rewrite IH.
      unfold poly_fun. cbn [length]. rewrite rsum_S_l. cbn [nth pow]. rewrite Rmult_1_r.
      rewrite (rsum_ext _ (fun i => nth i l 0 * (t * t ^ i)) (fun i => t * (nth i l 0 * t ^ i))) by (intros; ring).
      rewrite rsum_scal, RtoC_plus, RtoC_mult. reflexivity. }
    assert (FR : from_roots zs (RtoC t) = RtoC 0).
    { specialize (P (RtoC t)). rewrite RE, Z in P.
      apply (f_equal (Cmult (Cinv (RtoC (last cs 0))))) in P.
      rewrite Cmult_assoc, Cinv_l, Cmult_1_l, Cmult_0_r in P; [now rewrite P |].
      intros Q. apply LN. now apply RtoC_inj in Q. }
    assert (IN : In (RtoC t) zs).
    { clear - FR. induction zs as [| r zs IH]; cbn [from_roots] in FR; [apply RtoC_inj in FR; lra |].
      destruct (Ceq_dec (Cminus (RtoC t) r) (RtoC 0)) as [D | D].
      - left. apply C_eq; [apply (f_equal fst) in D | apply (f_equal snd) in D]; cbn in D |- *; lra.
      - right. apply IH. destruct (Ceq_dec (from_roots zs (RtoC t)) (RtoC 0)) as [Q | Q]; [exact Q |]. exfalso. now apply (Cmult_neq_0 _ _ D Q). }
    exists 0. split; [rewrite Rabs_R0; left; apply Rinv_0_lt_compat, pow_lt; lra | exact IN].
  Qed.

  (** Division by z^2 + u z + v: quotient and remainder are exact. *)
  Theorem C08_quadratic_division_exact : forall u v p, (2 <= length p)%nat ->
    exists q a b, quadSD u v p = Ok (q ++ [b; a], (a, b)) /\ (length q = length p - 2)%nat /\
      forall z, cpoly (rev p) z = Cplus (Cmult (cpoly [v; u; 1] z) (cpoly (rev q) z)) (Cplus (Cmult (RtoC b) (Cplus z (RtoC u))) (RtoC a)).
  Proof.
    intros u v p L. destruct (quadSD_ok u v p L) as (q & a & b & E & LQ).
    exists (firstn (length p - 2) q), a, b. split; [rewrite <- (quadSD_tail u v p q a b E); exact E |].
    split; [rewrite firstn_length; lia |]. intros z. now apply quadSD_division.
  Qed.

  (** Every list that is reported: the zeros at the origin, then the zeros that
      [found] describes for the polynomial without them. *)
  Theorem C08_reported_zeros : forall fuel cs roots zs, (forall l, m_pow2 math l <> 0) -> (length cs <= 101)%nat ->
    findRootsJenkinsTraub math junk fuel cs roots = Ok (Some (true, zs)) -> zs <> [] ->
    exists m p tail l, cs = repeat 0 m ++ rev p ++ tail /\ (forall c, In c tail -> Rabs c < / 2 ^ 1022) /\
      / 2 ^ 1022 <= Rabs (nth 0 p 0) /\ last p 0 <> 0 /\ zs = repeat (0, 0) m ++ l /\ found p l.
  Proof.
    intros fuel cs roots zs HP HL E NE.
    pose proof (drop_small_length (rev cs)) as DL. rewrite rev_length in DL.
    destruct (Nat.ltb (length (drop_small (rev cs))) 2) eqn:L2.
    { unfold findRootsJenkinsTraub in E. rewrite L2 in E. injection E as E. congruence. }
    apply Nat.ltb_ge in L2.
    destruct (zeros_first cs R_sane) as (os & c & cs' & E1 & F & C & D & L); [destruct (drop_small (rev cs)); [cbn in L2; lia | discriminate] |].
    pose proof (findRoots_split math junk fuel os c cs' roots R_sane F C D ltac:(lia)) as M. rewrite <- E1, E in M.
    destruct (drop_small_split (rev (c :: cs'))) as (t & TE & TF).
    set (p := drop_small (rev (c :: cs'))) in *.
    assert (OS : os = repeat 0 (length os)).
    { clear - F. induction F as [| x os X F IH]; [reflexivity |]. cbn [length repeat]. rewrite <- IH. f_equal.
      unfold n0 in X. rnum. destruct (Reqb_spec x 0); [assumption | discriminate]. }
    assert (CC : c :: cs' = rev p ++ rev t).
    { rewrite <- rev_app_distr, <- TE. symmetry. apply rev_involutive. }
    assert (LP : (1 <= length p)%nat) by (destruct p; [congruence | cbn; lia]).
    assert (HEAD : / 2 ^ 1022 <= Rabs (nth 0 p 0)).
    { destruct p as [| p0 p1] eqn:PP; [congruence |]. cbn [nth]. apply R_counts. unfold counts. eapply drop_small_head. exact PP. }
    assert (H0 : nth 0 p 0 <> 0).
    { intros Q. rewrite Q, Rabs_R0 in HEAD. assert (0 < / 2 ^ 1022) by (apply Rinv_0_lt_compat, pow_lt; lra). lra. }
    assert (LAST : last p 0 = c).
    { destruct (exists_last (l := p)) as (l' & e & PE); [destruct p; [congruence | discriminate] |].
      rewrite PE, last_last. rewrite PE, rev_app_distr in CC. cbn in CC. now injection CC. }
    destruct (driver math junk fuel p) as [[l |] | | |] eqn:RO; try contradiction; try discriminate.
    2: { destruct M as (M & _). discriminate. }
    destruct M as (_ & M).
    exists (length os), p, (rev t), l. rewrite <- OS, <- CC. split; [exact E1 |].
    split. { intros x X. apply in_rev in X. specialize (TF x X). change (counts x = false) in TF.
             destruct (Rlt_le_dec (Rabs x) (/ 2 ^ 1022)) as [Q | Q]; [exact Q |]. apply R_counts in Q. congruence. }
    split; [exact HEAD |]. split. { rewrite LAST. unfold n0 in C. rnum. intros Q. rewrite Q in C. destruct (Reqb_spec 0 0); [discriminate | congruence]. }
    split. { destruct (repeat (n0, n0) (length os) ++ l) eqn:RR; [discriminate |]. injection M as M. rewrite M, <- RR. reflexivity. }
    apply (roots_of_found math junk HP fuel p _ _ _ l LP H0 RO).
  Qed.

  (** The search for the bound ends when the two outer coefficients are not zero
      (exact exp and log); a tenth of the result bounds every zero from below. *)
  Theorem C08_bound_search_ends : forall p, m_log math = ln -> m_exp math = exp ->
    (2 <= length p)%nat -> nth 0 p 0 <> 0 -> last p 0 <> 0 ->
    exists fuel0 r, (forall fuel, (fuel0 <= fuel)%nat -> lower_bound math fuel p = Ok (Some r)) /\ 0 < r /\
      Rabs (last p 0) <= rsum (length p - 1) (fun i => Rabs (nth i p 0) * r ^ (length p - 1 - i)) /\
      forall z, cpoly (rev p) z = RtoC 0 -> r / 10 <= Cmod z.
  Proof. intros. now apply lower_bound_ends. Qed.
End Reals.
Print Assumptions C08_low_degree_exact.
Print Assumptions C08_low_degree_covers.
Print Assumptions C08_quadratic_division_exact.
Print Assumptions C08_reported_zeros.
Print Assumptions C08_bound_search_ends.

Definition ln_math : rp_math R := mkRpMath R ln exp (fun _ => cos 1) (fun _ => sin 1) (fun _ => 1).
Lemma tiny_le_1 : / 2 ^ 1022 <= 1.
Proof. rewrite <- Rinv_1. apply Rinv_le_contravar; [lra |]. apply pow_R1_Rle. lra. Qed.
(** z (z - 1)(z - 2). *)
Example C08_low_degree_example : exists zs, findRootsJenkinsTraub ln_math 0 1 [0; 2; -3; 1] [] = Ok (Some (true, zs)) /\ (length zs = 3)%nat /\
  covers_real_roots (poly_fun [0; 2; -3; 1]) 0 3 zs /\
  exists m p tail l, [0; 2; -3; 1] = repeat 0 m ++ rev p ++ tail /\ zs = repeat (0, 0) m ++ l /\ found p l.
Proof.
  pose proof tiny_le_1 as H1.
  assert (HL : / 2 ^ 1022 <= Rabs (last [2; -3; 1] 0)) by (cbn [last]; rewrite Rabs_right; lra).
  destruct (C08_low_degree_exact ln_math 0 1 1 [2; -3; 1] []) as (zs & E & L & _); try (cbn; lia); try (cbn; lra); [exact HL |].
  exists zs. split; [exact E |]. split; [exact L |]. split.
  - destruct (C08_low_degree_covers ln_math 0 1 1 [2; -3; 1] [] 0 3) as (zs' & E' & Q); try (cbn; lia); try (cbn; lra); [exact HL |].
    rewrite E in E'. injection E' as <-. exact Q.
  - destruct (C08_reported_zeros ln_math 0 1 [0; 2; -3; 1] [] zs) as (m & p & tail & l & A & _ & _ & _ & B & F).
    + intros l. cbn. lra.
    + cbn. lia.
    + exact E.
    + intros ->. discriminate.
    + exists m, p, tail, l. repeat split; assumption.
Qed.
(** z^3 - 8 divided by z^2 + 2 z + 4. *)
Example C08_quadratic_division_example : quadSD 2 4 [1; 0; 0; -8] = Ok ([1; -2; 0; 0], (0, 0)).
Proof. cbn. rnum. repeat f_equal; lra. Qed.
Example C08_bound_search_ends_example : exists fuel0 r, (forall fuel, (fuel0 <= fuel)%nat -> lower_bound ln_math fuel [1; 0; 0; -8] = Ok (Some r)) /\ 0 < r.
Proof.
  destruct (C08_bound_search_ends ln_math [1; 0; 0; -8] eq_refl eq_refl) as (f & r & A & B & _); try (cbn; lia); try (cbn; lra).
  exists f, r. split; assumption.
Qed.
