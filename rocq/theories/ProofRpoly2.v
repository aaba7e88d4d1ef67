(** Real arithmetic: the quadratic formula and the two synthetic divisions of the
    Jenkins-Traub model are exact. *)
From Coq Require Import Reals ZArith List Bool Lia Lra.
From Coquelicot Require Import Complex.
From Verif Require Import Num RSum SpecRoots ModelRpoly ProofRpoly.
Import ListNotations.
Open Scope R_scope.

Lemma C_eq : forall z w : C, fst z = fst w -> snd z = snd w -> z = w.
Proof. intros [a b] [c d]. cbn. now intros -> ->. Qed.

Fixpoint Cpow (z : C) (n : nat) : C := match n with O => RtoC 1 | S n => Cmult z (Cpow z n) end.

(** Horner's scheme. *)
Definition horner (p : list R) (acc z : C) : C := fold_left (fun acc c => Cplus (Cmult acc z) (RtoC c)) p acc.
Lemma cpoly_snoc : forall l c z, cpoly (l ++ [c]) z = Cplus (cpoly l z) (Cmult (RtoC c) (Cpow z (length l))).
Proof.
  induction l as [| x l IH]; intros c z; cbn [cpoly app length Cpow].
  - ring.
  - rewrite IH. ring.
Qed.
Lemma horner_cpoly : forall p acc z, horner p acc z = Cplus (Cmult acc (Cpow z (length p))) (cpoly (rev p) z).
Proof.
  induction p as [| c p IH]; intros acc z; cbn [horner fold_left rev length Cpow cpoly]; [ring |].
  unfold horner in IH. rewrite IH, cpoly_snoc, rev_length. ring.
Qed.
Lemma cpoly_horner : forall p z, cpoly (rev p) z = horner p (RtoC 0) z.
Proof. intros. rewrite horner_cpoly. ring. Qed.

(** Quad_ak1 solves the quadratic equation. *)
Lemma quad_vieta : forall a b c sr si lr li, a <> 0 -> quad a b c = (sr, si, (lr, li)) ->
  sr + lr = - (b / a) /\ si + li = 0 /\ sr * lr - si * li = c / a /\ sr * li + si * lr = 0.
Proof.
  intros a b1 c sr si lr li Ha. unfold quad, n0, n1. rnum.
  destruct (Reqb_spec a 0) as [? | _]; [contradiction |].
  destruct (Reqb_spec c 0) as [-> | Hc].
  { intros E. injection E as <- <- <- <-. repeat split; field; exact Ha. }
  set (b := b1 / 2).
  assert (B1 : b1 / a = 2 * b / a) by (unfold b; field; exact Ha).
  assert (Habs : 0 < Rabs c) by now apply Rabs_pos_lt.
  set (ed := if Rltb (Rabs b) (Rabs c) then _ else _).
  assert (ED : snd ed * snd ed = Rabs (fst ed) * (if Rltb (Rabs b) (Rabs c) then Rabs c else b * b) /\
               fst ed * (if Rltb (Rabs b) (Rabs c) then Rabs c else b * b) = b * b - a * c).
  { unfold ed. destruct (Rltb_spec (Rabs b) (Rabs c)) as [H | H]; cbn [fst snd].
    - split.
      + set (e := - _ + _). transitivity ((sqrt (Rabs e) * sqrt (Rabs e)) * (sqrt (Rabs c) * sqrt (Rabs c))); [ring |].
        rewrite !sqrt_sqrt; [reflexivity | apply Rabs_pos | apply Rabs_pos].
      + destruct (Rleb_spec 0 c) as [C | C].
        * rewrite (Rabs_right c) by lra. field. exact Hc.
        * rewrite (Rabs_left c) by lra. field. lra.
    - assert (Hb : b <> 0) by (intros E; rewrite E, Rabs_R0 in H; lra).
      split.
      + set (e := - _ + _). transitivity ((sqrt (Rabs e) * sqrt (Rabs e)) * (Rabs b * Rabs b)); [ring |].
        rewrite sqrt_sqrt; [| apply Rabs_pos]. rewrite <- Rabs_mult, (Rabs_right (b * b)); [reflexivity |]. nra.
      + field. exact Hb. }
  destruct ed as [e d]. cbn [fst snd] in ED. set (w := if Rltb (Rabs b) (Rabs c) then _ else _) in ED.
  assert (W : 0 < w).
  { unfold w. destruct (Rltb_spec (Rabs b) (Rabs c)) as [H | H]; [exact Habs |].
    assert (Hb : b <> 0) by (intros E; rewrite E, Rabs_R0 in H; lra). nra. }
  destruct ED as [D2 EW].
  destruct (Rleb_spec 0 e) as [He | He].
  - rewrite (Rabs_right e) in D2 by lra. rewrite EW in D2.
    set (d' := if Rleb 0 b then - d else d).
    assert (D' : d' * d' = b * b - a * c) by (unfold d'; destruct (Rleb 0 b); nra).
    set (l := (- b + d') / a).
    assert (AL : a * l = - b + d') by (unfold l; field; exact Ha).
    assert (LN : l <> 0).
    { intros E. rewrite E in AL. assert (d' = b) by lra. assert (a * c = 0) by nra.
      apply Rmult_integral in H0. tauto. }
    destruct (Reqb_spec l 0) as [? | _]; [contradiction |]. cbn [negb].
    intros E. injection E as <- <- <- <-.
    assert (Q : a * (l * l) + 2 * b * l + c = 0).
    { apply (Rmult_eq_reg_l a); [| exact Ha]. transitivity ((a * l) * (a * l) + 2 * b * (a * l) + a * c); [ring |]. rewrite AL. nra. }
    repeat split; [| ring | field; split; assumption | ring].
    rewrite B1. apply (Rmult_eq_reg_l (a * l)); [| now apply Rmult_integral_contrapositive].
    replace (a * l * (c / l / a + l)) with (c + a * (l * l)) by (field; split; assumption).
    replace (a * l * - (2 * b / a)) with (- (2 * b * l)) by (field; exact Ha). lra.
  - rewrite (Rabs_left e) in D2 by lra.
    intros E. injection E as <- <- <- <-.
    assert (SQ : Rabs (d / a) * Rabs (d / a) = (a * c - b * b) / (a * a)).
    { rewrite <- Rabs_mult, Rabs_right; [| apply Rle_ge, Rle_0_sqr].
      replace (d / a * (d / a)) with (d * d / (a * a)) by (field; exact Ha). rewrite D2. f_equal. lra. }
    repeat split; [rewrite B1; field; exact Ha | ring | | ring].
    replace (- (b / a) * - (b / a) - Rabs (d / a) * - Rabs (d / a)) with (b * b / (a * a) + Rabs (d / a) * Rabs (d / a)) by (field; exact Ha).
    rewrite SQ. field. exact Ha.
Qed.
Lemma quad_exact : forall a b c sr si lr li, a <> 0 -> quad a b c = (sr, si, (lr, li)) ->
  forall z, cpoly [c; b; a] z = Cmult (RtoC a) (from_roots [(sr, si); (lr, li)] z).
Proof.
  intros a b c sr si lr li Ha E [x y]. destruct (quad_vieta a b c sr si lr li Ha E) as (A & B & P & Q).
  assert (Eb : b = - (a * (sr + lr))) by (rewrite A; field; exact Ha).
  assert (Ec : c = a * (sr * lr - si * li)) by (rewrite P; field; exact Ha).
  assert (li = - si) by lra. subst li. rewrite Eb, Ec.
  apply C_eq; cbn; nra.
Qed.

(** QuadSD_ak1 divides by z^2 + u z + v. *)
Lemma quadSD_loop_division : forall p u v a b q af bf Q P z, quadSD_loop p u v a b = (q, (af, bf)) ->
  P = Cplus (Cmult (cpoly [v; u; 1] z) Q) (Cplus (Cmult (RtoC b) (Cplus z (RtoC u))) (RtoC a)) ->
  horner p P z = Cplus (Cmult (cpoly [v; u; 1] z) (horner (firstn (length p) (b :: a :: q)) Q z))
                   (Cplus (Cmult (RtoC bf) (Cplus z (RtoC u))) (RtoC af)).
Proof.
  induction p as [| x p IH]; intros u v a b q af bf Q P z E HP.
  - cbn in E. injection E as <- <- <-. cbn [length firstn horner fold_left]. exact HP.
  - cbn [quadSD_loop] in E. cbv zeta in E. set (a' := nadd _ x) in E.
    destruct (quadSD_loop p u v a' a) as [q' [af' bf']] eqn:R. cbn [fst snd] in E. injection E as <- <- <-.
    cbn [length firstn]. unfold horner at 1 2. cbn [fold_left].
    fold (horner p (Cplus (Cmult P z) (RtoC x)) z).
    fold (horner (firstn (length p) (a :: a' :: q')) (Cplus (Cmult Q z) (RtoC b)) z).
    apply (IH u v a' a q' af' bf' (Cplus (Cmult Q z) (RtoC b)) _ z R).
    rewrite HP. unfold a'. rnum. cbn [cpoly]. rewrite !RtoC_plus, RtoC_opp, RtoC_plus, !RtoC_mult. ring.
Qed.
Lemma quadSD_division : forall u v p q a b z, quadSD u v p = Ok (q, (a, b)) ->
  cpoly (rev p) z = Cplus (Cmult (cpoly [v; u; 1] z) (cpoly (rev (firstn (length p - 2) q)) z)) (Cplus (Cmult (RtoC b) (Cplus z (RtoC u))) (RtoC a)).
Proof.
  intros u v [| p0 [| p1 p]] q a b z E; try discriminate.
  cbn [quadSD] in E. cbv zeta in E. set (a' := nadd _ p1) in E.
  destruct (quadSD_loop p u v a' p0) as [q' [af bf]] eqn:R. cbn [fst snd] in E. injection E as <- <- <-.
  rewrite !cpoly_horner. unfold horner at 1. cbn [fold_left].
  fold (horner p (Cplus (Cmult (Cplus (Cmult (RtoC 0) z) (RtoC p0)) z) (RtoC p1)) z).
  replace (length (p0 :: p1 :: p) - 2)%nat with (length p) by (cbn; lia).
  apply (quadSD_loop_division p u v a' p0 q' af bf (RtoC 0) _ z R).
  unfold a'. rnum. cbn [cpoly]. rewrite RtoC_plus, RtoC_opp, RtoC_mult. ring.
Qed.
(** The last two entries of q are b and a. *)
Lemma quadSD_loop_tail : forall p u v a b q af bf, quadSD_loop p u v a b = (q, (af, bf)) -> b :: a :: q = firstn (length p) (b :: a :: q) ++ [bf; af].
Proof.
  induction p as [| x p IH]; intros u v a b q af bf E.
  - cbn in E. injection E as <- <- <-. reflexivity.
  - cbn [quadSD_loop] in E. cbv zeta in E. set (a' := nadd _ x) in E.
    destruct (quadSD_loop p u v a' a) as [q' [af' bf']] eqn:R. cbn [fst snd] in E. injection E as <- <- <-.
    cbn [length firstn app]. f_equal. now apply (IH u v a' a).
Qed.
Lemma quadSD_tail : forall u v p q a b, quadSD u v p = Ok (q, (a, b)) -> q = firstn (length p - 2) q ++ [b; a].
Proof.
  intros u v [| p0 [| p1 p]] q a b E; try discriminate.
  cbn [quadSD] in E. cbv zeta in E. set (a' := nadd _ p1) in E.
  destruct (quadSD_loop p u v a' p0) as [q' [af bf]] eqn:R. cbn [fst snd] in E. injection E as <- <- <-.
  replace (length (p0 :: p1 :: p) - 2)%nat with (length p) by (cbn; lia).
  now apply (quadSD_loop_tail p u v a' p0).
Qed.
Lemma quadSD_head : forall u v p q a b, quadSD u v p = Ok (q, (a, b)) -> nth 0 q 0 = nth 0 p 0.
Proof. intros u v [| p0 [| p1 p]] q a b E; try discriminate. cbn in E. injection E as <- _. reflexivity. Qed.

(** Horner's scheme divides by z - s. *)
Lemma horner_all_division : forall p pv s z Q P, P = Cplus (Cmult (Cminus z (RtoC s)) Q) (RtoC pv) ->
  horner p P z = Cplus (Cmult (Cminus z (RtoC s)) (horner (firstn (length p) (pv :: horner_all pv s p)) Q z)) (RtoC (last (pv :: horner_all pv s p) 0)).
Proof.
  induction p as [| x p IH]; intros pv s z Q P HP; [exact HP |].
  cbn [horner_all length firstn]. cbv zeta. set (pv' := nadd _ x).
  unfold horner at 1 2. cbn [fold_left].
  fold (horner p (Cplus (Cmult P z) (RtoC x)) z).
  fold (horner (firstn (length p) (pv' :: horner_all pv' s p)) (Cplus (Cmult Q z) (RtoC pv)) z).
  change (last (pv :: pv' :: horner_all pv' s p) 0) with (last (pv' :: horner_all pv' s p) 0).
  apply IH. rewrite HP. unfold pv'. rnum. rewrite RtoC_plus, RtoC_mult. ring.
Qed.
Lemma horner_list_division : forall s p q pv z, horner_list s p = Ok (q, pv) ->
  cpoly (rev p) z = Cplus (Cmult (Cminus z (RtoC s)) (cpoly (rev (firstn (length p - 1) q)) z)) (RtoC pv).
Proof.
  intros s [| p0 p] q pv z E; [discriminate |]. cbn [horner_list] in E. cbv zeta in E. injection E as <- <-.
  rewrite !cpoly_horner. unfold horner at 1. cbn [fold_left].
  fold (horner p (Cplus (Cmult (RtoC 0) z) (RtoC p0)) z).
  replace (length (p0 :: p) - 1)%nat with (length p) by (cbn; lia).
  rewrite (horner_all_division p p0 s z (RtoC 0)); [| ring].
  f_equal. f_equal. generalize (horner_all p0 s p). intros l. clear.
  change (last (p0 :: l) 0 = last (p0 :: l) p0). revert p0. induction l as [| x l IH]; intros p0; [reflexivity |]. 
  cbn [last] in *. destruct l; [reflexivity | apply (IH p0)].
Qed.

(** The error bounds of the two iterations. *)
Lemma fold_error : forall l m e0, fold_left (fun e x => e * m + Rabs x) l e0 = e0 * m ^ length l + rsum (length l) (fun i => Rabs (nth i l 0) * m ^ (length l - 1 - i)).
Proof.
  induction l as [| x l IH] using rev_ind; intros m e0; [cbn; ring |].
  rewrite fold_left_app. cbn [fold_left]. rewrite IH, app_length, Nat.add_1_r. cbn [rsum pow].
  rewrite app_nth2, Nat.sub_diag by lia. cbn [nth].
  replace (S (length l) - 1 - length l)%nat with 0%nat by lia. cbn [pow].
  rewrite (rsum_ext (length l) (fun i => Rabs (nth i (l ++ [x]) 0) * m ^ (S (length l) - 1 - i)) (fun i => m * (Rabs (nth i l 0) * m ^ (length l - 1 - i)))).
  - rewrite rsum_scal. ring.
  - intros i Hi. rewrite app_nth1 by exact Hi. replace (S (length l) - 1 - i)%nat with (S (length l - 1 - i)) by lia. cbn [pow]. ring.
Qed.

(** The intermediate results of Horner's scheme are the values of the leading
    parts of the polynomial. *)
Lemma horner_all_nth : forall p pv s i acc, (i < length p)%nat -> RtoC pv = acc ->
  RtoC (nth i (horner_all pv s p) 0) = horner (firstn (S i) p) acc (RtoC s).
Proof.
  induction p as [| x p IH]; intros pv s i acc Hi HA; cbn in Hi; [lia |].
  cbn [horner_all]. cbv zeta. unfold horner. cbn [firstn fold_left].
  destruct i as [| i].
  - cbn [nth firstn fold_left]. rnum. rewrite <- HA, RtoC_plus, RtoC_mult. reflexivity.
  - cbn [nth]. fold (horner (firstn (S i) p) (Cplus (Cmult acc (RtoC s)) (RtoC x)) (RtoC s)).
    apply IH; [lia |]. rnum. rewrite <- HA, RtoC_plus, RtoC_mult. reflexivity.
Qed.
Lemma real_error_spec : forall s p q pv q0, horner_list s p = Ok (q, pv) -> oget q 0 = Ok q0 ->
  fold_left (fun ee x => nadd (nmul ee (nabs s)) (nabs x)) (skipn 1 q) (nmul (nlit 1 2) (nabs q0)) = real_error p s.
Proof.
  intros s [| p0 p] q pv q0 E G; [discriminate |]. cbn [horner_list] in E. cbv zeta in E. injection E as <- <-.
  cbn in G. injection G as <-. cbn [skipn]. unfold nlit. rnum. rewrite fold_error, horner_all_length. unfold real_error.
  cbn [nth length]. rewrite Nat.sub_succ, Nat.sub_0_r. f_equal; [lra |].
  apply rsum_ext. intros i Hi. f_equal. f_equal.
  pose proof (horner_all_nth p p0 s i (RtoC p0) Hi eq_refl) as H.
  apply (f_equal fst) in H. cbn [fst RtoC] in H. rewrite H. f_equal.
  replace (i + 2)%nat with (S (S i)) by lia. rewrite cpoly_horner. cbn [firstn]. unfold horner. cbn [fold_left]. f_equal.
  apply C_eq; cbn; ring.
Qed.

Lemma pair_error_spec : forall u v p q a b x ee, (3 <= length p)%nat -> quadSD u v p = Ok (q, (a, b)) -> quad_error q a b x v = Ok ee ->
  ee = pair_error (firstn (length p - 2) q) a b x v * macheps.
Proof.
  intros u v p q a b x ee L E G. pose proof (quadSD_tail u v p q a b E) as TL.
  assert (LQ : length q = length p).
  { destruct (quadSD_ok u v p ltac:(lia)) as (q1 & a1 & b1 & E1 & L1). rewrite E in E1. injection E1 as <- <- <-. exact L1. }
  set (q' := firstn (length p - 2) q) in *.
  assert (Lq' : length q' = (length p - 2)%nat) by (unfold q'; rewrite firstn_length; lia).
  destruct q' as [| q0 q''] eqn:Q; [cbn in Lq'; lia |]. rewrite TL in G. cbn [app] in G.
  unfold quad_error in G. cbn [oget nth_error obind] in G. apply Ok_inj in G. rewrite <- G. clear G.
  cbn [skipn length]. rewrite app_length. cbn [length].
  replace (S (length q'' + 2) - 2)%nat with (length q'' + 1)%nat by lia.
  rewrite firstn_app. replace (length q'' + 1 - length q'')%nat with 1%nat by lia.
  rewrite (firstn_all2 q'') by lia. cbn [firstn]. rewrite fold_left_app. cbn [fold_left].
  rnum. rewrite fold_error. unfold pair_error. cbn [length]. change (nth 0 (q0 :: q'') 0) with q0.
  rewrite Nat.sub_succ, Nat.sub_0_r.
  set (m := sqrt (Rabs v)).
  replace (dbl_epsilon (T := R)) with macheps.
  2: { unfold macheps, dbl_epsilon, nlit. rnum. unfold Rdiv. rewrite Rmult_1_l. f_equal. rewrite pow_IZR. reflexivity. }
  replace (a + - (x * b)) with (a - x * b) by ring.
  rewrite Rabs_Ropp.
  replace (S (length q'') + 1)%nat with (S (S (length q''))) by lia. cbn [pow].
  rewrite (rsum_ext (length q'') (fun i => Rabs (nth (i + 1) (q0 :: q'') 0) * m ^ (S (length q'') - i))
    (fun i => (m * m) * (Rabs (nth i q'' 0) * m ^ (length q'' - 1 - i)))).
  - rewrite rsum_scal. ring.
  - intros i Hi. replace (i + 1)%nat with (S i) by lia. cbn [nth]. replace (S (length q'') - i)%nat with (S (S (length q'' - 1 - i))) by lia. cbn [pow]. ring.
Qed.

(** The scaled coefficients are a multiple. *)
Lemma scale_multiple : forall math (p p' : list R), (forall l, m_pow2 math l <> 0) -> scale_coefficients math p = Ok p' ->
  exists k, k <> 0 /\ p' = map (Rmult k) p.
Proof.
  intros math p p' H E. unfold scale_coefficients in E. cbv zeta in E.
  assert (ONE : p = map (Rmult 1) p) by (rewrite <- (map_id p) at 1; apply map_ext; intros; ring).
  destruct (_ || _)%bool; [| apply Ok_inj in E; subst p'; exists 1; split; [lra | exact ONE]].
  destruct (ntoZ _) as [l |]; [| discriminate]. destruct (_ && _)%bool; [| discriminate].
  destruct (negb _); apply Ok_inj in E; subst p'; [| exists 1; split; [lra | exact ONE]].
  exists (m_pow2 math l). split; [apply H |]. apply map_ext. intros c. rnum. ring.
Qed.
Lemma cpoly_scale : forall k l z, cpoly (map (Rmult k) l) z = Cmult (RtoC k) (cpoly l z).
Proof.
  intros k l z. induction l as [| c l IH]; cbn [cpoly map]; [ring |]. rewrite IH, RtoC_mult. ring.
Qed.
Lemma from_roots_quad : forall u v sr si lr li, quad 1 u v = (sr, si, (lr, li)) -> forall z, from_roots [(sr, si); (lr, li)] z = cpoly [v; u; 1] z.
Proof. intros u v sr si lr li E z. rewrite (quad_exact 1 u v sr si lr li R1_neq_R0 E). ring. Qed.

(** What the list-valued loop returns is [found]. *)
Lemma roots_of_found : forall math junk, (forall l, m_pow2 math l <> 0) -> forall fuel p xx yy zeros l,
  (1 <= length p)%nat -> nth 0 p 0 <> 0 -> roots_of math junk fuel p xx yy zeros = Ok (Some l) -> found p l.
Proof.
  intros math junk HP. induction fuel as [| fuel IH]; intros p xx yy zeros l L1 H0; [discriminate |].
  destruct (Nat.le_gt_cases 4 (length p)) as [L4 | L4].
  2: { destruct p as [| a [| b [| c [| d p]]]]; cbn [length] in *; try lia; cbn [roots_of nth] in *; intros E.
    - injection E as <-. apply found_constant.
    - injection E as <-. apply found_linear. intros z. cbn [cpoly from_roots]. unfold n0. rnum.
      apply C_eq; cbn; field; exact H0.
    - destruct (quad a b c) as [[sr si] [lr li]] eqn:Q. injection E as <-. apply found_quadratic. now apply quad_exact. }
  rewrite (roots_of_step math junk fuel p xx yy zeros L4).
  destruct (scale_outcome math p) as [S | (p' & S)]; rewrite S; cbn [obind]; [discriminate |].
  pose proof (scale_length math _ _ S) as LP. destruct (scale_multiple math p p' HP S) as (k & Hk & MP).
  destruct (lower_bound_ok math fuel p' ltac:(lia)) as (o & EB). rewrite EB. cbn [obind].
  destruct o as [bnd |]; [| discriminate].
  destruct (initial_K_ok p' (length p' - 1) ltac:(lia) ltac:(lia)) as (K & EK & LK). rewrite EK. cbn [obind].
  destruct (shifts_ok math junk 20 fuel 1 (length p' - 1) p' K bnd xx yy zeros ltac:(lia) ltac:(lia) LK) as (o & ES & F & G).
  rewrite ES. cbn [obind]. destruct o as [[nz [st [xx' yy']]] |]; [| discriminate].
  destruct (Nat.eqb_spec nz 0) as [-> | NZ]; [intros E; injection E as <-; now apply found_given_up |].
  destruct (G _ _ _ eq_refl) as [-> | [LQ AC]]; [congruence |].
  specialize (IH (firstn (length p' - nz) (r_qp st)) xx' yy' (r_szr st, r_szi st, (r_lzr st, r_lzi st))).
  destruct (roots_of math junk fuel _ _ _ _) as [[l' |] | | |] eqn:RO; cbn [obind]; try discriminate.
  intros E. injection E as <-.
  assert (P0 : nth 0 p' 0 <> 0).
  { rewrite MP. destruct p as [| p0 p]; [cbn in L4; lia |]. cbn [map nth] in H0 |- *. apply Rmult_integral_contrapositive. split; assumption. }
  assert (HZ : forall z, cpoly (rev p') z = Cmult (RtoC k) (cpoly (rev p) z)).
  { intros z. rewrite MP, <- map_rev. apply cpoly_scale. }
  destruct AC as [[-> A] | [-> A]]; cbn [Nat.eqb negb app].
  - destruct A as (q & pv & q0 & E1 & E2 & E3 & E4 & E5). rewrite E2 in *. unfold n0 in E4. rnum. rewrite E4.
    change (r_szr st, 0) with (RtoC (r_szr st)).
    apply (found_real p k (r_szr st) (firstn (length p' - 1) q) pv l' L4 Hk).
    + intros z. rewrite <- HZ. apply horner_list_division. exact E1.
    + pose proof (real_error_spec _ _ _ _ _ E1 E3) as RE. rnum. rewrite RE in E5.
      destruct (Rleb_spec (Rabs pv) (20 * dbl_epsilon * (2 * real_error p' (r_szr st) - Rabs pv))) as [B | B]; [| discriminate].
      rewrite <- MP. replace macheps with (dbl_epsilon (T := R)); [exact B |].
      unfold macheps, dbl_epsilon, nlit. rnum. unfold Rdiv. rewrite Rmult_1_l. f_equal. rewrite pow_IZR. reflexivity.
    + apply IH; [rewrite firstn_length; lia | | reflexivity].
      destruct p' as [| p0' p'']; [cbn [length] in LP; lia |]. cbn [horner_list] in E1. cbv zeta in E1. injection E1 as <- _.
      replace (length (p0' :: p'') - 1)%nat with (Datatypes.S (length p'' - 1)) by (cbn [length] in LP |- *; lia). exact P0.
  - destruct A as (u & v & q & ee & E1 & E2 & E3 & E4 & E5). rewrite E3 in *. unfold n1 in E1. rnum.
    pose proof (from_roots_quad _ _ _ _ _ _ E1) as FR.
    assert (V := quad_vieta 1 u v _ _ _ _ R1_neq_R0 E1). destruct V as (V1 & V2 & _ & _).
    apply (found_pair p k u v (firstn (length p' - 2) q) (r_a st) (r_b st) _ _ l' L4 Hk).
    + intros z. rewrite <- HZ, FR. apply quadSD_division. exact E2.
    + exact FR.
    + cbv zeta. rewrite <- HZ, (quadSD_division u v p' q _ _ _ E2), <- FR.
      assert (Z0 : from_roots [(r_szr st, r_szi st); (r_lzr st, r_lzi st)] (r_lzr st, r_lzi st) = RtoC 0).
      { cbn [from_roots]. apply C_eq; cbn; ring. }
      rewrite Z0.
      assert (U : u = - (r_szr st + r_lzr st)) by lra.
      assert (LI : r_lzi st = - r_szi st) by lra.
      set (w := Cplus _ _).
      assert (W : w = (- (r_szr st * r_b st) + r_a st, - (r_szi st * r_b st))).
      { unfold w. rewrite U, LI. apply C_eq; cbn; ring. }
      rewrite W. cbn [fst snd]. rewrite Rabs_Ropp.
      rewrite <- (pair_error_spec u v p' q (r_a st) (r_b st) (r_szr st) ee ltac:(lia) E2 E4).
      destruct (Rleb_spec (Rabs (- (r_szr st * r_b st) + r_a st) + Rabs (r_szi st * r_b st)) (20 * ee)) as [B | B]; [exact B | discriminate].
    + apply IH; [rewrite firstn_length; lia | | reflexivity].
      pose proof (quadSD_head u v p' q _ _ E2) as QH. rewrite <- QH in P0.
      destruct q as [| q0 q]; [cbn [length] in LQ; lia |].
      replace (length p' - 2)%nat with (Datatypes.S (length p' - 3)) by lia. exact P0.
Qed.
