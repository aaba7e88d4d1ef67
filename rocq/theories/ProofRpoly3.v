(** The bound on the moduli of the zeros: both loops end and the result is at most
    ten times the modulus of every zero. *)
From Coq Require Import Reals ZArith List Bool Lia Lra Psatz.
From Coquelicot Require Import Complex.
From Verif Require Import Num RSum SpecRoots ModelRpoly ProofRpoly ProofRpoly2.
Import ListNotations.
Open Scope R_scope.

(** Value and slope of x times a polynomial with the coefficients l (decreasing). *)
Definition hval (l : list R) (x : R) : R := fold_left (fun a c => a * x + c) l 0.
Definition hslope (l : list R) (x : R) : R :=
  snd (fold_left (fun fd c => let ff := x * fst fd + c in (ff, x * snd fd + ff)) l (0, 0)).
Lemma hval_snoc : forall l c x, hval (l ++ [c]) x = hval l x * x + c.
Proof. intros. unfold hval. now rewrite fold_left_app. Qed.
Lemma hpair_fst : forall l x, fst (fold_left (fun fd c => let ff := x * fst fd + c in (ff, x * snd fd + ff)) l (0, 0)) = hval l x.
Proof.
  induction l as [| c l IH] using rev_ind; intros x; [reflexivity |].
  rewrite fold_left_app, hval_snoc. cbn [fold_left fst]. rewrite IH. ring.
Qed.
Lemma hslope_snoc : forall l c x, hslope (l ++ [c]) x = x * hslope l x + hval l x * x + c.
Proof. intros. unfold hslope. rewrite fold_left_app. cbn [fold_left snd]. rewrite hpair_fst. cbn zeta. ring. Qed.

Section Nonneg.
  Variable l : list R.
  Hypothesis NN : forall c, In c l -> 0 <= c.
  Lemma nonneg_ind : forall P : list R -> Prop, P [] -> (forall l c, 0 <= c -> P l -> P (l ++ [c])) -> P l.
  Proof.
    intros P P0 PS. revert NN. induction l as [| c l' IH] using rev_ind; intros NN; [exact P0 |].
    apply PS; [apply NN, in_or_app; right; left; reflexivity |]. apply IH. intros d D. apply NN, in_or_app. now left.
  Qed.
  Lemma hval_nonneg : forall x, 0 <= x -> 0 <= hval l x.
  Proof.
    intros x Hx. apply (nonneg_ind (fun l => 0 <= hval l x)); [cbn; lra |].
    intros l' c Hc IH. rewrite hval_snoc. nra.
  Qed.
  Lemma hslope_nonneg : forall x, 0 <= x -> 0 <= hslope l x /\ hval l x <= hslope l x.
  Proof.
    intros x Hx. assert (H : 0 <= hval l x /\ 0 <= hslope l x /\ hval l x <= hslope l x); [| tauto].
    apply (nonneg_ind (fun l => 0 <= hval l x /\ 0 <= hslope l x /\ hval l x <= hslope l x)); [cbn; lra |].
    intros l' c Hc (IH0 & IH1 & IH2). rewrite hval_snoc, hslope_snoc.
    assert (0 <= hval l' x * x) by nra. assert (0 <= x * hslope l' x) by nra. lra.
  Qed.
  Lemma hval_mono : forall x y, 0 <= x <= y -> hval l x <= hval l y.
  Proof.
    intros x y H. assert (G : 0 <= hval l x <= hval l y); [| tauto].
    apply (nonneg_ind (fun l => 0 <= hval l x <= hval l y)); [cbn; lra |].
    intros l' c Hc IH. rewrite !hval_snoc. assert (hval l' x * x <= hval l' y * y) by (apply Rmult_le_compat; lra). nra.
  Qed.
  (** The tangent lies below. *)
  Lemma tangent : forall x y, 0 <= x -> 0 <= y -> x * hval l x + hslope l x * (y - x) <= y * hval l y.
  Proof.
    intros x y Hx Hy.
    assert (G : 0 <= hslope l x /\ x * hval l x + hslope l x * (y - x) <= y * hval l y /\ 0 <= hval l x); [| tauto].
    apply (nonneg_ind (fun l => 0 <= hslope l x /\ x * hval l x + hslope l x * (y - x) <= y * hval l y /\ 0 <= hval l x)).
    - cbn. lra.
    - intros l' c Hc (S & IH & V). rewrite !hval_snoc, hslope_snoc.
      assert (0 <= hval l' x * x) by nra. assert (0 <= x * hslope l' x) by nra.
      split; [lra |]. split; [| lra].
      set (h := hval l' x) in *. set (k := hval l' y) in *. set (s := hslope l' x) in *.
      assert (Q : 0 <= s * ((y - x) * (y - x))) by (apply Rmult_le_pos; [exact S | apply Rle_0_sqr]).
      assert (M : y * (x * h + s * (y - x)) <= y * (y * k)) by (apply Rmult_le_compat_l; assumption).
      nra.
  Qed.
End Nonneg.

Section Bound.
  (** The polynomial with the coefficients g and the constant term - c. *)
  Variable g0 c : R.
  Variable g : list R.
  Hypothesis P0 : 0 < g0.
  Hypothesis NN : forall x, In x g -> 0 <= x.
  Hypothesis Hc : 0 < c.
  Let gs := g0 :: g.
  Let NN' : forall x, In x gs -> 0 <= x.
  Proof. intros x [<- | H]; [lra | now apply NN]. Qed.
  (** The polynomial is not negative. *)
  Definition above (x : R) : Prop := c <= x * hval gs x.

  Lemma hval_pos : forall x, 0 < x -> 0 < hval gs x.
  Proof.
    intros x Hx. assert (H : g0 * x ^ length g <= hval gs x).
    { unfold gs. assert (N2 := NN). revert N2. clear NN NN'. induction g as [| a g' IH] using rev_ind; intros N2; [cbn; lra |].
      change (g0 :: g' ++ [a]) with ((g0 :: g') ++ [a]). rewrite hval_snoc, app_length, Nat.add_1_r. cbn [pow].
      specialize (IH (fun y Y => N2 y (in_or_app _ _ _ (or_introl Y)))).
      assert (0 <= a) by (apply N2, in_or_app; right; left; reflexivity). nra. }
    assert (0 < x ^ length g) by now apply pow_lt. nra.
  Qed.
  Lemma hval_lead : forall x, 0 < x -> g0 * x ^ length g <= hval gs x.
  Proof.
    intros x Hx. unfold gs. assert (N2 := NN). revert N2. clear NN NN'. induction g as [| a g' IH] using rev_ind; intros N2; [cbn; lra |].
    change (g0 :: g' ++ [a]) with ((g0 :: g') ++ [a]). rewrite hval_snoc, app_length, Nat.add_1_r. cbn [pow].
    specialize (IH (fun y Y => N2 y (in_or_app _ _ _ (or_introl Y)))).
    assert (0 <= a) by (apply N2, in_or_app; right; left; reflexivity). nra.
  Qed.

  (** No number below this one is above. *)
  Definition least : R := Rmin 1 (c / hval gs 1).
  Lemma least_pos : 0 < least.
  Proof. unfold least. apply Rmin_glb_lt; [lra |]. apply Rdiv_lt_0_compat; [exact Hc | apply hval_pos; lra]. Qed.
  Lemma above_least : forall x, 0 < x -> above x -> least <= x.
  Proof.
    intros x Hx H. destruct (Rle_lt_dec least x) as [L | L]; [exact L | exfalso].
    unfold least in L. assert (L1 : x < 1) by (eapply Rlt_le_trans; [exact L | apply Rmin_l]).
    assert (L2 : x < c / hval gs 1) by (eapply Rlt_le_trans; [exact L | apply Rmin_r]).
    assert (V := hval_pos 1 ltac:(lra)). assert (M := hval_mono gs NN' x 1 ltac:(lra)).
    assert (x * hval gs 1 < c).
    { apply (Rmult_lt_compat_r (hval gs 1)) in L2; [| exact V]. replace (c / hval gs 1 * hval gs 1) with c in L2 by (field; lra). exact L2. }
    unfold above in H. assert (x * hval gs x <= x * hval gs 1) by (apply Rmult_le_compat_l; lra). lra.
  Qed.

  (** A Newton step from a point above. *)
  Lemma newton_step : forall x, 0 < x -> above x ->
    let dx := (x * hval gs x - c) / hslope gs x in 0 < x - dx /\ above (x - dx) /\ 0 <= dx.
  Proof.
    intros x Hx H dx.
    assert (V := hval_pos x Hx). destruct (hslope_nonneg gs NN' x ltac:(lra)) as [_ S].
    assert (D : dx * hslope gs x = x * hval gs x - c) by (unfold dx; field; lra).
    assert (T0 := tangent gs NN' x 0 ltac:(lra) ltac:(lra)).
    unfold above in H.
    assert (0 <= dx) by (unfold dx; apply Rmult_le_pos; [lra | left; apply Rinv_0_lt_compat; lra]).
    assert (P : 0 < x - dx).
    { apply (Rmult_lt_reg_r (hslope gs x)); [lra |]. rewrite Rmult_0_l, Rmult_minus_distr_r, D. lra. }
    split; [exact P |]. split; [| assumption].
    unfold above. assert (T := tangent gs NN' x (x - dx) ltac:(lra) ltac:(lra)). nra.
  Qed.

  Let pt := gs ++ [- c].
  Lemma newton_unfold : forall fuel dx x,
    newton (S fuel) pt dx x = if Rltb (5 / 1000) (Rabs (dx / x)) then
      newton fuel pt ((x * hval gs x - c) / hslope gs x) (x - (x * hval gs x - c) / hslope gs x) else Some x.
  Proof.
    intros fuel dx x. cbn [newton]. unfold nlit. rnum.
    destruct (Rltb _ _); [| reflexivity]. unfold pt, gs. cbn [app].
    rewrite removelast_app by discriminate. cbn [removelast]. rewrite app_nil_r, last_last.
    match goal with |- (let '(ff, df) := ?F in _) = _ => set (fd := F) end.
    assert (FD : fd = fold_left (fun fd c => let ff := x * fst fd + c in (ff, x * snd fd + ff)) (g0 :: g) (0, 0)).
    { unfold fd. cbn [fold_left fst snd]. cbv zeta. f_equal. f_equal; ring. }
    assert (F1 : fst fd = hval (g0 :: g) x) by (rewrite FD; apply hpair_fst).
    assert (F2 : snd fd = hslope (g0 :: g) x) by (rewrite FD; reflexivity).
    destruct fd as [ff df]. cbn [fst snd] in F1, F2. rewrite F1, F2. reflexivity.
  Qed.
  Lemma chop_unfold : forall fuel x,
    chop (S fuel) pt x = if Rltb 0 (1 / 10 * x * hval gs (1 / 10 * x) - c) then chop fuel pt (1 / 10 * x) else Some x.
  Proof.
    intros fuel x. cbn [chop]. unfold nlit, n0, pt, gs. rnum. cbn [app].
    rewrite fold_left_app. cbn [fold_left].
    replace (fold_left (fun ff c => ff * (1 / 10 * x) + c) g g0) with (hval (g0 :: g) (1 / 10 * x)).
    - replace (hval (g0 :: g) (1 / 10 * x) * (1 / 10 * x) + - c) with (1 / 10 * x * hval (g0 :: g) (1 / 10 * x) - c) by ring. reflexivity.
    - unfold hval. cbn [fold_left]. f_equal. ring.
  Qed.

  Lemma newton_ends : forall n x dx, 0 < x -> above x -> (5 / 1000 < Rabs (dx / x) -> x < least * (1 + 5 / 1000) ^ n) ->
    exists r, newton (S n) pt dx x = Some r /\ 0 < r <= x /\ above r.
  Proof.
    induction n as [| n IH]; intros x dx Hx HA HB; rewrite newton_unfold;
      (destruct (Rltb_spec (5 / 1000) (Rabs (dx / x))) as [T | T]; [specialize (HB T) | exists x; split; [reflexivity |]; split; [lra | exact HA]]).
    - exfalso. cbn [pow] in HB. pose proof (above_least x Hx HA). lra.
    - destruct (newton_step x Hx HA) as (X & A & D). set (d := (x * hval gs x - c) / hslope gs x) in *.
      destruct (IH (x - d) d X A) as (r & E & B & C).
      + intros Q. rewrite Rabs_right in Q by (apply Rle_ge, Rmult_le_pos; [exact D | left; now apply Rinv_0_lt_compat]).
        assert (Q' : 5 / 1000 * (x - d) < d).
        { apply (Rmult_lt_compat_r (x - d)) in Q; [| exact X]. replace (d / (x - d) * (x - d)) with d in Q by (field; lra). exact Q. }
        cbn [pow] in HB. apply (Rmult_lt_reg_l (1 + 5 / 1000)); [lra |]. nra.
      + exists r. split; [exact E |]. split; [lra | exact C].
  Qed.
  Lemma chop_ends : forall n x, 0 < x -> above x -> x < least * 10 ^ n ->
    exists r, chop n pt x = Some r /\ 0 < r /\ above r /\ r / 10 * hval gs (r / 10) <= c.
  Proof.
    induction n as [| n IH]; intros x Hx HA HB; [exfalso; cbn [pow] in HB; pose proof (above_least x Hx HA); lra |].
    rewrite chop_unfold. replace (1 / 10 * x) with (x / 10) by lra.
    destruct (Rltb_spec 0 (x / 10 * hval gs (x / 10) - c)) as [T | T].
    - apply IH; [lra | unfold above; lra |]. cbn [pow] in HB. lra.
    - exists x. split; [reflexivity |]. split; [exact Hx |]. split; [exact HA | lra].
  Qed.

  Lemma chop_more : forall n k x r, chop n pt x = Some r -> chop (n + k) pt x = Some r.
  Proof.
    induction n as [| n IH]; intros k x r E; [discriminate |]. cbn [Nat.add]. rewrite chop_unfold in *.
    destruct (Rltb _ _); [now apply IH | exact E].
  Qed.
  Lemma newton_more : forall n k dx x r, newton n pt dx x = Some r -> newton (n + k) pt dx x = Some r.
  Proof.
    induction n as [| n IH]; intros k dx x r E; [discriminate |]. cbn [Nat.add]. rewrite newton_unfold in *.
    destruct (Rltb _ _); [now apply IH | exact E].
  Qed.
  Lemma power_exceeds : forall a x, 1 < a -> exists n, x < least * a ^ n.
  Proof.
    intros a x Ha. destruct (Pow_x_infinity a ltac:(rewrite Rabs_right; lra) (x / least + 1)) as (n & H).
    exists n. specialize (H n (le_n n)). rewrite Rabs_right in H by (apply Rle_ge, pow_le; lra).
    pose proof least_pos as L. apply (Rmult_ge_compat_l least) in H; [| lra].
    replace (least * (x / least + 1)) with (x + least) in H by (field; lra). lra.
  Qed.

  (** Both loops, from a point above. *)
  Lemma loops_end : forall x, 0 < x -> above x ->
    exists fuel0 r, (forall fuel, (fuel0 <= fuel)%nat ->
      match chop fuel pt x with None => None | Some x => newton fuel pt x x end = Some r) /\
      0 < r /\ above r /\ r / 10 * hval gs (r / 10) <= c.
  Proof.
    intros x Hx HA. destruct (power_exceeds 10 x ltac:(lra)) as (n & Hn).
    destruct (chop_ends n x Hx HA Hn) as (y & E & Y & AY & BY).
    destruct (power_exceeds (1 + 5 / 1000) y ltac:(lra)) as (m & Hm).
    destruct (newton_ends m y y Y AY (fun _ => Hm)) as (r & E2 & R1 & AR).
    exists (n + S m)%nat, r. split.
    - intros fuel F. replace fuel with (n + (fuel - n))%nat at 1 by lia. rewrite (chop_more n (fuel - n) x y E).
      replace fuel with (S m + (fuel - S m))%nat by lia. now apply newton_more.
    - split; [lra |]. split; [exact AR |].
      assert (hval gs (r / 10) <= hval gs (y / 10)) by (apply hval_mono; [exact NN' | lra]).
      assert (0 <= hval gs (r / 10)) by (apply hval_nonneg; [exact NN' | lra]).
      assert (r / 10 * hval gs (r / 10) <= y / 10 * hval gs (y / 10)) by (apply Rmult_le_compat; lra). lra.
  Qed.
End Bound.

Lemma exp_pow : forall x n, exp x ^ n = exp (INR n * x).
Proof.
  intros x n. induction n as [| n IH]; [cbn; rewrite Rmult_0_l, exp_0; reflexivity |].
  cbn [pow]. rewrite IH, <- exp_plus, S_INR. f_equal. ring.
Qed.

(** The value of the polynomial is bounded by that of the moduli. *)
Lemma horner_mod : forall l acc a z, Cmod acc <= a ->
  Cmod (horner l acc z) <= fold_left (fun v c => v * Cmod z + Rabs c) l a.
Proof.
  induction l as [| c l IH]; intros acc a z H; [exact H |]. unfold horner. cbn [fold_left].
  fold (horner l (Cplus (Cmult acc z) (RtoC c)) z). apply IH.
  eapply Rle_trans; [apply Cmod_triangle |]. rewrite Cmod_mult, Cmod_R.
  apply Rplus_le_compat_r, Rmult_le_compat_r; [apply Cmod_ge_0 | exact H].
Qed.
Lemma fold_abs : forall l x a, fold_left (fun v c => v * x + Rabs c) l a = fold_left (fun v c => v * x + c) (map Rabs l) a.
Proof. induction l as [| c l IH]; intros x a; [reflexivity |]. cbn. apply IH. Qed.
Lemma hval_rsum : forall l x, hval l x = rsum (length l) (fun i => nth i l 0 * x ^ (length l - 1 - i)).
Proof.
  induction l as [| c l IH] using rev_ind; intros x; [reflexivity |].
  rewrite hval_snoc, IH, app_length, Nat.add_1_r. cbn [rsum].
  rewrite app_nth2, Nat.sub_diag by lia. cbn [nth]. replace (S (length l) - 1 - length l)%nat with 0%nat by lia. cbn [pow].
  rewrite Rmult_1_r. f_equal. rewrite <- rsum_scal_r. apply rsum_ext. intros i Hi.
  rewrite app_nth1 by exact Hi. replace (S (length l) - 1 - i)%nat with (S (length l - 1 - i)) by lia. cbn [pow]. ring.
Qed.

Lemma lower_bound_ends : forall (math : rp_math R) (p : list R), m_log math = ln -> m_exp math = exp ->
  (2 <= length p)%nat -> nth 0 p 0 <> 0 -> last p 0 <> 0 ->
  exists fuel0 r, (forall fuel, (fuel0 <= fuel)%nat -> lower_bound math fuel p = Ok (Some r)) /\
    0 < r /\ Rabs (last p 0) <= rsum (length p - 1) (fun i => Rabs (nth i p 0) * r ^ (length p - 1 - i)) /\
    forall z, cpoly (rev p) z = RtoC 0 -> r / 10 <= Cmod z.
Proof.
  intros math p HL HE L H0 HN.
  assert (SH : exists a g e, p = (a :: g) ++ [e]).
  { destruct p as [| a p]; [cbn in L; lia |]. destruct (exists_last (l := p)) as (g & e & E); [intros ->; cbn in L; lia |].
    exists a, g, e. now rewrite E. }
  destruct SH as (a & g & pN & ->). rewrite last_last in HN |- *. cbn [app nth] in H0.
  rewrite app_length. replace (length (a :: g) + length [pN] - 1)%nat with (length (a :: g)) by (cbn; lia).
  set (G := map Rabs (a :: g)).
  assert (G0 : 0 < Rabs a) by now apply Rabs_pos_lt.
  assert (Hc : 0 < Rabs pN) by now apply Rabs_pos_lt.
  assert (GN : forall x, In x (map Rabs g) -> 0 <= x) by (intros x X; apply in_map_iff in X; destruct X as (y & <- & _); apply Rabs_pos).
  assert (GN' : forall x, In x G -> 0 <= x) by (intros x X; apply in_map_iff in X; destruct X as (y & <- & _); apply Rabs_pos).
  (* the coefficient before the last *)
  assert (LB : exists e, oget (a :: g ++ [pN]) (length (a :: g) - 1) = Ok e /\ forall x, 0 <= x -> Rabs e <= hval G x).
  { destruct (exists_last (l := a :: g) ltac:(discriminate)) as (l' & e & E). exists e. split.
    - change (a :: g ++ [pN]) with ((a :: g) ++ [pN]). rewrite E, app_length. cbn [length]. replace (length l' + 1 - 1)%nat with (length l') by lia.
      rewrite <- app_assoc. unfold oget. rewrite nth_error_app2, Nat.sub_diag; [reflexivity | lia].
    - intros x Hx. unfold G. rewrite E, map_app. cbn [map]. rewrite hval_snoc.
      assert (0 <= hval (map Rabs l') x); [| nra]. apply hval_nonneg; [| exact Hx].
      intros y Y. apply in_map_iff in Y. destruct Y as (w & <- & _). apply Rabs_pos. }
  destruct LB as (e & EO & EH).
  (* the starting point *)
  set (x0 := exp ((ln (Rabs pN) - ln (Rabs a)) / INR (length (a :: g)))).
  assert (A0 : Rabs pN <= x0 * hval G x0).
  { assert (X0 : 0 < x0) by apply exp_pos. assert (V := hval_lead (Rabs a) (map Rabs g) GN x0 X0).
    rewrite map_length in V.
    assert (PW : x0 ^ length (a :: g) = Rabs pN / Rabs a).
    { unfold x0. rewrite exp_pow. replace (INR (length (a :: g)) * _) with (ln (Rabs pN) + - ln (Rabs a)).
      - rewrite exp_plus, exp_Ropp, !exp_ln by assumption. reflexivity.
      - field. apply not_0_INR. cbn. lia. }
    cbn [length pow] in PW.
    assert (Q : x0 * (Rabs a * x0 ^ length g) <= x0 * hval G x0) by (apply Rmult_le_compat_l; [lra | exact V]).
    replace (x0 * (Rabs a * x0 ^ length g)) with (Rabs pN) in Q; [exact Q |].
    transitivity (Rabs a * (x0 * x0 ^ length g)); [rewrite PW; field; lra | ring]. }
  set (x1 := if negb (Reqb (Rabs e) 0) then if Rltb (Rabs pN / Rabs e) x0 then Rabs pN / Rabs e else x0 else x0).
  assert (X1 : 0 < x1 /\ Rabs pN <= x1 * hval G x1).
  { unfold x1. assert (X0 : 0 < x0) by apply exp_pos. destruct (Reqb_spec (Rabs e) 0) as [Z | Z]; cbn [negb]; [split; assumption |].
    destruct (Rltb_spec (Rabs pN / Rabs e) x0) as [T | T]; [| split; assumption].
    assert (0 < Rabs e) by (pose proof (Rabs_pos e); lra).
    assert (P : 0 < Rabs pN / Rabs e) by now apply Rdiv_lt_0_compat.
    split; [exact P |]. assert (V := EH (Rabs pN / Rabs e) ltac:(lra)).
    replace (Rabs pN) with (Rabs pN / Rabs e * Rabs e) at 1 by (field; lra). apply Rmult_le_compat_l; lra. }
  destruct X1 as [X1 A1].
  destruct (loops_end (Rabs a) (Rabs pN) (map Rabs g) G0 GN Hc x1 X1 A1) as (fuel0 & r & E & R0 & AR & BR).
  exists fuel0, r. split; [| split; [exact R0 |]; split].
  - intros fuel F. unfold lower_bound. rewrite app_length.
    replace (length (a :: g) + length [pN] - 1)%nat with (length (a :: g)) by (cbn; lia).
    assert (GL : oget ((a :: g) ++ [pN]) (length (a :: g)) = Ok pN).
    { unfold oget. rewrite nth_error_app2, Nat.sub_diag; [reflexivity | lia]. }
    rewrite GL. cbn [obind]. change (oget ((a :: g) ++ [pN]) 0) with (Ok a). cbn [obind].
    change ((a :: g) ++ [pN]) with (a :: g ++ [pN]) at 1. rewrite EO. cbn [obind].
    rewrite firstn_app, firstn_all, Nat.sub_diag. cbn [firstn]. rewrite app_nil_r.
    rewrite HL, HE. unfold n0. rnum. rewrite !Ropp_involutive, <- INR_IZR_INZ.
    fold x0. fold x1. specialize (E fuel F).
    change (map Rabs (a :: g)) with (Rabs a :: map Rabs g).
    destruct (chop fuel _ x1) as [y |]; [| discriminate]. now rewrite E.
  - unfold above in AR. change (Rabs a :: map Rabs g) with G in AR. rewrite hval_rsum in AR.
    unfold G in AR. rewrite map_length in AR. rewrite <- rsum_scal in AR.
    eapply Rle_trans; [exact AR |]. apply Req_le, rsum_ext. intros i Hi.
    rewrite app_nth1 by exact Hi. rewrite (nth_indep (map Rabs (a :: g)) 0 (Rabs 0)) by (rewrite map_length; exact Hi).
    rewrite map_nth. replace (length (a :: g) - i)%nat with (S (length (a :: g) - 1 - i)) by lia. cbn [pow]. ring.
  - intros z Z. destruct (Rle_lt_dec (r / 10) (Cmod z)) as [Q | Q]; [exact Q | exfalso].
    rewrite cpoly_horner in Z. unfold horner in Z. rewrite fold_left_app in Z. cbn [fold_left] in Z.
    fold (horner g (Cplus (Cmult (RtoC 0) z) (RtoC a)) z) in Z.
    set (w := horner g _ z) in Z.
    assert (W : Cmod w <= hval G (Cmod z)).
    { eapply Rle_trans; [apply (horner_mod g _ (Rabs a)) |].
      - replace (Cplus (Cmult (RtoC 0) z) (RtoC a)) with (RtoC a) by ring. rewrite Cmod_R. lra.
      - rewrite fold_abs. unfold G, hval. cbn [map fold_left]. apply Req_le. f_equal. ring. }
    assert (E1 : Cmod (Cmult w z) = Rabs pN).
    { replace (Cmult w z) with (Copp (RtoC pN)); [now rewrite Cmod_opp, Cmod_R |].
      replace (Cmult w z) with (Cminus (Cplus (Cmult w z) (RtoC pN)) (RtoC pN)) by ring. rewrite Z. ring. }
    rewrite Cmod_mult in E1. assert (Cz := Cmod_ge_0 z).
    change (Rabs a :: map Rabs g) with G in BR.
    assert (M := hval_mono G GN' (Cmod z) (r / 10) ltac:(lra)).
    assert (V := hval_pos (Rabs a) (map Rabs g) G0 GN (r / 10) ltac:(lra)). change (Rabs a :: map Rabs g) with G in V.
    assert (Cmod w * Cmod z <= hval G (r / 10) * Cmod z) by (apply Rmult_le_compat_r; lra).
    assert (hval G (r / 10) * Cmod z < hval G (r / 10) * (r / 10)) by (apply Rmult_lt_compat_l; lra).
    lra.
Qed.
