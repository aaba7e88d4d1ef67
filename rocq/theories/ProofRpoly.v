(** The arrays of the Jenkins-Traub model keep their sizes, its bounded loops end,
    and its main loop is the list-valued [roots_of]; for every arithmetic. *)
From Coq Require Import ZArith List Bool Lia.
From Verif Require Import Num ModelRpoly.
Import ListNotations.

Lemma oget_lt : forall A (l : list A) i, (i < length l)%nat -> exists x, oget l i = Ok x.
Proof.
  intros A l i H. unfold oget. destruct (nth_error l i) as [x |] eqn:E; [exists x; reflexivity |].
  apply nth_error_None in E. lia.
Qed.
Lemma omap_all : forall A B (f : A -> outcome B) l, (forall x, In x l -> exists y, f x = Ok y) ->
  exists r, omap f l = Ok r /\ length r = length l.
Proof.
  induction l as [| x l IH]; intros H; [exists []; split; reflexivity |].
  destruct (H x (or_introl eq_refl)) as (y & E).
  destruct (IH (fun a b => H a (or_intror b))) as (r & E1 & L).
  exists (y :: r). cbn [omap]. rewrite E. cbn [obind]. rewrite E1. split; [reflexivity |]. cbn. lia.
Qed.

Section Sizes.
  Context {T : Type} {ops : NumOps T}.
  Variable math : rp_math T.
  Variable junk : T.

  Lemma quadSD_loop_length : forall (p : list T) u v a b, length (fst (quadSD_loop p u v a b)) = length p.
  Proof. induction p as [| x p IH]; intros; [reflexivity |]. cbn. now rewrite IH. Qed.
  Lemma quadSD_ok : forall u v (p : list T), (2 <= length p)%nat ->
    exists q a b, quadSD u v p = Ok (q, (a, b)) /\ length q = length p.
  Proof.
    intros u v [| p0 [| p1 p]] H; cbn in H; try lia.
    cbn. set (x := nadd _ _).
    pose proof (quadSD_loop_length p u v x p0) as L.
    destruct (quadSD_loop p u v x p0) as [q [a b]]. cbn in *.
    exists (p0 :: x :: q), a, b. split; [reflexivity |]. cbn. now rewrite L.
  Qed.

  Lemma calcSC_ok : forall a b sc (K : list T) u v, (2 <= length K)%nat ->
    exists t sc' qk, calcSC a b sc K u v = Ok (t, sc', qk) /\ length qk = length K.
  Proof.
    intros a b sc K u v H. unfold calcSC.
    destruct (quadSD_ok u v K H) as (qk & c & d & E & L). rewrite E. cbn [obind].
    destruct (oget_lt _ K (length K - 1)) as (k1 & E1); [lia |].
    destruct (oget_lt _ K (length K - 2)) as (k2 & E2); [lia |].
    rewrite E1, E2. cbn [obind].
    destruct (_ && _)%bool; [| destruct (nleb _ _)]; do 3 eexists; (split; [reflexivity | exact L]).
  Qed.

  Lemma nextK_ok : forall t a b sc (K qk qp : list T), (2 <= length K)%nat -> length qk = length K -> length qp = S (length K) ->
    exists K' sc', nextK t a b sc K qk qp = Ok (K', sc') /\ length K' = length K.
  Proof.
    intros t a b sc K qk qp H Lk Lp. unfold nextK.
    destruct (oget_lt _ qp 0) as (q0 & E0); [lia |].
    destruct (oget_lt _ qp 1) as (q1 & E1); [lia |].
    destruct (Nat.eqb t 3).
    - destruct (omap_all _ _ (fun i => oget qk (i - 2)) (seq 2 (length K - 2))) as (r & E & L).
      { intros i Hi. apply in_seq in Hi. apply oget_lt. lia. }
      rewrite E. cbn [obind]. do 2 eexists. split; [reflexivity |]. cbn. rewrite L, seq_length. lia.
    - rewrite E0, E1. cbn [obind]. destruct (nltb _ _).
      + destruct (omap_all _ _ (fun i => x <-- oget qp (i - 1) ;; y <-- oget qk (i - 2) ;; z <-- oget qp i ;;
          Ok (nadd (nadd (nopp (nmul (ndiv (s_a7 sc) (s_a1 sc)) x)) (nmul (ndiv (s_a3 sc) (s_a1 sc)) y)) z)) (seq 2 (length K - 2))) as (r & E & L).
        { intros i Hi. apply in_seq in Hi.
          destruct (oget_lt _ qp (i - 1)) as (x & X); [lia |].
          destruct (oget_lt _ qk (i - 2)) as (y & Y); [lia |].
          destruct (oget_lt _ qp i) as (z & Z); [lia |].
          rewrite X, Y, Z. eexists. reflexivity. }
        rewrite E. cbn [obind]. do 2 eexists. split; [reflexivity |]. cbn. rewrite L, seq_length. lia.
      + destruct (omap_all _ _ (fun i => x <-- oget qp (i - 1) ;; y <-- oget qk (i - 2) ;;
          Ok (nadd (nopp (nmul (s_a7 sc) x)) (nmul (s_a3 sc) y))) (seq 2 (length K - 2))) as (r & E & L).
        { intros i Hi. apply in_seq in Hi.
          destruct (oget_lt _ qp (i - 1)) as (x & X); [lia |].
          destruct (oget_lt _ qk (i - 2)) as (y & Y); [lia |].
          rewrite X, Y. eexists. reflexivity. }
        rewrite E. cbn [obind]. do 2 eexists. split; [reflexivity |]. cbn. rewrite L, seq_length. lia.
  Qed.

  Lemma newest_ok : forall t a b sc u v (K p : list T), (2 <= length K)%nat -> length p = S (length K) ->
    exists uv, newest t a b sc u v K p = Ok uv.
  Proof.
    intros t a b sc u v K p H Lp. unfold newest. destruct (Nat.eqb t 3); [eexists; reflexivity |].
    destruct (oget_lt _ K (length K - 1)) as (k1 & E1); [lia |].
    destruct (oget_lt _ K (length K - 2)) as (k2 & E2); [lia |].
    destruct (oget_lt _ p (length K)) as (k3 & E3); [lia |].
    destruct (oget_lt _ p (length K - 1)) as (k4 & E4); [lia |].
    rewrite E1, E2, E3, E4. cbn [obind]. destruct (negb _); eexists; reflexivity.
  Qed.

  (** The sizes of the arrays. *)
  Definition sized (N : nat) (st : rp_state T) : Prop := length (r_K st) = N /\ length (r_qp st) = S N.

  Lemma fixed_steps_ok : forall k N u v st, (2 <= N)%nat -> sized N st -> exists st', fixed_steps k u v st = Ok st' /\ sized N st'.
  Proof.
    induction k as [| k IH]; intros N u v st HN [LK LQ]; [exists st; split; [reflexivity | split; assumption] |].
    cbn [fixed_steps].
    destruct (calcSC_ok (r_a st) (r_b st) (r_sc st) (r_K st) u v ltac:(lia)) as (t & sc & qk & E & L).
    rewrite E. cbn [obind].
    destruct (nextK_ok t (r_a st) (r_b st) sc (r_K st) qk (r_qp st) ltac:(lia) L ltac:(lia)) as (K' & sc' & E' & L').
    rewrite E'. cbn [obind]. apply IH; [exact HN |]. split; cbn [r_K r_qp fst]; congruence.
  Qed.

  (** What an accepted pair of zeros looks like: QuadIT_ak1 stops with NZ = 2. *)
  Definition accepted_pair (p : list T) (st : rp_state T) : Prop :=
    exists u v q ee,
      quad n1 u v = (r_szr st, r_szi st, (r_lzr st, r_lzi st)) /\
      quadSD u v p = Ok (q, (r_a st, r_b st)) /\ r_qp st = q /\
      quad_error q (r_a st) (r_b st) (r_szr st) v = Ok ee /\
      nleb (nadd (nabs (nadd (nopp (nmul (r_szr st) (r_b st))) (r_a st))) (nabs (nmul (r_szi st) (r_b st)))) (nmul (nofZ 20) ee) = true.
  (** What an accepted real zero looks like: RealIT_ak1 stops with NZ = 1. *)
  Definition accepted_real (p : list T) (st : rp_state T) : Prop :=
    exists q pv q0,
      horner_list (r_szr st) p = Ok (q, pv) /\ r_qp st = q /\ oget q 0 = Ok q0 /\ r_szi st = n0 /\
      nleb (nabs pv) (nmul (nmul (nofZ 20) dbl_epsilon)
        (nsub (nmul (nofZ 2) (fold_left (fun ee x => nadd (nmul ee (nabs (r_szr st))) (nabs x)) (skipn 1 q) (nmul (nlit 1 2) (nabs q0)))) (nabs pv))) = true.

  Lemma quadIT_loop_ok : forall fuel N p j tried u v relstp omp st, (2 <= N)%nat -> length p = S N -> sized N st ->
    exists o, quadIT_loop fuel p j tried u v relstp omp st = Ok o /\
      ((fuel > (if tried then 21 - j else 43 - j))%nat -> (j <= 20)%nat -> o <> None) /\
      forall nz st', o = Some (nz, st') -> sized N st' /\ (nz = 0%nat \/ nz = 2%nat /\ accepted_pair p st').
  Proof.
    induction fuel as [| fuel IH]; intros N p j tried u v relstp omp st HN Lp [LK LQ].
    { exists None. split; [reflexivity |]. split; [intros; lia | intros; discriminate]. }
    cbn [quadIT_loop]. destruct (quad n1 u v) as [[szr szi] [lzr lzi]] eqn:Q.
    destruct (nltb _ (nabs (nsub _ _))).
    { eexists. split; [reflexivity |]. split; [intros; discriminate |].
      intros nz st' E. injection E as <- <-. split; [split; assumption | left; reflexivity]. }
    destruct (quadSD_ok u v p ltac:(lia)) as (q & a & b & E & L). rewrite E. cbn [obind].
    assert (EE : exists ee, quad_error q a b szr v = Ok ee).
    { unfold quad_error. destruct (oget_lt _ q 0) as (q0 & E0); [lia |]. rewrite E0. eexists. reflexivity. }
    destruct EE as (ee & EE). rewrite EE. cbn [obind].
    destruct (nleb (nadd _ _) (nmul (nofZ 20) ee)) eqn:A.
    { eexists. split; [reflexivity |]. split; [intros; discriminate |].
      intros nz st' X. injection X as <- <-. split; [split; cbn; lia |]. right. split; [reflexivity |].
      exists u, v, q, ee. cbn. repeat split; assumption. }
    destruct (Nat.ltb 20 (S j)) eqn:J.
    { eexists. split; [reflexivity |]. split; [intros; discriminate |].
      intros nz st' X. injection X as <- <-. split; [split; cbn; lia | left; reflexivity]. }
    apply Nat.ltb_ge in J.
    (* the rest of the step from any stall outcome *)
    assert (R : forall u v tried' j' st2, sized N st2 ->
      exists o,
        (c <-- calcSC (r_a st2) (r_b st2) (r_sc st2) (r_K st2) u v ;;
         let '(tFlag, sc, qk) := c in
         n <-- nextK tFlag (r_a st2) (r_b st2) sc (r_K st2) qk (r_qp st2) ;;
         c' <-- calcSC (r_a st2) (r_b st2) (snd n) (fst n) u v ;;
         let '(tFlag', sc', qk') := c' in
         uv <-- newest tFlag' (r_a st2) (r_b st2) sc' u v (fst n) p ;;
         let st3 := mkRp (r_a st2) (r_b st2) sc' (fst n) (r_qp st2) qk' szr szi lzr lzi in
         if negb (neqb (snd uv) n0) then
           quadIT_loop fuel p j' tried' (fst uv) (snd uv) (nabs (ndiv (nadd (nopp v) (snd uv)) (snd uv))) (nadd (nabs (nadd (nopp (nmul szr b)) a)) (nabs (nmul szi b))) st3
         else Ok (Some (0%nat, st3))) = Ok o /\
        ((fuel > (if tried' then 21 - j' else 43 - j'))%nat -> (j' <= 20)%nat -> o <> None) /\
        forall nz st', o = Some (nz, st') -> sized N st' /\ (nz = 0%nat \/ nz = 2%nat /\ accepted_pair p st')).
    { clear - IH HN Lp. intros u v tried' j' st2 [K2 Q2].
      destruct (calcSC_ok (r_a st2) (r_b st2) (r_sc st2) (r_K st2) u v ltac:(lia)) as (t & sc & qk & E & L).
      rewrite E. cbn [obind].
      destruct (nextK_ok t (r_a st2) (r_b st2) sc (r_K st2) qk (r_qp st2) ltac:(lia) L ltac:(lia)) as (K' & sc' & E' & L').
      rewrite E'. cbn [obind fst snd].
      destruct (calcSC_ok (r_a st2) (r_b st2) sc' K' u v ltac:(lia)) as (t2 & sc2 & qk2 & E2 & L2).
      rewrite E2. cbn [obind].
      destruct (newest_ok t2 (r_a st2) (r_b st2) sc2 u v K' p ltac:(lia) ltac:(lia)) as (uv & E3).
      rewrite E3. cbn [obind]. destruct (negb _).
      - apply IH; [exact HN | exact Lp |]. split; cbn; lia.
      - eexists. split; [reflexivity |]. split; [intros; discriminate |].
        intros nz st' X. injection X as <- <-. split; [split; cbn; lia | left; reflexivity]. }
    destruct (Nat.leb 2 (S j) && _)%bool eqn:ST.
    - destruct tried; [cbn [negb] in ST; rewrite !andb_false_r in ST; discriminate |].
      set (rs := if nltb relstp dbl_epsilon then _ else _).
      destruct (quadSD_ok (nsub u (nmul u rs)) (nadd v (nmul v rs)) p ltac:(lia)) as (q' & a' & b' & E' & L').
      rewrite E'. cbn [obind fst snd].
      destruct (fixed_steps_ok 5 N (nsub u (nmul u rs)) (nadd v (nmul v rs))
        (mkRp a' b' (r_sc st) (r_K st) q' (r_qk st) szr szi lzr lzi) HN) as (st2 & E2 & S2); [split; cbn; lia |].
      cbn [r_sc r_K r_qk]. rewrite E2. cbn [obind].
      destruct (R (nsub u (nmul u rs)) (nadd v (nmul v rs)) true 0%nat st2 S2) as (o & X1 & X2 & X3).
      exists o. split; [exact X1 |]. split; [intros F1 F2; apply X2; cbn; lia | exact X3].
    - cbn [obind].
      destruct (R u v tried (S j) (mkRp a b (r_sc st) (r_K st) q (r_qk st) szr szi lzr lzi)) as (o & X1 & X2 & X3).
      { split; cbn; lia. }
      exists o. split; [exact X1 |]. split; [intros F1 F2; apply X2; destruct tried; lia | exact X3].
  Qed.

  Lemma quadIT_ok : forall fuel N p u v st, (2 <= N)%nat -> length p = S N -> sized N st ->
    exists o, quadIT junk fuel p u v st = Ok o /\ ((fuel > 43)%nat -> o <> None) /\
      forall nz st', o = Some (nz, st') -> sized N st' /\ (nz = 0%nat \/ nz = 2%nat /\ accepted_pair p st').
  Proof.
    intros fuel N p u v st HN Lp S. unfold quadIT.
    set (st1 := mkRp _ _ _ _ _ _ _ _ _ _).
    destruct (quadIT_loop_ok fuel N p 0 false u v junk junk st1 HN Lp S) as (o & E & F & G).
    rewrite E. cbn [obind]. destruct o as [[nz st'] |].
    - eexists. split; [reflexivity |]. split; [intros; discriminate |].
      intros nz' st'' X. injection X as <- <-. destruct (G nz st' eq_refl) as [A B]. split; [exact A |]. exact B.
    - exists None. split; [reflexivity |]. split; [intros H; apply F; cbn; lia | intros; discriminate].
  Qed.

  Lemma horner_all_length : forall (p : list T) pv s, length (horner_all pv s p) = length p.
  Proof. induction p as [| x p IH]; intros; [reflexivity |]. cbn. now rewrite IH. Qed.
  Lemma horner_list_ok : forall s (p : list T), (1 <= length p)%nat -> exists q pv, horner_list s p = Ok (q, pv) /\ length q = length p.
  Proof.
    intros s [| p0 p] H; cbn in H; [lia |]. cbn [horner_list]. do 2 eexists. split; [reflexivity |].
    cbn [length]. now rewrite horner_all_length.
  Qed.

  Lemma realIT_loop_ok : forall fuel N p j sss s t omp st, (2 <= N)%nat -> length p = S N -> sized N st ->
    exists o, realIT_loop fuel p j sss s t omp st = Ok o /\
      ((fuel > 10 - j)%nat -> (j <= 10)%nat -> o <> None) /\
      forall nz i sss' st', o = Some (nz, (i, (sss', st'))) -> sized N st' /\ (nz = 0%nat \/ nz = 1%nat /\ accepted_real p st').
  Proof.
    induction fuel as [| fuel IH]; intros N p j sss s t omp st HN Lp [LK LQ].
    { exists None. split; [reflexivity |]. split; [intros; lia | intros; discriminate]. }
    cbn [realIT_loop].
    destruct (horner_list_ok s p ltac:(lia)) as (q & pv & E & L). rewrite E. cbn [obind].
    destruct (oget_lt _ q 0) as (q0 & E0); [lia |]. rewrite E0. cbn [obind].
    destruct (nleb (nabs pv) _) eqn:A.
    { eexists. split; [reflexivity |]. split; [intros; discriminate |].
      intros nz i sss' st' X. injection X as <- <- <- <-. split; [split; cbn; lia |]. right. split; [reflexivity |].
      exists q, pv, q0. cbn [r_szr r_qp r_szi]. repeat split; assumption. }
    destruct (Nat.ltb 10 (S j)) eqn:J.
    { eexists. split; [reflexivity |]. split; [intros; discriminate |].
      intros nz i sss' st' X. injection X as <- <- <- <-. split; [split; cbn; lia | left; reflexivity]. }
    apply Nat.ltb_ge in J.
    destruct (Nat.leb 2 (S j) && _)%bool.
    { eexists. split; [reflexivity |]. split; [intros; discriminate |].
      intros nz i sss' st' X. injection X as <- <- <- <-. split; [split; cbn; lia | left; reflexivity]. }
    destruct (horner_list_ok s (r_K st) ltac:(lia)) as (qk & kv & Ek & Lk). rewrite Ek. cbn [obind].
    destruct (oget_lt _ (r_K st) (length (r_K st) - 1)) as (k1 & E1); [lia |]. rewrite E1. cbn [obind].
    set (B := if nltb _ (nabs kv) then _ else _).
    assert (HB : exists K', B = Ok K' /\ length K' = N).
    { unfold B. destruct (nltb _ (nabs kv)).
      - destruct (omap_all _ _ (fun i => x <-- oget qk (i - 1) ;; y <-- oget q i ;; Ok (nadd (nmul (nopp (ndiv pv kv)) x) y)) (seq 1 (length (r_K st) - 1))) as (r & Er & Lr).
        { intros i Hi. apply in_seq in Hi.
          destruct (oget_lt _ qk (i - 1)) as (x & X); [lia |].
          destruct (oget_lt _ q i) as (y & Y); [lia |]. rewrite X, Y. eexists. reflexivity. }
        rewrite Er. cbn [obind]. eexists. split; [reflexivity |]. cbn. rewrite Lr, seq_length. lia.
      - destruct (omap_all _ _ (fun i => oget qk (i - 1)) (seq 1 (length (r_K st) - 1))) as (r & Er & Lr).
        { intros i Hi. apply in_seq in Hi. apply oget_lt. lia. }
        rewrite Er. cbn [obind]. eexists. split; [reflexivity |]. cbn. rewrite Lr, seq_length. lia. }
    destruct HB as (K' & EB & LB). rewrite EB. cbn [obind].
    destruct (horner_list_ok s K' ltac:(lia)) as (qk' & kv' & Ek' & Lk'). rewrite Ek'. cbn [obind snd].
    destruct (oget_lt _ K' (length (r_K st) - 1)) as (k1' & E1'); [lia |]. rewrite E1'. cbn [obind].
    match goal with |- exists o, realIT_loop fuel p (S j) sss ?s' ?t' ?omp' ?st' = _ /\ _ =>
      destruct (IH N p (S j) sss s' t' omp' st' HN Lp) as (o & X1 & X2 & X3); [split; cbn; lia |] end.
    exists o. split; [exact X1 |]. split; [intros F1 F2; apply X2; lia | exact X3].
  Qed.
  Lemma realIT_ok : forall fuel N p s st, (2 <= N)%nat -> length p = S N -> sized N st ->
    exists o, realIT junk fuel p s st = Ok o /\ ((fuel > 10)%nat -> o <> None) /\
      forall nz i sss' st', o = Some (nz, (i, (sss', st'))) -> sized N st' /\ (nz = 0%nat \/ nz = 1%nat /\ accepted_real p st').
  Proof.
    intros fuel N p s st HN Lp S. destruct (realIT_loop_ok fuel N p 0 s s junk junk st HN Lp S) as (o & A & B & C).
    exists o. split; [exact A |]. split; [intros; apply B; lia | exact C].
  Qed.

  (** A zero or a pair was accepted. *)
  Definition accepted (p : list T) (nz : nat) (st : rp_state T) : Prop :=
    nz = 1%nat /\ accepted_real p st \/ nz = 2%nat /\ accepted_pair p st.

  Lemma try_loop_ok : forall fuel N p svk spass vpass tss tvv fflag stry vtry ui vi s betav betas st,
    (2 <= N)%nat -> length p = S N -> length svk = N -> sized N st ->
    exists o, try_loop junk fuel p svk spass vpass tss tvv fflag stry vtry ui vi s betav betas st = Ok o /\
      ((fuel > (if fflag then 45 else 44))%nat -> o <> None) /\
      forall nz st' bv bs, o = Some (nz, (st', (bv, bs))) -> sized N st' /\ (nz = 0%nat \/ accepted p nz st').
  Proof.
    induction fuel as [| fuel IH]; intros N p svk spass vpass tss tvv fflag stry vtry ui vi s betav betas st HN Lp Lsv SZ.
    { exists None. split; [reflexivity |]. split; [intros; lia | intros; discriminate]. }
    cbn [try_loop].
    set (A := if (fflag && _)%bool then _ else _).
    assert (HA : exists oa, A = Ok oa /\ ((fuel > 43)%nat -> oa <> None) /\
      forall nz li vt bv st1, oa = Some (nz, (li, (vt, (bv, st1)))) ->
        sized N st1 /\ (nz = 0%nat \/ accepted p nz st1) /\ (nz = 0%nat -> vt = true \/ fflag = true)).
    { assert (HQ : exists oa, (r <-- quadIT junk fuel p ui vi st ;;
         match r with
         | None => Ok None
         | Some (nz, st) =>
             if Nat.ltb 0 nz then Ok (Some (nz, (false, (vtry, (betav, st)))))
             else if stry || negb spass then Ok (Some (0%nat, (false, (true, (nmul betav (nlit 1 4), st)))))
             else Ok (Some (0%nat, (true, (true, (nmul betav (nlit 1 4),
               mkRp (r_a st) (r_b st) (r_sc st) svk (r_qp st) (r_qk st) (r_szr st) (r_szi st) (r_lzr st) (r_lzi st))))))
         end)%bool = Ok oa /\ ((fuel > 43)%nat -> oa <> None) /\
         forall nz li vt bv st1, oa = Some (nz, (li, (vt, (bv, st1)))) ->
           sized N st1 /\ (nz = 0%nat \/ accepted p nz st1) /\ (nz = 0%nat -> vt = true \/ fflag = true)).
      { destruct (quadIT_ok fuel N p ui vi st HN Lp SZ) as (o & E & F & G). rewrite E. cbn [obind].
        destruct o as [[nz st1] |]; [| exists None; split; [reflexivity |]; split; [intros H; destruct (F H eq_refl) | intros; discriminate]].
        destruct (G nz st1 eq_refl) as [S1 C].
        destruct (Nat.ltb 0 nz) eqn:NZ; [| destruct (stry || negb spass)%bool];
          (eexists; split; [reflexivity |]; split; [intros; discriminate |];
           intros nz' li vt bv st2 X; injection X as <- <- <- <- <-).
        - split; [exact S1 |]. destruct C as [-> | C]; [discriminate |]. split; [right; right; exact C |].
          intros ->. discriminate.
        - split; [exact S1 |]. split; [now left | intros _; now left].
        - split; [split; [exact Lsv | apply S1] |]. split; [now left | intros _; now left]. }
      unfold A. destruct (fflag && (spass && (negb vpass || nltb tss tvv)))%bool eqn:FF; [| exact HQ].
      apply andb_prop in FF. destruct FF as [FF _].
      eexists. split; [reflexivity |]. split; [intros; discriminate |].
      intros nz li vt bv st1 X. injection X as <- <- <- <- <-. split; [exact SZ |]. split; [now left | intros _; now right]. }
    destruct HA as (oa & EA & FA & GA). rewrite EA. cbn [obind].
    destruct oa as [[nz [li [vt [bv st1]]]] |]; [| exists None; split; [reflexivity |]; split; [intros H; destruct (FA ltac:(destruct fflag; lia) eq_refl) | intros; discriminate]].
    destruct (GA _ _ _ _ _ eq_refl) as (S1 & C1 & V1).
    destruct (Nat.ltb 0 nz) eqn:NZ.
    { eexists. split; [reflexivity |]. split; [intros; discriminate |]. intros nz' st' bv' bs' X. injection X as <- <- <- <-. split; assumption. }
    assert (nz = 0)%nat as -> by (apply Nat.ltb_ge in NZ; lia). specialize (V1 eq_refl).
    set (L := if li then _ else _).
    assert (HL : exists ol, L = Ok ol /\ ((fuel > 43)%nat -> ol <> None) /\
      forall nz i sr s' bs st2, ol = Some (nz, (i, (sr, (s', (bs, st2))))) -> sized N st2 /\ (nz = 0%nat \/ accepted p nz st2)).
    { unfold L. destruct li.
      - destruct (realIT_ok fuel N p s st1 HN Lp S1) as (o & E & F & G). rewrite E. cbn [obind].
        destruct o as [[nz [i [s' st2]]] |]; [| exists None; split; [reflexivity |]; split; [intros H; destruct (F ltac:(lia) eq_refl) | intros; discriminate]].
        eexists. split; [reflexivity |]. split; [intros; discriminate |]. intros nz' i' sr' s'' bs' st2' X. injection X as <- <- <- <- <- <-.
        destruct (G _ _ _ _ eq_refl) as [S2 C2]. split; [exact S2 |]. destruct C2 as [-> | C2]; [now left | right; left; exact C2].
      - eexists. split; [reflexivity |]. split; [intros; discriminate |]. intros nz' i' sr' s'' bs' st2' X. injection X as <- <- <- <- <- <-.
        split; [exact S1 | now left]. }
    destruct HL as (ol & EL & FL & GL). rewrite EL. cbn [obind].
    destruct ol as [[nz [i [sr [s' [bs st2]]]]] |]; [| exists None; split; [reflexivity |]; split; [intros H; destruct (FL ltac:(destruct fflag; lia) eq_refl) | intros; discriminate]].
    destruct (GL _ _ _ _ _ _ eq_refl) as (S2 & C2).
    destruct (Nat.ltb 0 nz) eqn:NZ2.
    { eexists. split; [reflexivity |]. split; [intros; discriminate |]. intros nz' st' bv' bs' X. injection X as <- <- <- <-. split; assumption. }
    assert (HR : forall ui vi st3, sized N st3 ->
      exists o, (if vpass && negb vt then try_loop junk fuel p svk spass vpass tss tvv false sr vt ui vi s' bv bs st3
                 else Ok (Some (0%nat, (st3, (bv, bs)))))%bool = Ok o /\
      ((S fuel > (if fflag then 45 else 44))%nat -> o <> None) /\
      forall nz st' bv bs, o = Some (nz, (st', (bv, bs))) -> sized N st' /\ (nz = 0%nat \/ accepted p nz st')).
    { intros ui' vi' st3 S3. destruct (vpass && negb vt)%bool eqn:VV.
      - destruct (IH N p svk spass vpass tss tvv false sr vt ui' vi' s' bv bs st3 HN Lp Lsv S3) as (o & X1 & X2 & X3).
        exists o. split; [exact X1 |]. split; [| exact X3]. intros F. apply X2.
        destruct V1 as [-> | ->]; [rewrite andb_false_r in VV; discriminate | lia].
      - eexists. split; [reflexivity |]. split; [intros; discriminate |]. intros nz' st' bv' bs' X. injection X as <- <- <- <-. split; [exact S3 | now left]. }
    destruct i; apply HR; [exact S2 | split; [exact Lsv | apply S2]].
  Qed.

  Lemma fxshfr_loop_ok : forall steps fuel N p u v j tFlag betav betas ovv oss otv ots st,
    (2 <= N)%nat -> length p = S N -> sized N st -> length (r_qk st) = N ->
    exists o, fxshfr_loop junk fuel steps p u v j tFlag betav betas ovv oss otv ots st = Ok o /\
      ((fuel > 45)%nat -> o <> None) /\
      forall nz st', o = Some (nz, st') -> length (r_qp st') = S N /\ (nz = 0%nat \/ accepted p nz st').
  Proof.
    induction steps as [| steps IH]; intros fuel N p u v j tFlag betav betas ovv oss otv ots st HN Lp [LK LQ] Lq.
    { eexists. split; [reflexivity |]. split; [intros; discriminate |]. intros nz st' X. injection X as <- <-. split; [exact LQ | now left]. }
    cbn [fxshfr_loop].
    destruct (nextK_ok tFlag (r_a st) (r_b st) (r_sc st) (r_K st) (r_qk st) (r_qp st) ltac:(lia) ltac:(lia) ltac:(lia)) as (K' & sc' & E & L).
    rewrite E. cbn [obind fst snd].
    destruct (calcSC_ok (r_a st) (r_b st) sc' K' u v ltac:(lia)) as (t & sc & qk & E1 & L1). rewrite E1. cbn [obind].
    destruct (newest_ok t (r_a st) (r_b st) sc u v K' p ltac:(lia) ltac:(lia)) as ([ui vi] & E2). rewrite E2. cbn [obind].
    destruct (oget_lt _ K' (length (r_K st) - 1)) as (k1 & E3); [lia |]. rewrite E3. cbn [obind].
    destruct (oget_lt _ p (length (r_K st))) as (pN & E4); [lia |]. rewrite E4. cbn [obind].
    set (st1 := mkRp (r_a st) _ _ _ _ _ _ _ _ _).
    assert (S1 : sized N st1) by (split; cbn; lia).
    destruct (_ && (_ || _))%bool.
    - match goal with |- context [try_loop junk fuel p K' ?a ?b ?c ?d true false false ui vi ?e betav betas st1] =>
        destruct (try_loop_ok fuel N p K' a b c d true false false ui vi e betav betas st1 HN Lp ltac:(lia) S1) as (o & EO & F & G) end.
      rewrite EO. cbn [obind].
      destruct o as [[nz [st2 [bv bs]]] |]; [| exists None; split; [reflexivity |]; split; [intros H; destruct (F H eq_refl) | intros; discriminate]].
      destruct (G _ _ _ _ eq_refl) as ([K2 Q2] & C2). destruct (Nat.ltb 0 nz).
      { eexists. split; [reflexivity |]. split; [intros; discriminate |]. intros nz' st' X. injection X as <- <-. split; assumption. }
      destruct (quadSD_ok u v p ltac:(lia)) as (q & a & b & E5 & L5). rewrite E5. cbn [obind].
      destruct (calcSC_ok a b (r_sc st2) (r_K st2) u v ltac:(lia)) as (t' & sc2 & qk2 & E6 & L6). rewrite E6. cbn [obind].
      apply IH; [exact HN | exact Lp | split; cbn; lia | cbn; lia].
    - apply IH; [exact HN | exact Lp | exact S1 | cbn; lia].
  Qed.

  Lemma fxshfr_ok : forall fuel L2 N sr bnd K p zeros, (2 <= N)%nat -> length p = S N -> length K = N ->
    exists o, fxshfr junk fuel L2 sr bnd K p zeros = Ok o /\ ((fuel > 45)%nat -> o <> None) /\
      forall nz st', o = Some (nz, st') -> length (r_qp st') = S N /\ (nz = 0%nat \/ accepted p nz st').
  Proof.
    intros fuel L2 N sr bnd K p [[szr szi] [lzr lzi]] HN Lp LK. unfold fxshfr.
    destruct (quadSD_ok (nopp (nmul (nofZ 2) sr)) bnd p ltac:(lia)) as (q & a & b & E & L). rewrite E. cbn [obind].
    match goal with |- context [calcSC a b ?s K ?u ?v] => destruct (calcSC_ok a b s K u v ltac:(lia)) as (t & sc & qk & E1 & L1) end.
    rewrite E1. cbn [obind]. apply fxshfr_loop_ok; [exact HN | exact Lp | split; cbn; lia | cbn; lia].
  Qed.

  Lemma shifts_ok : forall tries fuel jj N p K bnd xx yy zeros, (2 <= N)%nat -> length p = S N -> length K = N ->
    exists o, shifts math junk fuel tries jj p K bnd xx yy zeros = Ok o /\ ((fuel > 45)%nat -> o <> None) /\
      forall nz st' xy, o = Some (nz, (st', xy)) -> nz = 0%nat \/ length (r_qp st') = S N /\ accepted p nz st'.
  Proof.
    induction tries as [| tries IH]; intros fuel jj N p K bnd xx yy zeros HN Lp LK.
    { eexists. split; [reflexivity |]. split; [intros; discriminate |]. intros nz st' xy X. injection X as <- <- <-. now left. }
    cbn [shifts].
    match goal with |- context [fxshfr junk fuel ?l ?sr bnd K p zeros] =>
      destruct (fxshfr_ok fuel l N sr bnd K p zeros HN Lp LK) as (o & E & F & G) end.
    rewrite E. cbn [obind].
    destruct o as [[nz st] |]; [| exists None; split; [reflexivity |]; split; [intros H; destruct (F H eq_refl) | intros; discriminate]].
    destruct (G _ _ eq_refl) as (Q & C). destruct (Nat.eqb_spec nz 0) as [-> | NZ].
    - apply IH; assumption.
    - eexists. split; [reflexivity |]. split; [intros; discriminate |]. intros nz' st' xy X. injection X as <- <- <-.
      right. split; [exact Q |]. destruct C as [C | C]; [congruence | exact C].
  Qed.

  Lemma scale_length : forall p p' : list T, scale_coefficients math p = Ok p' -> length p' = length p.
  Proof.
    intros p p' E. unfold scale_coefficients in E.
    destruct (_ || _)%bool; [| congruence].
    destruct (ntoZ _); [| discriminate]. destruct (_ && _)%bool; [| discriminate].
    destruct (negb _); injection E as <-; [now rewrite map_length | reflexivity].
  Qed.
  Lemma scale_outcome : forall p : list T, scale_coefficients math p = UB \/ exists p', scale_coefficients math p = Ok p'.
  Proof.
    intros p. unfold scale_coefficients. destruct (_ || _)%bool; [| right; eexists; reflexivity].
    destruct (ntoZ _); [| now left]. destruct (_ && _)%bool; [right; eexists; reflexivity | now left].
  Qed.

  Lemma lower_bound_ok : forall fuel (p : list T), (2 <= length p)%nat -> exists o, lower_bound math fuel p = Ok o.
  Proof.
    intros fuel p H. unfold lower_bound.
    destruct (oget_lt _ p (length p - 1)) as (a & E1); [lia |].
    destruct (oget_lt _ p 0) as (b & E2); [lia |].
    destruct (oget_lt _ p (length p - 1 - 1)) as (c & E3); [lia |].
    rewrite E1, E2, E3. cbn [obind]. destruct (chop _ _ _); eexists; reflexivity.
  Qed.

  Lemma removelast_length : forall (l : list T), length (removelast l) = (length l - 1)%nat.
  Proof. induction l as [| x [| y l] IH]; [reflexivity | reflexivity |]. cbn in *. rewrite IH. lia. Qed.

  Lemma no_shift_ok : forall k (p K : list T) z N, (1 <= N)%nat -> length p = S N -> length K = N ->
    exists K', no_shift_steps k p K z = Ok K' /\ length K' = N.
  Proof.
    induction k as [| k IH]; intros p K z N HN Lp LK; [exists K; split; [reflexivity | exact LK] |].
    cbn [no_shift_steps].
    destruct (oget_lt _ p (length K)) as (aa & E1); [lia |].
    destruct (oget_lt _ p (length K - 1)) as (bb & E2); [lia |].
    destruct (oget_lt _ K (length K - 1)) as (cc & E3); [lia |].
    rewrite E1, E2, E3. cbn [obind]. destruct z.
    - destruct (oget_lt _ (n0 :: removelast K) (length K - 1)) as (kl & E4); [cbn; rewrite removelast_length; lia |].
      rewrite E4. cbn [obind]. apply IH; [exact HN | exact Lp | cbn; rewrite removelast_length; lia].
    - destruct (omap_all _ _ (fun j => x <-- oget K (j - 1) ;; y <-- oget p j ;; Ok (nadd (nmul (ndiv (nopp aa) cc) x) y)) (seq 1 (length K - 1))) as (r & Er & Lr).
      { intros i Hi. apply in_seq in Hi.
        destruct (oget_lt _ K (i - 1)) as (x & X); [lia |].
        destruct (oget_lt _ p i) as (y & Y); [lia |]. rewrite X, Y. eexists. reflexivity. }
      rewrite Er. cbn [obind]. rewrite seq_length in Lr.
      destruct (oget_lt _ p 0) as (p0 & E5); [lia |]. rewrite E5. cbn [obind].
      destruct (oget_lt _ (p0 :: r) (length K - 1)) as (kl & E4); [cbn; lia |].
      rewrite E4. cbn [obind]. apply IH; [exact HN | exact Lp | cbn; lia].
  Qed.
  Lemma initial_K_ok : forall (p : list T) N, (1 <= N)%nat -> length p = S N -> exists K, initial_K p = Ok K /\ length K = N.
  Proof.
    intros p N HN Lp. unfold initial_K. rewrite Lp. cbn [Nat.sub]. rewrite Nat.sub_0_r.
    destruct (omap_all _ _ (fun i => c <-- oget p i ;; Ok (ndiv (nmul (nofZ (Z.of_nat (N - i))) c) (nofZ (Z.of_nat N)))) (seq 1 (N - 1))) as (r & Er & Lr).
    { intros i Hi. apply in_seq in Hi. destruct (oget_lt _ p i) as (y & Y); [lia |]. rewrite Y. eexists. reflexivity. }
    rewrite Er. cbn [obind]. rewrite seq_length in Lr.
    destruct (oget_lt _ p 0) as (p0 & E5); [lia |]. rewrite E5. cbn [obind].
    destruct (oget_lt _ (p0 :: r) (N - 1)) as (kl & E4); [cbn; lia |]. rewrite E4. cbn [obind].
    apply no_shift_ok; [exact HN | exact Lp | cbn; lia].
  Qed.

  (** The main loop with a list of roots in place of the slots. *)
  Fixpoint roots_of (fuel : nat) (p : list T) (xx yy : T) (zeros : T * T * (T * T)) : outcome (option (list (T * T))) :=
    match fuel with
    | O => Ok None
    | S fuel' =>
        match p with
        | [] | [_] => Ok (Some [])
        | [p0; p1] => Ok (Some [(nopp (ndiv p1 p0), n0)])
        | [p0; p1; p2] => let '(sr, si, (lr, li)) := quad p0 p1 p2 in Ok (Some [(sr, si); (lr, li)])
        | _ =>
          p <-- scale_coefficients math p ;;
          b <-- lower_bound math fuel' p ;;
          match b with
          | None => Ok None
          | Some bnd =>
              K <-- initial_K p ;;
              r <-- shifts math junk fuel' 20 1 p K bnd xx yy zeros ;;
              match r with
              | None => Ok None
              | Some (nz, (st, (xx, yy))) =>
                  if Nat.eqb nz 0 then Ok (Some [])
                  else
                    l <-- roots_of fuel' (firstn (length p - nz) (r_qp st)) xx yy (r_szr st, r_szi st, (r_lzr st, r_lzi st)) ;;
                    match l with
                    | None => Ok None
                    | Some l => Ok (Some ((r_szr st, r_szi st) :: (if negb (Nat.eqb nz 1) then [(r_lzr st, r_lzi st)] else []) ++ l))
                    end
              end
          end
        end
    end.

  (** A step of it on a polynomial of degree 3 or more. *)
  Lemma roots_of_step : forall fuel p xx yy zeros, (4 <= length p)%nat ->
    roots_of (S fuel) p xx yy zeros =
      (p <-- scale_coefficients math p ;;
       b <-- lower_bound math fuel p ;;
       match b with
       | None => Ok None
       | Some bnd =>
           K <-- initial_K p ;;
           r <-- shifts math junk fuel 20 1 p K bnd xx yy zeros ;;
           match r with
           | None => Ok None
           | Some (nz, (st, (xx, yy))) =>
               if Nat.eqb nz 0 then Ok (Some [])
               else
                 l <-- roots_of fuel (firstn (length p - nz) (r_qp st)) xx yy (r_szr st, r_szi st, (r_lzr st, r_lzi st)) ;;
                 match l with
                 | None => Ok None
                 | Some l => Ok (Some ((r_szr st, r_szi st) :: (if negb (Nat.eqb nz 1) then [(r_lzr st, r_lzi st)] else []) ++ l))
                 end
           end
       end).
  Proof. intros fuel [| a [| b [| c [| d p]]]] xx yy zeros H; cbn in H; try lia. reflexivity. Qed.
  Lemma main_loop_step : forall fuel degree p xx yy zeros z, (4 <= length p)%nat ->
    main_loop math junk (S fuel) degree p xx yy zeros z =
      (p <-- scale_coefficients math p ;;
          b <-- lower_bound math fuel p ;;
          match b with
          | None => Ok None
          | Some bnd =>
              K <-- initial_K p ;;
              r <-- shifts math junk fuel 20 1 p K bnd xx yy zeros ;;
              match r with
              | None => Ok None
              | Some (nz, (st, (xx, yy))) =>
                  if Nat.eqb nz 0 then Ok (Some (degree - (length p - 1), z)%nat)
                  else
                    let j := (degree - (length p - 1))%nat in
                    z1 <-- write_slot z j (r_szr st, r_szi st) ;;
                    z2 <-- (if negb (Nat.eqb nz 1) then write_slot z1 (j + 1) (r_lzr st, r_lzi st) else Ok z1) ;;
                    main_loop math junk fuel degree (firstn (length p - nz) (r_qp st)) xx yy
                      (r_szr st, r_szi st, (r_lzr st, r_lzi st)) z2
              end
          end).
  Proof.
    intros fuel degree p xx yy zeros z H. cbn [main_loop].
    destruct (Nat.ltb_spec (length p - 1) 1); [lia |]. destruct (Nat.leb_spec (length p - 1) 2); [lia |].
    destruct (scale_coefficients math p) as [p' | | |] eqn:E; [| reflexivity ..]. cbn [obind].
    now rewrite (scale_length _ _ E).
  Qed.

  (** The first slots hold these roots. *)
  Definition holds (z : @slots T) (ws : list (T * T)) : Prop :=
    length z = 100%nat /\ firstn (length ws) z = map Some ws.
  Lemma write_next : forall z ws x, holds z ws -> (length ws < 100)%nat ->
    exists z', write_slot z (length ws) x = Ok z' /\ holds z' (ws ++ [x]).
  Proof.
    intros z ws x [L F] H. unfold write_slot. rewrite L.
    destruct (Nat.ltb_spec (length ws) 100); [| lia].
    eexists. split; [reflexivity |]. split.
    - rewrite app_length. cbn [length]. rewrite firstn_length, skipn_length. lia.
    - rewrite app_length. cbn [length]. rewrite F, map_app.
      rewrite firstn_app, map_length. replace (length ws + 1 - length ws)%nat with 1%nat by lia.
      cbn [firstn map]. f_equal. apply firstn_all2. rewrite map_length. lia.
  Qed.

  (** The main loop writes the roots of [roots_of] behind those written before. *)
  Lemma main_loop_refines : forall fuel degree p xx yy zeros z ws,
    holds z ws -> (1 <= length p)%nat -> degree = (length ws + (length p - 1))%nat -> (degree <= 100)%nat ->
    match roots_of fuel p xx yy zeros with
    | Ok (Some l) => (length l < length p)%nat /\ exists z', main_loop math junk fuel degree p xx yy zeros z = Ok (Some (length (ws ++ l), z')) /\ holds z' (ws ++ l)
    | Ok None => main_loop math junk fuel degree p xx yy zeros z = Ok None
    | UB => main_loop math junk fuel degree p xx yy zeros z = UB /\ exists p', length p' <= length p /\ scale_coefficients math p' = UB
    | _ => False
    end%nat.
  Proof.
    induction fuel as [| fuel IH]; intros degree p xx yy zeros z ws HZ H1 HD HM; [reflexivity |].
    destruct (Nat.le_gt_cases 4 (length p)) as [L4 | L4].
    2: { destruct p as [| a [| b [| c [| d p]]]]; cbn [length] in *; try lia.
      - cbn. split; [lia |]. exists z. rewrite app_nil_r. split; [f_equal; f_equal; f_equal; lia | exact HZ].
      - cbn [roots_of main_loop length Nat.sub Nat.ltb Nat.leb oget obind nth_error].
        destruct (write_next z ws (nopp (ndiv b a), n0) HZ ltac:(lia)) as (z' & E & HZ').
        replace (degree - 1)%nat with (length ws) by lia. rewrite E. cbn [obind].
        split; [cbn; lia |]. exists z'. split; [rewrite app_length; cbn [length]; f_equal; f_equal; f_equal; lia | exact HZ'].
      - cbn [roots_of main_loop length Nat.sub Nat.ltb Nat.leb oget obind nth_error].
        destruct (quad a b c) as [[sr si] [lr li]].
        destruct (write_next z ws (sr, si) HZ ltac:(lia)) as (z' & E & HZ').
        replace (degree - 2)%nat with (length ws) by lia. rewrite E. cbn [obind].
        assert (W : length (ws ++ [(sr, si)]) = S (length ws)) by (rewrite app_length; cbn; lia).
        destruct (write_next z' (ws ++ [(sr, si)]) (lr, li) HZ' ltac:(lia)) as (z2 & E2 & HZ2).
        replace (degree - 1)%nat with (length (ws ++ [(sr, si)])) by lia. rewrite E2. cbn [obind].
        split; [cbn; lia |]. exists z2. rewrite <- app_assoc in HZ2. cbn [app] in HZ2.
        split; [| exact HZ2]. rewrite app_length. cbn [length]. f_equal. f_equal. f_equal. lia. }
    rewrite (roots_of_step fuel p xx yy zeros L4), (main_loop_step fuel degree p xx yy zeros z L4).
    destruct (scale_outcome p) as [E | (p' & E)]; rewrite E; cbn [obind].
    { split; [reflexivity |]. exists p. split; [lia | exact E]. }
    pose proof (scale_length _ _ E) as LP.
    destruct (lower_bound_ok fuel p' ltac:(lia)) as (o & EB). rewrite EB. cbn [obind]. destruct o as [bnd |]; [| reflexivity].
    destruct (initial_K_ok p' (length p' - 1) ltac:(lia) ltac:(lia)) as (K & EK & LK). rewrite EK. cbn [obind].
    destruct (shifts_ok 20 fuel 1 (length p' - 1) p' K bnd xx yy zeros ltac:(lia) ltac:(lia) LK) as (o & ES & _ & G).
    rewrite ES. cbn [obind]. destruct o as [[nz [st [xx' yy']]] |]; [| reflexivity].
    destruct (Nat.eqb_spec nz 0) as [-> | NZ].
    { split; [cbn; lia |]. exists z. rewrite app_nil_r. split; [f_equal; f_equal; f_equal; lia | exact HZ]. }
    destruct (G _ _ _ eq_refl) as [-> | [LQ AC]]; [congruence |].
    destruct (write_next z ws (r_szr st, r_szi st) HZ ltac:(lia)) as (z1 & E1 & HZ1).
    replace (degree - (length p' - 1))%nat with (length ws) by lia. cbv zeta. rewrite E1. cbn [obind].
    assert (W : length (ws ++ [(r_szr st, r_szi st)]) = S (length ws)) by (rewrite app_length; cbn; lia).
    destruct AC as [[-> _] | [-> _]]; cbn [Nat.eqb negb obind].
    - specialize (IH degree (firstn (length p' - 1) (r_qp st)) xx' yy' (r_szr st, r_szi st, (r_lzr st, r_lzi st)) z1 _ HZ1).
      rewrite firstn_length in IH. specialize (IH ltac:(lia) ltac:(lia) HM).
      destruct (roots_of fuel _ _ _ _) as [[l |] | | |]; cbn [obind]; try exact IH.
      + destruct IH as (LL & z' & E2 & HZ2). split; [cbn; lia |]. exists z'. rewrite <- app_assoc in E2, HZ2. split; [exact E2 | exact HZ2].
      + destruct IH as (E2 & p2 & L2 & U2). split; [exact E2 |]. exists p2. split; [lia | exact U2].
    - destruct (write_next z1 _ (r_lzr st, r_lzi st) HZ1 ltac:(lia)) as (z2 & E2 & HZ2).
      replace (length ws + 1)%nat with (length (ws ++ [(r_szr st, r_szi st)])) by lia. rewrite E2. cbn [obind].
      specialize (IH degree (firstn (length p' - 2) (r_qp st)) xx' yy' (r_szr st, r_szi st, (r_lzr st, r_lzi st)) z2 _ HZ2).
      rewrite firstn_length, app_length in IH. cbn [length] in IH. specialize (IH ltac:(lia) ltac:(lia) HM).
      destruct (roots_of fuel _ _ _ _) as [[l |] | | |]; cbn [obind]; try exact IH.
      + destruct IH as (LL & z' & E3 & HZ3). split; [cbn; lia |]. exists z'. rewrite <- !app_assoc in E3, HZ3. split; [exact E3 | exact HZ3].
      + destruct IH as (E3 & p2 & L2 & U2). split; [exact E3 |]. exists p2. split; [lia | exact U2].
  Qed.
End Sizes.

Section Driver.
  Context {T : Type} {ops : NumOps T}.
  Variable math : rp_math T.
  Variable junk : T.

  Lemma strip_zeros_spec : forall zs (c : T) rest z ws,
    List.Forall (fun x => neqb x n0 = true) zs -> neqb c n0 = false -> holds z ws -> (length ws + length zs <= 100)%nat ->
    exists z', strip_zeros (zs ++ c :: rest) (length ws) z = Ok (c :: rest, z') /\ holds z' (ws ++ repeat (n0, n0) (length zs)).
  Proof.
    induction zs as [| x zs IH]; intros c rest z ws HF HC HZ HL.
    - cbn. rewrite HC. exists z. rewrite app_nil_r. split; [reflexivity | exact HZ].
    - inversion HF as [| ? ? X F]; subst. cbn [app strip_zeros]. rewrite X. cbn [length] in HL.
      destruct (write_next z ws (n0, n0) HZ ltac:(lia)) as (z1 & E & HZ1). rewrite E. cbn [obind].
      assert (W : length (ws ++ [(n0 : T, n0 : T)]) = S (length ws)) by (rewrite app_length; cbn; lia).
      destruct (IH c rest z1 (ws ++ [(n0, n0)]) F HC HZ1 ltac:(lia)) as (z' & E' & HZ'). rewrite W in E'.
      exists z'. split; [exact E' |]. rewrite <- app_assoc in HZ'. exact HZ'.
  Qed.

  Lemma drop_small_app : forall l l' : list T, drop_small l <> [] -> drop_small (l ++ l') = drop_small l ++ l'.
  Proof.
    induction l as [| x l IH]; intros l' H; [cbn in H; congruence |]. cbn in *.
    destruct (nleb _ _); [reflexivity | now apply IH].
  Qed.
  Lemma drop_small_skip : forall l l' : list T, (forall x, In x l -> nleb dbl_min (nabs x) = false) -> drop_small (l ++ l') = drop_small l'.
  Proof.
    induction l as [| x l IH]; intros l' H; [reflexivity |]. cbn. rewrite (H x (or_introl eq_refl)).
    apply IH. intros y Y. apply H. now right.
  Qed.
  Lemma drop_small_split : forall l : list T, exists l0, l = l0 ++ drop_small l /\ forall x, In x l0 -> nleb dbl_min (nabs x) = false.
  Proof.
    induction l as [| x l (l0 & E & F)]; [exists []; split; [reflexivity | intros ? []] |].
    cbn. destruct (nleb dbl_min (nabs x)) eqn:S.
    - exists []. split; [reflexivity | intros ? []].
    - exists (x :: l0). split; [cbn; now f_equal |]. intros y [<- | Y]; [exact S | now apply F].
  Qed.
  Lemma drop_small_head : forall (l : list T) x l', drop_small l = x :: l' -> nleb dbl_min (nabs x) = true.
  Proof.
    induction l as [| y l IH]; intros x l' E; [discriminate |]. cbn in E.
    destruct (nleb _ _) eqn:S; [injection E as <- <-; exact S | eapply IH; exact E].
  Qed.
  Lemma drop_small_length : forall l : list T, (length (drop_small l) <= length l)%nat.
  Proof. induction l as [| x l IH]; cbn; [lia |]. destruct (nleb _ _); cbn; lia. Qed.
  Lemma drop_small_last : forall (l : list T) c, drop_small (l ++ [c]) = [] \/ exists l', drop_small (l ++ [c]) = l' ++ [c].
  Proof.
    induction l as [| x l IH]; intros c; cbn.
    - destruct (nleb _ _); [right; exists []; reflexivity | now left].
    - destruct (nleb _ _); [right; exists (x :: l); reflexivity | apply IH].
  Qed.

  (** Numbers of size [dbl_min] and more are not zero. *)
  Definition sane : Prop := forall x : T, nleb dbl_min (nabs x) = true -> neqb x n0 = false.

  Lemma read_slots : forall z (ws : list (T * T)), holds z ws ->
    omap (fun i => o <-- oget z i ;; match o with Some x => Ok x | None => UB end) (seq 0 (length ws)) = Ok ws.
  Proof.
    intros z ws [_ F].
    assert (H : forall ws' pre, ws = pre ++ ws' ->
      omap (fun i => o <-- oget z i ;; match o with Some x => Ok x | None => UB end) (seq (length pre) (length ws')) = Ok ws').
    { induction ws' as [| x ws' IH]; intros pre E; [reflexivity |].
      cbn [length seq omap].
      assert (N : nth_error ws (length pre) = Some x).
      { rewrite E, nth_error_app2, Nat.sub_diag; [reflexivity | lia]. }
      assert (L1 : (length pre < length ws)%nat) by (apply nth_error_Some; congruence).
      assert (G : oget z (length pre) = Ok (Some x)).
      { unfold oget. replace (nth_error z (length pre)) with (Some (Some x)); [reflexivity |]. symmetry.
        rewrite <- (firstn_skipn (length ws) z), nth_error_app1, F; [| rewrite F, map_length; exact L1].
        now apply map_nth_error. }
      rewrite G. cbn [obind].
      specialize (IH (pre ++ [x])). rewrite app_length, Nat.add_1_r in IH.
      rewrite IH; [reflexivity |]. rewrite <- app_assoc. exact E. }
    apply (H ws []). reflexivity.
  Qed.

  (** findRootsJenkinsTraub in terms of the list-valued loop: the zeros at the
      origin come first. *)
  Definition driver (fuel : nat) (d : list T) : outcome (option (list (T * T))) :=
    roots_of math junk fuel d (nsqrt (nlit 1 2)) (nopp (nsqrt (nlit 1 2))) (junk, junk, (junk, junk)).
  Lemma findRoots_split : forall fuel zs c cs roots, sane ->
    List.Forall (fun x => neqb x n0 = true) zs -> neqb c n0 = false -> drop_small (rev (c :: cs)) <> [] ->
    (2 <= length zs + length (drop_small (rev (c :: cs))) <= 101)%nat ->
    match driver fuel (drop_small (rev (c :: cs))) with
    | Ok (Some l) =>
        (length l < length (drop_small (rev (c :: cs))))%nat /\
        findRootsJenkinsTraub math junk fuel (zs ++ c :: cs) roots =
          Ok (Some (match repeat (n0, n0) (length zs) ++ l with [] => (false, roots) | r => (true, r) end))
    | Ok None => findRootsJenkinsTraub math junk fuel (zs ++ c :: cs) roots = Ok None
    | UB => findRootsJenkinsTraub math junk fuel (zs ++ c :: cs) roots = UB /\
            rpoly math junk fuel (drop_small (rev (zs ++ c :: cs))) (repeat None 100) = UB /\
            exists p', (length p' <= length (drop_small (rev (c :: cs))))%nat /\ scale_coefficients math p' = UB
    | _ => False
    end.
  Proof.
    intros fuel zs c cs roots HS HF HC HN HL.
    set (d := drop_small (rev (c :: cs))) in *.
    assert (D : drop_small (rev (zs ++ c :: cs)) = d ++ rev zs).
    { rewrite rev_app_distr. apply drop_small_app. exact HN. }
    unfold findRootsJenkinsTraub, rpoly. rewrite D, app_length, rev_length.
    destruct (Nat.ltb_spec (length d + length zs) 2); [lia |].
    destruct (Nat.ltb_spec 101 (length d + length zs)); [lia |].
    destruct (Nat.ltb_spec 100 (length d + length zs - 1)); [lia |].
    destruct d as [| d0 d'] eqn:DD; [congruence |].
    assert (D0 : neqb d0 n0 = false) by (apply HS; eapply drop_small_head; exact DD).
    cbn [app oget nth_error obind]. rewrite D0. cbn [negb].
    change (d0 :: d' ++ rev zs) with ((d0 :: d') ++ rev zs). rewrite rev_app_distr, rev_involutive.
    assert (LAST : exists e, rev (d0 :: d') = c :: e).
    { rewrite <- DD. unfold d. cbn [rev]. destruct (drop_small_last (rev cs) c) as [E | (l' & E)].
      - exfalso. unfold d in DD. cbn [rev] in DD. rewrite E in DD. discriminate.
      - rewrite E, rev_app_distr. cbn. eexists. reflexivity. }
    destruct LAST as (e & LAST). rewrite LAST.
    destruct (strip_zeros_spec zs c e (repeat None 100) [] HF HC) as (z1 & E1 & HZ1).
    { split; [apply repeat_length | reflexivity]. }
    { cbn [length] in *. lia. }
    cbn [length app] in E1, HZ1. rewrite E1. cbn [obind fst snd]. rewrite <- LAST, rev_involutive.
    assert (RL : length (repeat (n0 : T, n0 : T) (length zs)) = length zs) by apply repeat_length.
    pose proof (main_loop_refines math junk fuel (length (d0 :: d') + length zs - 1) (d0 :: d') (nsqrt (nlit 1 2)) (nopp (nsqrt (nlit 1 2)))
      (junk, junk, (junk, junk)) z1 _ HZ1 ltac:(cbn; lia) ltac:(rewrite RL; cbn; lia) ltac:(cbn in *; lia)) as M.
    unfold driver.
    destruct (roots_of math junk fuel (d0 :: d') _ _ _) as [[l |] | | |]; try exact M.
    - destruct M as (LL & z' & M & HZ). split; [exact LL |]. rewrite M. cbn [obind].
      set (r := repeat (n0, n0) (length zs) ++ l) in *.
      destruct r as [| r0 r'] eqn:R.
      + cbn [length Z.of_nat Z.ltb Z.compare]. reflexivity.
      + rewrite <- R in *. destruct (Z.ltb_spec 0 (Z.of_nat (length r))) as [_ | B]; [| rewrite R in B; cbn [length] in B; lia].
        rewrite Nat2Z.id, (read_slots z' r HZ). cbn [obind]. rewrite R. reflexivity.
    - rewrite M. reflexivity.
    - destruct M as (M & p' & L' & U). rewrite M. split; [reflexivity |]. split; [reflexivity |]. exists p'. split; assumption.
  Qed.

  (** Every list with a number of that size has this form. *)
  Lemma zeros_first : forall cs : list T, sane -> drop_small (rev cs) <> [] ->
    exists zs c cs', cs = zs ++ c :: cs' /\ List.Forall (fun x => neqb x n0 = true) zs /\ neqb c n0 = false /\
      drop_small (rev (c :: cs')) <> [] /\ (length zs + length (drop_small (rev (c :: cs'))) = length (drop_small (rev cs)))%nat.
  Proof.
    induction cs as [| x cs IH]; intros HS HN; [cbn in HN; congruence |].
    destruct (neqb x n0) eqn:X.
    - assert (HN' : drop_small (rev cs) <> []).
      { intros E. apply HN. cbn [rev]. destruct (drop_small_split (rev cs)) as (l0 & E0 & F0). rewrite E, app_nil_r in E0.
        rewrite E0, drop_small_skip; [| exact F0]. cbn. destruct (nleb dbl_min (nabs x)) eqn:S; [| reflexivity].
        rewrite (HS x S) in X. discriminate. }
      destruct (IH HS HN') as (zs & c & cs' & E & F & C & D & L).
      exists (x :: zs), c, cs'. split; [now rewrite E |]. split; [now constructor |]. split; [exact C |]. split; [exact D |].
      cbn [length]. change (rev (x :: cs)) with (rev cs ++ [x]). rewrite (drop_small_app (rev cs) [x] HN'), app_length. cbn [length]. lia.
    - exists [], x, cs. repeat split; try assumption. constructor.
  Qed.

  (** With enough fuel only the bound on the zeros can fail to be found. *)
  Lemma roots_of_total : forall fuel p xx yy zeros, (46 + length p < fuel)%nat -> roots_of math junk fuel p xx yy zeros = Ok None ->
    exists fuel' p', (46 < fuel')%nat /\ (4 <= length p' <= length p)%nat /\ lower_bound math fuel' p' = Ok None.
  Proof.
    induction fuel as [| fuel IH]; intros p xx yy zeros HF; [lia |].
    destruct (Nat.le_gt_cases 4 (length p)) as [L4 | L4].
    2: { destruct p as [| a [| b [| c [| d p]]]]; cbn [length] in *; try lia; cbn [roots_of]; try discriminate.
         destruct (quad a b c) as [[? ?] [? ?]]. discriminate. }
    rewrite (roots_of_step math junk fuel p xx yy zeros L4).
    destruct (scale_outcome math p) as [S | (p' & S)]; rewrite S; cbn [obind]; [discriminate |].
    pose proof (scale_length math _ _ S) as LP.
    destruct (lower_bound_ok math fuel p' ltac:(lia)) as (o & EB). rewrite EB. cbn [obind].
    destruct o as [bnd |]; [| intros _; exists fuel, p'; split; [lia |]; split; [lia | exact EB]].
    destruct (initial_K_ok p' (length p' - 1) ltac:(lia) ltac:(lia)) as (K & EK & LK). rewrite EK. cbn [obind].
    destruct (shifts_ok math junk 20 fuel 1 (length p' - 1) p' K bnd xx yy zeros ltac:(lia) ltac:(lia) LK) as (o & ES & F & G).
    rewrite ES. cbn [obind]. destruct o as [[nz [st [xx' yy']]] |]; [| destruct (F ltac:(lia) eq_refl)].
    destruct (Nat.eqb_spec nz 0) as [-> | NZ]; [discriminate |].
    destruct (G _ _ _ eq_refl) as [-> | [LQ AC]]; [congruence |].
    specialize (IH (firstn (length p' - nz) (r_qp st)) xx' yy' (r_szr st, r_szi st, (r_lzr st, r_lzi st))).
    rewrite firstn_length in IH.
    destruct (roots_of math junk fuel _ _ _ _) as [[l |] | | |]; cbn [obind]; try discriminate. intros _.
    destruct IH as (f' & p2 & A & B & C); [destruct AC as [[-> _] | [-> _]]; lia | reflexivity |].
    exists f', p2. split; [exact A |]. split; [lia | exact C].
  Qed.
End Driver.
