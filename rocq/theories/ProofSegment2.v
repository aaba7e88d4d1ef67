(** Proofs about Segment: failures, evaluation, composition (C10-C13, C63). *)
From Coq Require Import Reals Lra Lia List Arith ZArith Bool.
From Coquelicot Require Import Coquelicot.
From Verif Require Import Num RSum SpecPoly ModelPolynomial ProofPolynomial ProofPolynomial2 ExtremaMath ProofExtrema ModelSegment SpecSegment ProofSegment.
Import ListNotations.
Open Scope R_scope.

(** C11 *)
Lemma convolved_sum_bad (s : segment R) (d : nat) (dims : list Z) acc :
  seg_wf s -> ~ dims_ok s dims -> (seg_N s <= 22)%nat -> (d < seg_N s)%nat -> (d < 21)%nat ->
  length acc = (2 * (seg_N s - d) - 2)%nat ->
  convolved_sum s (Z.of_nat d) (Z.of_nat (seg_N s) - Z.of_nat d)
              (Z.of_nat (seg_N s) - Z.of_nat d - 1) dims acc = Ok None.
Proof.
  intros Hw Hd HN Hlt H21. revert acc. induction dims as [|k dims IH]; intros acc Hacc.
  - exfalso. apply Hd. constructor.
  - destruct (Z_lt_dec k 0) as [Hk|Hk].
    { cbn [convolved_sum]. destruct (Z.ltb_spec k 0); [|lia]. reflexivity. }
    destruct (Z_le_dec (Z.of_nat (seg_D s)) k) as [Hk'|Hk'].
    { cbn [convolved_sum]. destruct (Z.ltb_spec k 0); [lia|]. destruct (Z.leb_spec (Z.of_nat (seg_D s)) k); [|lia]. reflexivity. }
    assert (H1 : dims_ok s [k]) by (constructor; [lia|constructor]).
    destruct (convolved_sum_ok s d [k] acc Hw H1 HN Hlt H21 Hacc) as (acc' & E & L & _).
    assert (Hd' : ~ dims_ok s dims).
    { intros H. apply Hd. constructor; [lia|exact H]. }
    cbn [convolved_sum] in E |- *.
    destruct (Z.ltb_spec k 0); [lia|]. destruct (Z.leb_spec (Z.of_nat (seg_D s)) k); [lia|]. cbn [orb] in *.
    repeat match type of E with
           | obind ?x _ = Ok _ => let y := fresh "y" in destruct x as [y| | |]; cbn [obind] in *; try discriminate
           end.
    apply Ok_inj, Some_inj in E. rewrite E. apply IH; [exact Hd'|lia].
Qed.

Lemma seg_candidateTimes_none_iff rf (s : segment R) (d : nat) dims a b :
  seg_wf s -> (d < seg_N s <= 22)%nat -> (d < 21)%nat -> length dims <> 1%nat ->
  (seg_candidateTimes rf s (Z.of_nat d) a b dims = Ok None <->
   dims = [] \/ ~ dims_ok s dims \/ b < a).
Proof.
  intros Hw HN H21 Hl. destruct dims as [|k1 [|k2 dims]]; [|cbn in Hl; lia|].
  - cbn. tauto.
  - set (ds := k1 :: k2 :: dims).
    assert (Hdec : dims_ok s ds \/ ~ dims_ok s ds).
    { unfold dims_ok. destruct (Forall_dec (fun k => (0 <= k < Z.of_nat (seg_D s))%Z)) with (l := ds); [|tauto|tauto].
      intros k. destruct (Z_le_dec 0 k); destruct (Z_lt_dec k (Z.of_nat (seg_D s))); try (left; lia); right; lia. }
    destruct Hdec as [Hd|Hd].
    + destruct (seg_candidateTimes_multi rf s d ds a b Hw Hd) as (cs & _ & _ & E);
        [unfold ds; cbn; lia|lia|lia|lia|].
      rewrite E. destruct (selectCandidates_spec a b (snd (rf cs))) as [S1 S2].
      destruct (Rle_lt_dec a b) as [Hab|Hab].
      * rewrite S2 by exact Hab. split; [discriminate|]. intros [H|[H|H]]; [discriminate|tauto|lra].
      * rewrite S1 by exact Hab. tauto.
    + split; [tauto|]. intros _. unfold seg_candidateTimes, ds, getConvolutionLength.
      destruct (Z.ltb_spec (Z.of_nat (seg_N s) - Z.of_nat d + (Z.of_nat (seg_N s) - Z.of_nat d - 1) - 1) 0); [lia|].
      rewrite convolved_sum_bad; [reflexivity|exact Hw|exact Hd|lia|lia|lia|].
      rewrite repeat_length. lia.
Qed.

(** C12 *)
Lemma omap_length {A B} (f : A -> outcome B) l r : omap f l = Ok r -> length r = length l.
Proof.
  revert r. induction l as [|x l IH]; intros r; cbn [omap].
  - intros H. apply Ok_inj in H. subst. reflexivity.
  - destruct (f x) as [y| | |]; cbn [obind]; try discriminate.
    destruct (omap f l) as [ys| | |]; cbn [obind]; try discriminate.
    intros H. apply Ok_inj in H. subst. cbn. rewrite (IH ys eq_refl). reflexivity.
Qed.

Lemma seg_evaluate_eq (s : segment R) t (d : nat) :
  List.Forall (fun p => (length p <= 22)%nat \/ (length p <= d)%nat) (seg_polys s) ->
  seg_evaluate s t (Z.of_nat d) = Ok (map (fun p => dpoly p d t) (seg_polys s)).
Proof.
  intros H. unfold seg_evaluate. apply omap_ok. intros p Hp.
  rewrite List.Forall_forall in H. specialize (H p Hp). apply poly_evaluate_ok. exact H.
Qed.

Lemma seg_evaluate_spec (s : segment R) t (d : Z) :
  (0 <= d)%Z ->
  List.Forall (fun p => (length p <= 22)%nat \/ (Z.of_nat (length p) <= d)%Z) (seg_polys s) ->
  exists v, seg_evaluate s t d = Ok v /\ length v = seg_D s /\
    forall k, (k < seg_D s)%nat -> is_derive_n (poly_fun (nth k (seg_polys s) [])) (Z.to_nat d) t (nth k v 0).
Proof.
  intros Hd H. rewrite <- (Z2Nat.id d) by exact Hd. rewrite seg_evaluate_eq.
  - eexists. split; [reflexivity|]. split; [apply map_length|]. intros k Hk.
    rewrite (nth_map_lt _ _ 0 []) by exact Hk. rewrite Nat2Z.id. apply is_derive_n_dpoly.
  - eapply List.Forall_impl; [|exact H]. cbn. intros p Hp. lia.
Qed.

Lemma seg_single_spec (s : segment R) (k : Z) :
  ((0 <= k < Z.of_nat (seg_D s))%Z -> exists r, seg_single s k = Ok (Some r) /\
     seg_D r = 1%nat /\ seg_N r = seg_N s /\ seg_time r = seg_time s /\
     forall d t, seg_fun r 0 d t = seg_fun s (Z.to_nat k) d t) /\
  (~ (0 <= k < Z.of_nat (seg_D s))%Z -> seg_single s k = Ok None).
Proof.
  unfold seg_single. split; intros Hk.
  - destruct (Z.ltb_spec k 0); [lia|]. destruct (Z.leb_spec (Z.of_nat (seg_D s)) k); [lia|]. cbn [orb].
    rewrite (oget_nth _ _ []) by (unfold seg_D in *; lia). cbn [obind].
    eexists. split; [reflexivity|]. repeat split.
  - destruct (Z.ltb_spec k 0); [reflexivity|]. destruct (Z.leb_spec (Z.of_nat (seg_D s)) k); [reflexivity|]. lia.
Qed.

Lemma seg_offset_spec (s : segment R) (o : list R) :
  seg_wf s -> (1 <= seg_N s)%nat ->
  ((length o < Nat.min (seg_D s) 3)%nat -> seg_offset s o = None) /\
  ((Nat.min (seg_D s) 3 <= length o)%nat -> exists r, seg_offset s o = Some r /\
     seg_D r = seg_D s /\ seg_N r = seg_N s /\ seg_time r = seg_time s /\ seg_wf r /\
     (forall k t, (k < seg_D s)%nat ->
        seg_fun r k 0 t = seg_fun s k 0 t + (if Nat.ltb k 3 then nth k o 0 else 0)) /\
     (forall k d t, (k < seg_D s)%nat -> seg_fun r k (S d) t = seg_fun s k (S d) t)).
Proof.
  intros Hw HN. unfold seg_offset. split; intros Ho.
  - destruct (Nat.ltb_spec (length o) (Nat.min (seg_D s) 3)); [reflexivity|lia].
  - destruct (Nat.ltb_spec (length o) (Nat.min (seg_D s) 3)); [lia|].
    eexists. split; [reflexivity|]. split; [|split; [reflexivity|split; [reflexivity|split]]].
    + unfold seg_D at 1. cbn [seg_polys]. rewrite map_length, seq_length. reflexivity.
    + unfold seg_wf. cbn [seg_polys seg_N]. rewrite List.Forall_forall. intros p Hp.
      apply in_map_iff in Hp. destruct Hp as (i & <- & Hi). apply in_seq in Hi.
      cbv zeta. destruct (Nat.ltb i (Nat.min (seg_D s) 3)).
      * rewrite offset_length. apply seg_wf_nth; [exact Hw|lia].
      * apply seg_wf_nth; [exact Hw|lia].
    + split.
      * intros k t Hk. rewrite !seg_fun_dpoly. cbn [seg_polys]. rewrite nth_map_seq by exact Hk. cbn [Nat.add]. cbv zeta.
        pose proof (seg_wf_nth s k Hw Hk) as Hl.
        destruct (Nat.ltb_spec k (Nat.min (seg_D s) 3)) as [Hm|Hm].
        -- destruct (Nat.ltb_spec k 3); [|lia].
           destruct (nth k (seg_polys s) []) as [|x c]; [cbn in Hl; lia|].
           rewrite dpoly_offset_0. reflexivity.
        -- destruct (Nat.ltb_spec k 3); [lia|]. lra.
      * intros k d t Hk. rewrite !seg_fun_dpoly. cbn [seg_polys]. rewrite nth_map_seq by exact Hk. cbn [Nat.add]. cbv zeta.
        destruct (Nat.ltb k (Nat.min (seg_D s) 3)); [apply dpoly_offset_S|reflexivity].
Qed.

(** C13 *)
Lemma list_set_length {A} (l : list A) i v : length (list_set l i v) = length l.
Proof. revert i. induction l as [|x l IH]; intros [|i]; cbn; try reflexivity. rewrite IH. reflexivity. Qed.

Lemma list_set_nth {A} (l : list A) i v j dflt : (i < length l)%nat ->
  nth j (list_set l i v) dflt = if Nat.eqb j i then v else nth j l dflt.
Proof.
  revert i j. induction l as [|x l IH]; intros i j H; [cbn in H; lia|].
  destruct i as [|i]; destruct j as [|j]; cbn [list_set nth Nat.eqb]; try reflexivity.
  apply IH. cbn in H. lia.
Qed.

Lemma ofold_fill {A} (f : list A -> nat -> outcome (list A)) (g : nat -> A) dflt a n out :
  (a + n <= length out)%nat ->
  (forall o i, length o = length out -> (a <= i < a + n)%nat ->
     f o i = Ok (list_set o i (g i))) ->
  exists r, ofold f (seq a n) out = Ok r /\ length r = length out /\
    forall i, nth i r dflt = if (Nat.leb a i && Nat.ltb i (a + n))%bool then g i else nth i out dflt.
Proof.
  revert a out. induction n as [|n IH]; intros a out Hl Hf; cbn [seq ofold].
  - exists out. split; [reflexivity|]. split; [reflexivity|]. intros i.
    destruct (Nat.leb_spec a i); destruct (Nat.ltb_spec i (a + 0)); cbn [andb]; try reflexivity. lia.
  - rewrite Hf by (try reflexivity; lia). cbn [obind].
    destruct (IH (S a) (list_set out a (g a))) as (r & E & L & Hn).
    + rewrite list_set_length. lia.
    + intros o i Ho Hi. apply Hf; [rewrite list_set_length in Ho; exact Ho|lia].
    + rewrite list_set_length in L. exists r. split; [exact E|]. split; [exact L|].
      intros i. rewrite Hn, list_set_nth by lia.
      destruct (Nat.leb_spec (S a) i); destruct (Nat.ltb_spec i (S a + n)); destruct (Nat.leb_spec a i);
        destruct (Nat.ltb_spec i (a + S n)); cbn [andb]; try lia; try reflexivity;
        destruct (Nat.eqb_spec i a); try lia; subst; try reflexivity.
Qed.

Lemma nmax_Rmax (a b : R) : nmax a b = Rmax a b.
Proof. unfold nmax. rnum. destruct (Rltb_spec a b). - rewrite Rmax_right; lra. - rewrite Rmax_left; lra. Qed.

Lemma poly_fun_scale_time c f t : poly_fun (poly_scale_time c f) t = poly_fun c (f * t).
Proof. rewrite <- !dpoly_0, dpoly_scale_time. cbn. ring. Qed.

Lemma poly_scale_time_1 (c : list R) : poly_scale_time c 1 = c.
Proof.
  apply nth_ext with 0 0; [apply scale_time_length|]. intros i _. rewrite scale_time_nth, pow1. ring.
Qed.

Lemma seg_append_spec (this app : segment R) :
  seg_wf this -> seg_wf app ->
  (1 <= seg_N this)%nat -> (1 <= seg_N app)%nat -> (1 <= seg_D this)%nat -> (1 <= seg_D app)%nat ->
  0 < seg_time this -> 0 < seg_time app ->
  seg_N this = seg_N app \/ seg_time this = seg_time app ->
  exists r, seg_append ToOther this app = Ok (Some r) /\ seg_wf r /\
    seg_N r = Nat.max (seg_N this) (seg_N app) /\
    seg_D r = (seg_D this + seg_D app)%nat /\
    seg_time r = Rmax (seg_time this) (seg_time app) /\
    (forall k t, (k < seg_D this)%nat ->
       poly_fun (nth k (seg_polys r) []) t =
       poly_fun (nth k (seg_polys this) []) (t * (seg_time this / seg_time r))) /\
    (forall k t, (k < seg_D app)%nat ->
       poly_fun (nth (seg_D this + k) (seg_polys r) []) t =
       poly_fun (nth k (seg_polys app) []) (t * (seg_time app / seg_time r))).
Proof.
  intros Hw1 Hw2 HN1 HN2 HD1 HD2 HT1 HT2 Hor.
  unfold seg_append.
  destruct (Nat.eqb_spec (seg_N this) 0); [lia|]. destruct (Nat.eqb_spec (seg_D this) 0); [lia|].
  destruct (Nat.eqb_spec (seg_N app) 0); [lia|]. destruct (Nat.eqb_spec (seg_D app) 0); [lia|]. cbn [orb].
  rewrite nmax_Rmax.
  set (T := Rmax (seg_time this) (seg_time app)).
  assert (HT : 0 < T) by (unfold T; pose proof (Rmax_l (seg_time this) (seg_time app)); lra).
  assert (HTl : seg_time this <= T) by apply Rmax_l.
  assert (HTr : seg_time app <= T) by apply Rmax_r.
  assert (HTe : T = seg_time this \/ T = seg_time app) by (unfold T, Rmax; destruct Rle_dec; tauto).
  cbv zeta. rnum.
  rewrite (proj2 (Rltb_true 0 T)) by exact HT. rewrite !andb_true_r.
  set (cur := if Rltb (seg_time this) T then _ else _).
  set (ap := if negb _ && _ then _ else _).
  assert (Lcur : length cur = seg_D this) by (unfold cur; destruct (Rltb _ _); [apply map_length|reflexivity]).
  assert (Lap : length ap = seg_D app) by (unfold ap; destruct (_ && _)%bool; [apply map_length|reflexivity]).
  assert (Ccur : forall k, (k < seg_D this)%nat -> nth k cur [] = poly_scale_time (nth k (seg_polys this) []) (seg_time this / T)).
  { intros k Hk. unfold cur. destruct (Rltb_spec (seg_time this) T).
    - rewrite (nth_map_lt _ _ [] []) by exact Hk. reflexivity.
    - replace (seg_time this / T) with 1 by (field_simplify_eq; lra). rewrite poly_scale_time_1. reflexivity. }
  assert (Cap : forall k, (k < seg_D app)%nat -> nth k ap [] = poly_scale_time (nth k (seg_polys app) []) (seg_time app / T)).
  { intros k Hk. unfold ap. destruct (Rltb_spec (seg_time this) T); cbn [negb andb].
    - assert (E : T = seg_time app) by lra.
      replace (seg_time app / T) with 1 by (rewrite E; field; lra). rewrite poly_scale_time_1. reflexivity.
    - destruct (Rltb_spec (seg_time app) T).
      + rewrite (nth_map_lt _ _ [] []) by exact Hk. reflexivity.
      + replace (seg_time app / T) with 1 by (field_simplify_eq; lra). rewrite poly_scale_time_1. reflexivity. }
  set (D1 := seg_D this) in *. set (D2 := seg_D app) in *.
  set (NN := Nat.max (seg_N app) (seg_N this)).
  assert (Lout : length (seg_polys (@seg_new R R_ops NN (D1 + D2))) = (D1 + D2)%nat).
  { cbn [seg_new seg_polys]. apply repeat_length. }
  destruct (Nat.eqb_spec (seg_N this) (seg_N app)) as [EN|EN].
  - destruct (ofold_fill (append_equal D1 cur ap)
        (fun i => if Nat.ltb i D1 then nth i cur [] else nth (i - D1) ap []) [] 0 (D1 + D2)
        (seg_polys (seg_new NN (D1 + D2)))) as (r & Er & Lr & Hr).
    { lia. }
    { intros o i Ho Hi. unfold append_equal. destruct (Nat.ltb_spec i D1).
      - destruct (Nat.ltb_spec i (length cur)); [|lia]. rewrite (oget_nth _ _ []) by lia. reflexivity.
      - destruct (Nat.ltb_spec (i - D1) (length ap)); [|lia]. rewrite (oget_nth _ _ []) by lia. reflexivity. }
    rewrite Er. cbn [obind]. eexists. split; [reflexivity|]. cbn [seg_N seg_time seg_polys].
    assert (Hr' : forall i, (i < D1 + D2)%nat -> nth i r [] = if Nat.ltb i D1 then nth i cur [] else nth (i - D1) ap []).
    { intros i Hi. rewrite Hr. cbn [Nat.leb andb]. destruct (Nat.ltb_spec i (0 + (D1 + D2))); [reflexivity|lia]. }
    split; [|split; [|split; [|split; [reflexivity|split]]]].
    + unfold seg_wf. cbn [seg_polys seg_N]. rewrite List.Forall_nth. intros i dflt Hi.
      rewrite (nth_indep _ _ []) by exact Hi. rewrite Hr' by lia.
      destruct (Nat.ltb_spec i D1).
      * rewrite Ccur by assumption. rewrite scale_time_length, (seg_wf_nth this i Hw1) by assumption. unfold NN. lia.
      * rewrite Cap by lia. rewrite scale_time_length, (seg_wf_nth app (i - D1) Hw2) by (fold D2; lia). unfold NN. lia.
    + unfold NN. lia.
    + unfold seg_D at 1. cbn [seg_polys]. lia.
    + intros k t Hk. rewrite Hr' by lia. destruct (Nat.ltb_spec k D1); [|lia].
      rewrite Ccur by exact Hk. rewrite poly_fun_scale_time. f_equal. ring.
    + intros k t Hk. rewrite Hr' by lia. destruct (Nat.ltb_spec (D1 + k) D1); [lia|].
      replace (D1 + k - D1)%nat with k by lia.
      rewrite Cap by exact Hk. rewrite poly_fun_scale_time. f_equal. ring.
  - assert (ET : seg_time this = seg_time app) by tauto.
    assert (E1 : seg_time this / T = 1) by (rewrite ET in *; replace T with (seg_time app) by lra; field; lra).
    assert (E2 : seg_time app / T = 1) by (rewrite <- ET; exact E1).
    set (g := fun i => snd (poly_append (if Nat.ltb i D1 then nth i (seg_polys this) [] else nth (i - D1) (seg_polys app) []) (Z.of_nat NN))).
    assert (Hof : exists r, ofold (append_differing ToOther D1 (seg_polys this) (seg_polys app) NN) (seq 0 (D1 + D2))
        (Some (seg_polys (seg_new NN (D1 + D2)))) = Ok (Some r) /\ length r = (D1 + D2)%nat /\
        forall i, (i < D1 + D2)%nat -> nth i r [] = g i).
    { assert (Hgen : forall a n out, (a + n <= D1 + D2)%nat -> length out = (D1 + D2)%nat ->
         exists r, ofold (append_differing ToOther D1 (seg_polys this) (seg_polys app) NN) (seq a n) (Some out) = Ok (Some r)
           /\ ofold (fun o i => Ok (list_set o i (g i))) (seq a n) out = Ok r).
      { intros a m. revert a. induction m as [|m IH]; intros a out Ha Ho; cbn [seq ofold].
        - exists out. split; reflexivity.
        - unfold append_differing at 1. cbv zeta.
          assert (Hget : (if Nat.ltb a D1 then oget (seg_polys this) a
             else if Nat.ltb (a - D1) (length (seg_polys app)) then oget (seg_polys app) (a - D1) else Abort)
             = Ok (if Nat.ltb a D1 then nth a (seg_polys this) [] else nth (a - D1) (seg_polys app) [])).
          { destruct (Nat.ltb_spec a D1).
            - apply oget_nth. exact H.
            - fold (seg_D app). fold D2. destruct (Nat.ltb_spec (a - D1) D2); [|lia]. apply oget_nth. exact H0. }
          rewrite Hget. cbn [obind].
          set (p := if Nat.ltb a D1 then _ else _).
          assert (Hp : (length p <= NN)%nat).
          { unfold p. destruct (Nat.ltb_spec a D1).
            - rewrite (seg_wf_nth this a Hw1) by assumption. unfold NN. lia.
            - rewrite (seg_wf_nth app (a - D1) Hw2) by (fold D2; lia). unfold NN. lia. }
          assert (Hf : fst (poly_append p (Z.of_nat NN)) = true).
          { unfold poly_append. destruct (Z.eqb_spec (Z.of_nat NN) (Z.of_nat (length p))); [reflexivity|].
            destruct (Z.ltb_spec (Z.of_nat NN) (Z.of_nat (length p))); [lia|reflexivity]. }
          rewrite Hf. cbn [obind].
          destruct (IH (S a) (list_set out a (g a))) as (r & Er & Er'); [lia|rewrite list_set_length; exact Ho|].
          exists r. split; [exact Er|exact Er']. }
      destruct (Hgen 0%nat (D1 + D2)%nat (seg_polys (seg_new NN (D1 + D2)))) as (r & Er & Er'); [lia|exact Lout|].
      exists r. split; [exact Er|].
      destruct (ofold_fill (fun o i => Ok (list_set o i (g i))) g [] 0 (D1 + D2) (seg_polys (@seg_new R R_ops NN (D1 + D2))))
        as (r2 & Er2 & Lr2 & Hr2).
      - rewrite Lout. lia.
      - reflexivity.
      - rewrite Er2 in Er'. apply Ok_inj in Er'. subst r2. split; [lia|]. intros i Hi.
        rewrite Hr2. cbn [Nat.leb andb]. destruct (Nat.ltb_spec i (0 + (D1 + D2))); [reflexivity|lia]. }
    destruct Hof as (r & Er & Lr & Hr). rewrite Er. cbn [obind].
    eexists. split; [reflexivity|]. cbn [seg_N seg_time seg_polys].
    assert (Hlen : forall i, (i < D1 + D2)%nat -> length (g i) = NN).
    { intros i Hi. unfold g.
      set (p := if Nat.ltb i D1 then _ else _).
      assert (Hp : (length p <= NN)%nat).
      { unfold p. destruct (Nat.ltb_spec i D1).
        - rewrite (seg_wf_nth this i Hw1) by assumption. unfold NN. lia.
        - rewrite (seg_wf_nth app (i - D1) Hw2) by (fold D2; lia). unfold NN. lia. }
      unfold poly_append. destruct (Z.eqb_spec (Z.of_nat NN) (Z.of_nat (length p))); cbn [snd]; [lia|].
      destruct (Z.ltb_spec (Z.of_nat NN) (Z.of_nat (length p))); [lia|]. cbn [snd].
      rewrite app_length, repeat_length. lia. }
    split; [|split; [|split; [|split; [reflexivity|split]]]].
    + unfold seg_wf. cbn [seg_polys seg_N]. rewrite List.Forall_nth. intros i dflt Hi.
      rewrite (nth_indep _ _ []) by exact Hi. rewrite Hr by lia. apply Hlen. lia.
    + unfold NN. lia.
    + unfold seg_D at 1. cbn [seg_polys]. lia.
    + intros k t Hk. rewrite Hr by lia. unfold g. destruct (Nat.ltb_spec k D1); [|lia].
      rewrite <- dpoly_0, poly_append_dpoly, dpoly_0, E1. f_equal. ring.
    + intros k t Hk. rewrite Hr by lia. unfold g. destruct (Nat.ltb_spec (D1 + k) D1); [lia|].
      replace (D1 + k - D1)%nat with k by lia.
      rewrite <- dpoly_0, poly_append_dpoly, dpoly_0, E2. f_equal. ring.
Qed.

Lemma seg_append_empty {T} {ops : NumOps T} target (this app : segment T) :
  (seg_N this = 0%nat \/ seg_D this = 0%nat -> seg_append target this app = Ok (Some app)) /\
  (seg_N this <> 0%nat -> seg_D this <> 0%nat -> seg_N app = 0%nat \/ seg_D app = 0%nat ->
   seg_append target this app = Ok (Some this)).
Proof.
  unfold seg_append. split.
  - intros [->| ->]; cbn [Nat.eqb orb]; [|rewrite orb_true_r]; reflexivity.
  - intros H1 H2 H. apply Nat.eqb_neq in H1, H2. rewrite H1, H2. cbn [orb].
    destruct H as [->| ->]; cbn [Nat.eqb orb]; [|rewrite orb_true_r]; reflexivity.
Qed.
