(** Bookkeeping of the reordering matrix and facts about the mapping matrix
    (real instance). *)
From Coq Require Import ZArith Reals List Bool Lia Lra Arith Sorted.
From Coquelicot Require Import Coquelicot.
From Verif Require Import Num RSum SpecPoly ModelPolynomial ModelSegment ModelVertex ModelTrajectory ModelLinear
  SpecSegment SpecVertex SpecLinear ProofPolynomial ProofPolynomial2 ProofSegment ProofSegment2 ProofVertex ProofTrajectory3
  ProofRoots ProofMatrix ProofHermite ProofReorder ProofLinear ProofLinear2 ProofLinear3 ProofLinear4 ProofLinear5 ProofLinear6.
Import ListNotations.
Open Scope R_scope.

(** Lexicographic order of (vertex, derivative). *)
Lemma keys_sorted (l : list (constraint R)) : StronglySorted con_lt l -> StronglySorted key_lt (map key l).
Proof.
  induction 1 as [|a l Hs IH Hf]; cbn [map]; constructor; [exact IH|].
  apply Forall_map. eapply List.Forall_impl; [|exact Hf]. intros b Hb. exact Hb.
Qed.

Section Book.
  Context (h : nat) (inv : mat R -> mat R).
  Notation N := (2 * h)%nat.
  Implicit Types (o : opt R) (vs : list (vertex R)).

  Lemma con_eqb_keyb (a b : constraint R) : con_eqb a b = if pair_dec (key b) (key a) then true else false.
  Proof.
    destruct (pair_dec (key b) (key a)) as [E|E].
    - apply con_eqb_key. symmetry. exact E.
    - destruct (con_eqb a b) eqn:H; [|reflexivity]. apply con_eqb_key in H. congruence.
  Qed.

  Lemma bookkeeping vs o : prepared h inv vs o -> (0 < o_nseg o)%nat ->
    exists ks, reordering_ok h vs (o_nseg o) (o_dim o) (o_nfixed o) (o_nfree o) (opt_getM o) (o_fixed o) ks.
  Proof.
    intros P Hn0. assert (Hn := pr_nseg _ _ _ _ P). exists (map key (cols h (o_dim o) vs (o_nseg o))).
    assert (Lc := cols_len h inv vs o P).
    assert (Lf : length (map key (fixed_set h (o_dim o) vs (o_nseg o))) = o_nfixed o) by (rewrite map_length; symmetry; apply (pr_nfixed _ _ _ _ P)).
    destruct (fixed_set_spec h (o_dim o) vs (o_nseg o) Hn) as (S1 & I1).
    destruct (free_set_spec h (o_dim o) vs (o_nseg o) Hn) as (S2 & I2).
    assert (E1 : firstn (o_nfixed o) (map key (cols h (o_dim o) vs (o_nseg o))) = map key (fixed_set h (o_dim o) vs (o_nseg o))).
    { unfold cols. rewrite map_app, <- Lf, firstn_app, Nat.sub_diag, firstn_O, app_nil_r. apply firstn_all. }
    assert (E2 : skipn (o_nfixed o) (map key (cols h (o_dim o) vs (o_nseg o))) = map key (free_set h (o_dim o) vs (o_nseg o))).
    { unfold cols. rewrite map_app, <- Lf, skipn_app, Nat.sub_diag, skipn_O, skipn_all. reflexivity. }
    assert (Hall : o_nall o = (o_nseg o * N)%nat).
    { rewrite (pr_nall _ _ _ _ P). apply all_length; [exact Hn|exact Hn0]. }
    split; [rewrite map_length; exact Lc|].
    split. { rewrite <- Lc. apply cols_length. exact Hn. }
    rewrite E1, E2.
    split; [apply keys_sorted; exact S1|]. split; [apply keys_sorted; exact S2|].
    split.
    { intros v k. rewrite in_map_iff. split.
      - intros (c & Ec & Hc). apply I1 in Hc. destruct Hc as (i & k' & x & Hi & Hk & Hx & ->). injection Ec. intros -> ->.
        split; [lia|]. split; [exact Hk|]. exists x. exact Hx.
      - intros (Hv & Hk & x & Hx). exists (mkCon v k x). split; [reflexivity|]. apply I1. exists v, k, x.
        split; [lia|]. split; [exact Hk|]. split; [exact Hx|reflexivity]. }
    split.
    { intros v k. rewrite in_map_iff. split.
      - intros (c & Ec & Hc). apply I2 in Hc. destruct Hc as (i & k' & Hi & Hk & Hx & ->). injection Ec. intros -> ->.
        split; [lia|]. split; [exact Hk|]. exact Hx.
      - intros (Hv & Hk & Hx). exists (mkCon v k (repeat 0 (o_dim o))). split; [reflexivity|]. apply I2. exists v, k.
        split; [lia|]. split; [exact Hk|]. split; [exact Hx|reflexivity]. }
    split.
    { split; [unfold opt_getM; rewrite (pr_reorder _ _ _ _ P), map_length, <- (pr_nall _ _ _ _ P); exact Hall|].
      unfold opt_getM. rewrite (pr_reorder _ _ _ _ P). apply List.Forall_forall. intros row Hr. apply in_map_iff in Hr.
      destruct Hr as (c & <- & _). rewrite map_length. exact Lc. }
    split.
    { intros i k j Hi Hk Hj.
      assert (Ent : forall r, (r < N)%nat -> nth j (nth (i * N + r) (opt_getM o) []) 0 =
        if pair_dec (nth j (map key (cols h (o_dim o) vs (o_nseg o))) (0%nat, 0%nat))
             (key (snd (if Nat.ltb r h then con_at (o_dim o) vs i r else con_at (o_dim o) vs (S i) (r - h)))) then 1 else 0).
      { intros r Hr. change (nth j (nth (i * N + r) (opt_getM o) []) 0) with (mget (o_reorder o) (i * N + r) j).
        rewrite (reorder_entry h inv vs) by (try assumption; nia). rewrite all_nth by assumption.
        rewrite con_eqb_keyb. change (0%nat, 0%nat) with (key (mkCon 0 0 ([] : list R))). rewrite map_nth.
        destruct (pair_dec _ _); reflexivity. }
      rewrite (Ent k) by lia. rewrite (Ent (h + k)%nat) by lia.
      destruct (Nat.ltb_spec k h); [|lia]. destruct (Nat.ltb_spec (h + k) h); [lia|].
      replace (h + k - h)%nat with k by lia. rewrite !con_at_key. split; reflexivity. }
    intros d j Hd Hj. rewrite (pr_fixed _ _ _ _ P), nth_map_seq by exact Hd. cbn [Nat.add].
    assert (Hj' : (j < length (fixed_set h (o_dim o) vs (o_nseg o)))%nat) by (pose proof (pr_nfixed _ _ _ _ P) as E0; rewrite E0 in Hj; exact Hj).
    set (c := nth j (fixed_set h (o_dim o) vs (o_nseg o)) (mkCon 0 0 [])).
    assert (Hc : In c (fixed_set h (o_dim o) vs (o_nseg o))) by (apply nth_In; exact Hj').
    assert (Ek : nth j (map key (cols h (o_dim o) vs (o_nseg o))) (0%nat, 0%nat) = key c).
    { change (0%nat, 0%nat) with (key (mkCon 0 0 ([] : list R))). rewrite map_nth. unfold cols.
      rewrite app_nth1 by exact Hj'. reflexivity. }
    rewrite Ek.
    rewrite (nth_map_lt _ _ _ (mkCon 0 0 [])) by exact Hj'. fold c.
    apply I1 in Hc. destruct Hc as (i & k & x & _ & _ & Hx & ->). exists x. split; [exact Hx|reflexivity].
  Qed.

  Lemma book_rows vs nseg dim nf np (M : mat R) fx ks : (nseg + 1 = length vs)%nat ->
    reordering_ok h vs nseg dim nf np M fx ks ->
    forall r, (r < nseg * N)%nat -> exists j, (j < nf + np)%nat /\
      forall b, (b < nf + np)%nat -> nth b (nth r M []) 0 = if Nat.eqb b j then 1 else 0.
  Proof.
    intros Hn (L & Lc & S1 & S2 & I1 & I2 & _ & HM & _) r Hr.
    assert (HN : (0 < h)%nat) by (destruct h; [rewrite Nat.mul_0_r in Hr; lia|lia]).
    set (i := (r / N)%nat). set (q := (r mod N)%nat).
    assert (Er : r = (i * N + q)%nat) by (unfold i, q; rewrite Nat.mul_comm; apply Nat.div_mod; lia).
    assert (Hq : (q < N)%nat) by (apply Nat.mod_upper_bound; lia).
    assert (Hi : (i < nseg)%nat) by (apply Nat.div_lt_upper_bound; lia).
    set (key0 := if Nat.ltb q h then (i, q) else (S i, (q - h)%nat)).
    assert (Hin : In key0 ks).
    { rewrite <- (firstn_skipn nf ks). apply in_app_iff. unfold key0.
      assert (G : forall v k, (v < length vs)%nat -> (k < h)%nat -> In (v, k) (firstn nf ks) \/ In (v, k) (skipn nf ks)).
      { intros v k Hv Hk. destruct (vertex_get (nth v vs no_vertex) (Z.of_nat k)) as [x|] eqn:Ex.
        - left. apply I1. split; [exact Hv|]. split; [exact Hk|]. exists x. exact Ex.
        - right. apply I2. auto. }
      destruct (Nat.ltb_spec q h); apply G; lia. }
    assert (ND : NoDup ks).
    { rewrite <- (firstn_skipn nf ks).
      assert (Hd : forall x, In x (firstn nf ks) -> ~ In x (skipn nf ks)).
      { intros (v, k) H1 H2. apply I1 in H1. apply I2 in H2. destruct H1 as (_ & _ & x & Hx). destruct H2 as (_ & _ & Hx'). congruence. }
      revert Hd. generalize (skipn nf ks) S2. intros l2 Sl2. generalize (firstn nf ks) S1. intros l1 Sl1.
      assert (Nn : forall l, StronglySorted key_lt l -> NoDup l).
      { induction 1 as [|a l Hs IH Hf]; constructor; [|exact IH]. intros Hina. rewrite List.Forall_forall in Hf.
        specialize (Hf a Hina). unfold key_lt in Hf. lia. }
      induction Sl1 as [|a l1 Hs IH Hf]; intros Hd; cbn [app]; [apply Nn; exact Sl2|].
      constructor.
      - rewrite in_app_iff. intros [H|H]; [|apply (Hd a); [left; reflexivity|exact H]].
        rewrite List.Forall_forall in Hf. specialize (Hf a H). unfold key_lt in Hf. lia.
      - apply IH. intros x Hx. apply Hd. right. exact Hx. }
    destruct (In_nth ks key0 (0%nat, 0%nat) Hin) as (j & Hj & Ej). rewrite L in Hj. exists j. split; [exact Hj|].
    intros b Hb.
    assert (Eb : nth b (nth r M []) 0 = if pair_dec (nth b ks (0%nat, 0%nat)) key0 then 1 else 0).
    { rewrite Er. unfold key0. destruct (Nat.ltb_spec q h) as [Hqh|Hqh].
      - apply (HM i q b); assumption.
      - destruct (HM i (q - h)%nat b Hi ltac:(lia) Hb) as (_ & H2).
        replace (h + (q - h))%nat with q in H2 by lia. exact H2. }
    rewrite Eb. clear Eb. destruct (pair_dec _ _) as [E|E]; destruct (Nat.eqb_spec b j) as [Hne|Hne]; try reflexivity.
    2:{ exfalso. apply E. rewrite Hne. exact Ej. }
    - exfalso. rewrite <- Ej in E. apply Hne.
      apply (proj1 (NoDup_nth ks (0%nat, 0%nat)) ND); [lia|lia|exact E].
  Qed.

  Lemma book_cols vs nseg dim nf np (M : mat R) fx ks : (nseg + 1 = length vs)%nat -> (0 < nseg)%nat ->
    reordering_ok h vs nseg dim nf np M fx ks ->
    forall b, (b < nf + np)%nat -> exists r, (r < nseg * N)%nat /\ nth b (nth r M []) 0 = 1.
  Proof.
    intros Hn Hn0 (L & Lc & S1 & S2 & I1 & I2 & _ & HM & _) b Hb.
    assert (Hin : In (nth b ks (0%nat, 0%nat)) ks) by (apply nth_In; lia).
    destruct (nth b ks (0%nat, 0%nat)) as [v k] eqn:Ev.
    assert (Hvk : (v < length vs)%nat /\ (k < h)%nat).
    { rewrite <- (firstn_skipn nf ks) in Hin. apply in_app_iff in Hin. destruct Hin as [H|H]; [apply I1 in H|apply I2 in H]; tauto. }
    destruct Hvk as (Hv & Hk). destruct (Nat.eq_dec v 0) as [->|Hv0].
    - exists (0 * N + k)%nat. split; [nia|]. destruct (HM 0%nat k b Hn0 Hk Hb) as (H1 & _). rewrite H1. clear H1.
      destruct (pair_dec _ _); [reflexivity|congruence].
    - exists ((v - 1) * N + (h + k))%nat. split; [nia|].
      destruct (HM (v - 1)%nat k b ltac:(lia) Hk Hb) as (_ & H2). rewrite H2. clear H2. replace (S (v - 1)) with v by lia.
      destruct (pair_dec _ _); [reflexivity|congruence].
  Qed.

  Lemma mpinv_left vs o : prepared h inv vs o -> (0 < o_nseg o)%nat ->
    forall a b, (a < o_nfixed o + o_nfree o)%nat -> (b < o_nfixed o + o_nfree o)%nat ->
      prod_entry (o_nseg o * N) (opt_getMpinv o) (opt_getM o) a b = if Nat.eqb a b then 1 else 0.
  Proof.
    intros P Hn0 a b Ha Hb. assert (Hn := pr_nseg _ _ _ _ P). destruct (bookkeeping vs o P Hn0) as (ks & HB).
    assert (Rw := book_rows _ _ _ _ _ _ _ _ Hn HB). assert (Cl := book_cols _ _ _ _ _ _ _ _ Hn Hn0 HB).
    assert (Hall : o_nall o = (o_nseg o * N)%nat).
    { rewrite (pr_nall _ _ _ _ P). apply all_length; [exact Hn|exact Hn0]. }
    unfold opt_getM in *.
    assert (Ep : forall r, (r < o_nseg o * N)%nat ->
      nth r (nth a (opt_getMpinv o) []) 0 = mget (o_reorder o) r a / rsum (o_nseg o * N) (fun k => mget (o_reorder o) k a)).
    { intros r Hr. change (nth r (nth a (opt_getMpinv o) []) 0) with (mget (opt_getMpinv o) a r).
      unfold opt_getMpinv. rewrite Hall. rewrite mget_mk by assumption. rnum. rewrite nsum_rsum.
      unfold mat_tr. rewrite mget_mk by assumption. f_equal. apply rsum_ext. intros k Hk. rewrite mget_mk by assumption. reflexivity. }
    unfold prod_entry. rewrite (rsum_ext _ _ (fun r => / rsum (o_nseg o * N) (fun k => mget (o_reorder o) k a) *
       (if Nat.eqb a b then mget (o_reorder o) r a else 0))).
    - rewrite rsum_scal. destruct (Nat.eqb a b).
      + apply Rinv_l. apply Rgt_not_eq. destruct (Cl a Ha) as (r & Hr & E1).
        rewrite (rsum_ext _ _ (fun k => if Nat.eqb k r then 1 else mget (o_reorder o) k a)).
        2:{ intros k Hk. destruct (Nat.eqb_spec k r) as [->|]; [exact E1|reflexivity]. }
        apply Rlt_le_trans with (rsum (o_nseg o * N) (fun k => if Nat.eqb k r then 1 else 0)).
        { rewrite (rsum_delta _ r (fun _ => 1)) by exact Hr. lra. }
        apply rsum_le. intros k Hk. destruct (Nat.eqb k r); [lra|]. destruct (Rw k Hk) as (j & _ & Hj).
        unfold mget. rewrite Hj by exact Ha. destruct (Nat.eqb a j); lra.
      + rewrite (rsum_zero _ (fun _ => 0)) by (intros; reflexivity). ring.
    - intros r Hr. rewrite Ep by exact Hr. destruct (Rw r Hr) as (j & _ & Hj). cbv beta.
      assert (Ea : mget (o_reorder o) r a = if Nat.eqb a j then 1 else 0) by exact (Hj a Ha).
      rewrite Ea, (Hj b Hb).
      destruct (Nat.eqb_spec a b) as [->|Hne].
      + destruct (Nat.eqb b j); unfold Rdiv; ring.
      + destruct (Nat.eqb_spec a j); destruct (Nat.eqb_spec b j); unfold Rdiv; try ring. congruence.
  Qed.
End Book.

(** ** Mapping matrix *)
Lemma mapping_injective h t c : (0 < h <= 11)%nat -> / 2 ^ 52 <= t -> length c = (2 * h)%nat ->
  (forall k, (k < h)%nat -> dpoly c k 0 = 0 /\ dpoly c k t = 0) -> forall i, nth i c 0 = 0.
Proof.
  intros Hh Ht Lc H i. destruct (Nat.lt_ge_cases i (2 * h)) as [Hi|Hi]; [|apply nth_overflow; lia].
  destruct (mapping_matrix_ok h t Hh) as (A & EA & _).
  assert (HI := invert_mapping_inverse h (perfect_inv h) t A Hh (perfect_inv_ok h) Ht EA).
  rewrite <- (inverse_cancel (2 * h) (invert_mapping h (perfect_inv h) A) A (fun j => nth j c 0) i).
  - apply rsum_zero. intros j Hj.
    assert (E : rsum (2 * h) (fun m => mget A j m * nth m c 0) = 0); [|rewrite E; ring].
    destruct (Nat.lt_ge_cases j h) as [Hjh|Hjh].
    + rewrite (proj1 (mapping_derivs h t A c j Hh EA Lc Hjh Ht)). apply H. exact Hjh.
    + destruct (mapping_derivs h t A c (j - h) Hh EA Lc ltac:(lia) Ht) as (_ & D).
      replace (h + (j - h))%nat with j in D by lia. rewrite D. apply H. lia.
  - intros a b Ha Hb. destruct (HI a b Ha Hb). split; assumption.
  - exact Hi.
Qed.
