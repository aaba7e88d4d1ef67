(** Lemmas about the timing accumulator. *)
From Coq Require Import ZArith Reals List Bool Lia Lra Arith Permutation String.
From Verif Require Import Num RSum ModelPolynomial ModelSegment ProofSegment2 ModelTiming SpecTiming.
Import ListNotations.
Local Open Scope nat_scope.
Notation length := List.length.

Lemma recent_all {A} k (xs : list A) : length xs <= k -> recent k xs = xs.
Proof. intros H. unfold recent. replace (length xs - k) with 0 by lia. reflexivity. Qed.
Lemma recent_length {A} k (xs : list A) : length (recent k xs) = Nat.min (length xs) k.
Proof. unfold recent. rewrite skipn_length. lia. Qed.
Lemma skipn_nth {A} (l : list A) k d : k < length l -> skipn k l = nth k l d :: skipn (S k) l.
Proof. revert l. induction k as [|k IH]; intros [|a l] H; cbn in *; try lia; [reflexivity|]. apply IH. lia. Qed.
Lemma recent_snoc {A} k (xs : list A) x d : 0 < k -> k <= length xs ->
  exists rest, recent k xs = nth (length xs - k) xs d :: rest /\ recent k (xs ++ [x]) = rest ++ [x].
Proof.
  intros Hk Hl. exists (skipn (S (length xs - k)) xs). unfold recent. split; [apply skipn_nth; lia|].
  rewrite app_length. cbn [List.length]. replace (length xs + 1 - k) with (S (length xs - k)) by lia.
  rewrite skipn_app. replace (S (length xs - k) - length xs) with 0 by lia. reflexivity.
Qed.
Lemma list_set_split {A} (l : list A) i v d : i < length l ->
  exists l1 l2, l = l1 ++ nth i l d :: l2 /\ list_set l i v = l1 ++ v :: l2 /\ length l1 = i.
Proof.
  revert i. induction l as [|a l IH]; intros i H; [cbn in H; lia|]. destruct i as [|i].
  - exists [], l. repeat split.
  - cbn in H. destruct (IH i ltac:(lia)) as (l1 & l2 & E1 & E2 & E3). exists (a :: l1), l2. cbn. rewrite <- E1, E2, E3. repeat split.
Qed.

Lemma ofold_append {A S} (f : S -> A -> outcome S) l1 l2 s : ofold f (l1 ++ l2) s = (s' <-- ofold f l1 s ;; ofold f l2 s').
Proof. revert s. induction l1 as [|a l1 IH]; intros s; [reflexivity|]. cbn [app ofold]. destruct (f s a); cbn [obind]; auto. Qed.

Section Acc.
  Context {T : Type} {ops : NumOps T} (W : nat) (HW : 0 < W).

  (** The sample slot i holds after n samples, i < min n W. *)
  Definition slot (n i : nat) : nat := n - 1 - (n - 1 - i) mod W.
  Lemma slot_new n i : i <= n -> (n - i) mod W = 0 -> slot (S n) i = n.
  Proof. intros H E. unfold slot. replace (S n - 1 - i) with (n - i) by lia. lia. Qed.
  Lemma slot_old n i : i < n -> (n - i) mod W <> 0 -> slot (S n) i = slot n i.
  Proof.
    intros H E. unfold slot. replace (S n - 1 - i) with (S (n - 1 - i)) by lia. replace (n - i) with (S (n - 1 - i)) in E by lia.
    set (a := n - 1 - i) in *. assert (HM := Nat.mod_upper_bound a W ltac:(lia)).
    assert (Ea := Nat.div_mod a W ltac:(lia)).
    destruct (Nat.eq_dec (a mod W) (W - 1)) as [Q|Q].
    - exfalso. apply E. replace (S a) with (0 + (S (a / W)) * W) by (rewrite Q in Ea; lia). rewrite Nat.mod_add by lia. apply Nat.mod_0_l. lia.
    - assert (Es : S a mod W = S (a mod W)).
      { rewrite Ea at 1. replace (S (W * (a / W) + a mod W)) with (S (a mod W) + (a / W) * W) by lia. rewrite Nat.mod_add by lia. apply Nat.mod_small. lia. }
      rewrite Es. assert (a mod W <= a) by (apply Nat.mod_le; lia). lia.
  Qed.

  Definition acc_inv (xs : list T) (a : accumulator T) : Prop :=
    ac_window_samples a = Z.of_nat (length xs) /\ ac_total_samples a = Z.of_nat (length xs) /\
    length (ac_samples a) = W /\
    (forall i, i < W -> i < length xs -> exists x, nth i (ac_samples a) None = Some x /\ nth_error xs (slot (length xs) i) = Some x) /\
    Permutation (firstn (length xs) (ac_samples a)) (map Some (recent W xs)) /\
    ac_sum a = fold_left nadd xs n0 /\
    ac_min a = fold_left (fun m x => if nltb x m then x else m) xs dbl_max /\
    ac_max a = fold_left (fun m x => if nltb m x then x else m) xs dbl_min.

  Lemma acc_inv_new : acc_inv [] (acc_new W).
  Proof.
    unfold acc_inv, acc_new. cbn. rewrite repeat_length. repeat split; auto. intros; lia.
  Qed.

  Lemma acc_inv_add xs a x : acc_inv xs a -> (Z.of_nat (length xs) < 2 ^ 31 - 1)%Z ->
    exists a', acc_Add W a x = Ok a' /\ acc_inv (xs ++ [x]) a' /\
      ac_window_sum a' = (if Nat.ltb (length xs) W then nadd (ac_window_sum a) x
                          else nadd (ac_window_sum a) (nsub x (nth (length xs - W) xs x))).
  Proof.
    intros (E1 & E2 & E3 & E4 & E5 & E6 & E7 & E8) Hn. unfold acc_Add. rewrite E1, E2.
    rewrite (proj2 (Z.eqb_neq _ _)) by lia. cbn [orb].
    assert (Hadd : forall i b, i < W -> (length xs - i) mod W = 0 -> i <= length xs -> (forall j, j < length xs -> j <> i -> j < W -> (length xs - j) mod W <> 0) ->
      (length xs < W -> i = length xs) ->
      (W <= length xs -> exists old, nth i (ac_samples a) None = Some old /\ nth (length xs - W) xs x = old) ->
      acc_inv (xs ++ [x]) (mkAcc (Z.of_nat (length xs) + 1) (Z.of_nat (length xs) + 1) b (nadd (ac_sum a) x)
        (if nltb x (ac_min a) then x else ac_min a) (if nltb (ac_max a) x then x else ac_max a) (list_set (ac_samples a) i (Some x)))).
    { intros i b Hi Hm Hle Hoth Hlt Hge. unfold acc_inv. cbn [ac_window_samples ac_total_samples ac_samples ac_sum ac_min ac_max].
      rewrite app_length. cbn [List.length]. rewrite Nat.add_1_r. split; [lia|]. split; [lia|]. split; [rewrite list_set_length; exact E3|]. split.
      { intros j Hj Hjn. rewrite list_set_nth by lia. destruct (Nat.eqb_spec j i) as [->|Hne].
        - exists x. split; [reflexivity|]. rewrite slot_new by assumption. rewrite nth_error_app2, Nat.sub_diag by lia. reflexivity.
        - assert (Hjl : j < length xs).
          { destruct (Nat.eq_dec j (length xs)) as [->|]; [|lia]. specialize (Hlt Hj). congruence. }
          rewrite slot_old by (try exact Hjl; apply Hoth; assumption). destruct (E4 j Hj Hjl) as (y & Y1 & Y2). exists y. split; [exact Y1|].
          rewrite nth_error_app1; [exact Y2|]. unfold slot. lia. }
      split.
      { destruct (list_set_split (ac_samples a) i (Some x) None ltac:(lia)) as (l1 & l2 & L1 & L2 & L3). rewrite L2.
        destruct (le_lt_dec W (length xs)) as [Hc|Hc].
        - destruct (Hge Hc) as (old & O1 & O2). destruct (recent_snoc W xs x x HW Hc) as (rest & R1 & R2). rewrite R2.
          rewrite firstn_all2 in E5 by lia. rewrite R1, O2 in E5. rewrite L1, O1 in E5.
          rewrite firstn_all2.
          2:{ assert (Q := f_equal (@List.length _) L1). rewrite app_length in *. cbn [List.length] in *. lia. }
          rewrite map_app. cbn [map]. cbn [map] in E5. apply Permutation_sym in E5.
          assert (P := Permutation_cons_app_inv _ _ E5).
          etransitivity; [apply Permutation_sym, Permutation_middle|]. etransitivity; [|apply Permutation_cons_append].
          constructor. apply Permutation_sym. exact P.
        - specialize (Hlt Hc). subst i. rewrite recent_all in E5 by lia. rewrite recent_all by (rewrite app_length; cbn; lia).
          rewrite map_app. cbn [map].
          replace (S (length xs)) with (length l1 + 1) by lia. rewrite firstn_app_2. cbn [firstn].
          apply Permutation_app_tail. rewrite L1, <- L3, firstn_app, Nat.sub_diag, firstn_all, app_nil_r in E5. exact E5. }
      rewrite !fold_left_app. cbn [fold_left]. rewrite <- E6, <- E7, <- E8. auto. }
    destruct (Z.ltb_spec (Z.of_nat (length xs)) (Z.of_nat W)) as [Hc|Hc].
    - rewrite Nat2Z.id. rewrite (proj2 (Nat.ltb_lt _ _)) by lia. cbn [obind fst snd]. eexists. split; [reflexivity|].
      rewrite (proj2 (Nat.ltb_lt (length xs) W)) by lia. split; [|reflexivity].
      apply Hadd; try lia. { rewrite Nat.sub_diag. apply Nat.mod_0_l. lia. }
      intros j Hj _ _. rewrite Nat.mod_small by lia. lia.
    - assert (HmZ : Z.to_nat (Z.of_nat (length xs) mod Z.of_nat W) = length xs mod W) by (rewrite <- Nat2Z.inj_mod; apply Nat2Z.id).
      rewrite HmZ. set (i := length xs mod W) in *.
      assert (Hi : i < W) by (apply Nat.mod_upper_bound; lia). assert (Hd := Nat.div_mod (length xs) W ltac:(lia)). fold i in Hd.
      assert (Hq : 0 < length xs / W) by (apply Nat.div_str_pos; lia).
      assert (Hil : i < length xs) by nia.
      destruct (E4 i Hi Hil) as (old & O1 & O2).
      assert (Hs : slot (length xs) i = length xs - W).
      { unfold slot. replace (length xs - 1 - i) with ((W - 1) + (length xs / W - 1) * W) by nia. rewrite Nat.mod_add by lia. rewrite Nat.mod_small by lia. lia. }
      rewrite Hs in O2. assert (O3 := nth_error_nth _ _ x O2).
      unfold oget. rewrite (nth_error_nth' _ None) by lia. cbn [obind]. rewrite O1. cbn [obind fst snd].
      eexists. split; [reflexivity|]. rewrite (proj2 (Nat.ltb_ge (length xs) W)) by lia. rewrite O3. split; [|reflexivity].
      apply Hadd; try lia.
      + replace (length xs - i) with (0 + (length xs / W) * W) by nia. rewrite Nat.mod_add by lia. apply Nat.mod_0_l. lia.
      + intros j Hj Hne HjW Hz. apply Nat.mod_divides in Hz; [|lia]. destruct Hz as (c & Hc').
        apply Hne. unfold i. replace (length xs) with (j + c * W) by nia. rewrite Nat.mod_add by lia. rewrite Nat.mod_small; lia.
      + intros _. exists old. auto.
  Qed.

  Lemma acc_adds xs : (Z.of_nat (length xs) <= 2 ^ 31 - 1)%Z ->
    exists a, ofold (acc_Add W) xs (acc_new W) = Ok a /\ acc_inv xs a.
  Proof.
    induction xs as [|x xs IH] using rev_ind; intros H.
    - exists (acc_new W). split; [reflexivity|apply acc_inv_new].
    - rewrite app_length in H. cbn [List.length] in H. destruct IH as (a & E & I); [lia|].
      destruct (acc_inv_add xs a x I ltac:(lia)) as (a' & E' & I' & _). exists a'. split; [|exact I'].
      rewrite ofold_append, E. cbn [obind ofold]. rewrite E'. reflexivity.
  Qed.
  Lemma acc_overflow xs : (2 ^ 31 - 1 < Z.of_nat (length xs))%Z -> ofold (acc_Add W) xs (acc_new W) = UB.
  Proof.
    intros H. assert (Hz : exists k, Z.of_nat k = (2 ^ 31 - 1)%Z).
    { destruct (Z_of_nat_complete (2 ^ 31 - 1) ltac:(lia)) as (k & Ek). exists k. symmetry. exact Ek. }
    destruct Hz as (k & Ek). assert (Hk : k < length xs) by lia.
    rewrite <- (firstn_skipn k xs), ofold_append.
    destruct (acc_adds (firstn k xs)) as (a & E & (I1 & _)). { rewrite firstn_length. lia. }
    rewrite E. cbn [obind]. destruct (skipn k xs) as [|x rest] eqn:Es.
    { assert (Q := f_equal (@List.length _) Es). rewrite skipn_length in Q. cbn [List.length] in Q. lia. }
    cbn [ofold]. unfold acc_Add at 1. rewrite I1, firstn_length. replace (Nat.min k (length xs)) with k by lia.
    rewrite Ek, Z.eqb_refl. reflexivity.
  Qed.
End Acc.

(** * Registry *)
Lemma compare_eq k k' : String.compare k k' = Eq -> k = k'.
Proof. apply String.compare_eq_iff. Qed.
Lemma tag_find_In m k v : tag_find m k = Some v -> In (k, v) m.
Proof.
  induction m as [|(k' & v') m IH]; [discriminate|]. cbn [tag_find]. destruct (String.eqb_spec k k') as [->|].
  - intros E. injection E as ->. left. reflexivity.
  - intros E. right. auto.
Qed.
Lemma tag_find_NoDup m k v : NoDup (map fst m) -> In (k, v) m -> tag_find m k = Some v.
Proof.
  induction m as [|(k' & v') m IH]; intros N H; [contradiction|]. cbn [tag_find]. cbn [map] in N. inversion N as [|a l N1 N2]; subst. cbn [fst] in N1.
  destruct H as [E|H].
  - injection E as -> ->. rewrite String.eqb_refl. reflexivity.
  - destruct (String.eqb_spec k k') as [->|]; [|auto]. exfalso. apply N1. apply (in_map fst) in H. exact H.
Qed.
Lemma tag_find_None m k : tag_find m k = None -> ~ In k (map fst m).
Proof.
  induction m as [|(k' & v') m IH]; [intros _ []|]. cbn [tag_find map fst]. destruct (String.eqb_spec k k'); [discriminate|].
  intros E [H|H]; [congruence|]. exact (IH E H).
Qed.
Lemma tag_insert_perm m k v : tag_find m k = None -> Permutation (tag_insert m k v) ((k, v) :: m).
Proof.
  induction m as [|(k' & v') m IH]; intros E; [reflexivity|]. cbn [tag_find] in E. cbn [tag_insert].
  destruct (String.eqb_spec k k') as [->|Hne]; [discriminate|].
  destruct (String.compare k k') eqn:Ec; [apply compare_eq in Ec; congruence|reflexivity|].
  etransitivity; [constructor; apply IH, E|apply perm_swap].
Qed.

Section Reg.
  Context {T : Type} {ops : NumOps T}.
  Implicit Types (r : registry T).

  Definition reg_inv r : Prop :=
    NoDup (map fst (rg_tags r)) /\ NoDup (map snd (rg_tags r)) /\ (forall k v, In (k, v) (rg_tags r) -> v < length (rg_timers r)).
  Lemma reg_inv_new : reg_inv reg_new.
  Proof. split; [constructor|]. split; [constructor|]. intros k v []. Qed.
  Lemma reg_inv_reset r : reg_inv r -> reg_inv (reg_Reset r).
  Proof. intros _. split; [constructor|]. split; [constructor|]. intros k v []. Qed.
  Lemma reg_inv_handle r tag : reg_inv r ->
    reg_inv (fst (reg_GetHandle r tag)) /\ In (tag, snd (reg_GetHandle r tag)) (rg_tags (fst (reg_GetHandle r tag))) /\
    (forall e, In e (rg_tags r) -> In e (rg_tags (fst (reg_GetHandle r tag)))) /\
    (exists l, rg_timers (fst (reg_GetHandle r tag)) = rg_timers r ++ l /\ Forall (fun a => a = acc_new kWindow) l).
  Proof.
    intros (N1 & N2 & B). unfold reg_GetHandle. destruct (tag_find (rg_tags r) tag) as [v|] eqn:E; cbn [fst snd].
    - split; [split; [exact N1|split; [exact N2|exact B]]|]. split; [apply tag_find_In; exact E|]. split; [auto|]. exists []. rewrite app_nil_r. auto.
    - assert (P := tag_insert_perm (rg_tags r) tag (length (rg_timers r)) E). split.
      + split; [|split]; cbn [rg_tags rg_timers].
        * eapply Permutation_NoDup; [apply Permutation_sym, Permutation_map, P|]. cbn [map fst]. constructor; [apply tag_find_None; exact E|exact N1].
        * eapply Permutation_NoDup; [apply Permutation_sym, Permutation_map, P|]. cbn [map snd]. constructor; [|exact N2].
          intros H. apply in_map_iff in H as ((k & v) & Ev & H). cbn [snd] in Ev. subst v. apply B in H. lia.
        * intros k v H. apply (Permutation_in _ P) in H. rewrite app_length. cbn [List.length]. destruct H as [H|H]; [injection H as <- <-; lia|apply B in H; lia].
      + split; [cbn [rg_tags]; apply (Permutation_in _ (Permutation_sym P)); left; reflexivity|].
        split; [intros e H; apply (Permutation_in _ (Permutation_sym P)); right; exact H|]. eexists. split; [reflexivity|]. repeat constructor.
  Qed.
  Lemma addTime_frame r h x r' : reg_AddTime r h x = Ok r' ->
    rg_tags r' = rg_tags r /\ length (rg_timers r') = length (rg_timers r) /\ (h < length (rg_timers r)) /\
    (forall k d, k <> h -> nth k (rg_timers r') d = nth k (rg_timers r) d) /\
    exists a a', nth_error (rg_timers r) h = Some a /\ acc_Add kWindow a x = Ok a' /\ nth_error (rg_timers r') h = Some a'.
  Proof.
    unfold reg_AddTime, oget. destruct (nth_error (rg_timers r) h) as [a|] eqn:Ea; [|discriminate]. cbn [obind].
    destruct (acc_Add kWindow a x) as [a'| | |] eqn:E; cbn [obind]; try discriminate. intros H. apply Ok_inj in H. subst r'. cbn [rg_tags rg_timers].
    assert (Hl : h < length (rg_timers r)) by (apply nth_error_Some; congruence).
    split; [reflexivity|]. split; [apply list_set_length|]. split; [exact Hl|]. split.
    - intros k d Hk. rewrite list_set_nth by exact Hl. rewrite (proj2 (Nat.eqb_neq k h) Hk). reflexivity.
    - exists a, a'. split; [reflexivity|]. split; [exact E|]. rewrite (nth_error_nth' _ a) by (rewrite list_set_length; exact Hl).
      rewrite list_set_nth by exact Hl. rewrite Nat.eqb_refl. reflexivity.
  Qed.
  Lemma reg_inv_same r r' : rg_tags r' = rg_tags r -> length (rg_timers r') = length (rg_timers r) -> reg_inv r -> reg_inv r'.
  Proof. intros E1 E2 H. unfold reg_inv. rewrite E1, E2. exact H. Qed.

  (** The handle whose accumulator a call adds to. *)
  Definition stopped_handle (ts : list (option timer)) (c : tcall) : option nat :=
    match c with
    | TStop i _ => match nth i ts None with Some t => Some (tm_handle t) | None => None end
    | TDestroy i _ => match nth i ts None with Some t => if tm_timing t then Some (tm_handle t) else None | None => None end
    | _ => None
    end.
  Lemma the_timer_nth ts i t : the_timer ts i = Ok t -> nth i ts None = Some t /\ i < length ts.
  Proof.
    unfold the_timer, oget. destruct (nth_error ts i) as [[x|]|] eqn:E; cbn [obind]; try discriminate. intros H. apply Ok_inj in H. subst x.
    split; [exact (nth_error_nth _ _ None E)|apply nth_error_Some; congruence].
  Qed.

  Definition samples_at r (k : nat) : Z := match nth_error (rg_timers r) k with Some a => ac_total_samples a | None => 0 end.

  Lemma acc_Add_total a x a' : acc_Add kWindow a x = Ok a' -> ac_total_samples a' = (ac_total_samples a + 1)%Z.
  Proof.
    unfold acc_Add. destruct (_ || _)%bool; [discriminate|].
    destruct (if (ac_window_samples a <? Z.of_nat kWindow)%Z then _ else _) as [b| | |]; cbn [obind]; try discriminate. intros H. apply Ok_inj in H. subst. reflexivity.
  Qed.

  Lemma step_inv r ts c r' ts' : reg_inv r -> run_tcall (r, ts) c = Ok (r', ts') ->
    reg_inv r' /\ length (rg_timers r) <= length (rg_timers r') /\
    (c <> TReset -> forall e, In e (rg_tags r) -> In e (rg_tags r')) /\
    (forall k, samples_at r' k = (samples_at r k + match stopped_handle ts c with Some h => if Nat.eqb h k then 1 else 0 | None => 0 end)%Z).
  Proof.
    intros I H. cbn [run_tcall] in H.
    assert (Hsame : forall r1 k, rg_timers r1 = rg_timers r -> samples_at r1 k = (samples_at r k + 0)%Z).
    { intros r1 k E. unfold samples_at. rewrite E. lia. }
    assert (Hget : forall tag k, samples_at (fst (reg_GetHandle r tag)) k = (samples_at r k + 0)%Z).
    { intros tag k. destruct (reg_inv_handle r tag I) as (_ & _ & _ & l & E & F). unfold samples_at. rewrite E.
      destruct (Nat.lt_ge_cases k (length (rg_timers r))) as [L|L]; [rewrite nth_error_app1 by exact L; lia|].
      rewrite nth_error_app2 by exact L. rewrite (proj2 (nth_error_None (rg_timers r) k) L).
      destruct (nth_error l (k - length (rg_timers r))) as [a|] eqn:En; [|lia].
      apply nth_error_In in En. rewrite Forall_forall in F. rewrite (F a En). reflexivity. }
    assert (Hadd : forall h x r1, reg_AddTime r h x = Ok r1 ->
      reg_inv r1 /\ length (rg_timers r) <= length (rg_timers r1) /\ (forall e, In e (rg_tags r) -> In e (rg_tags r1)) /\
      forall k, samples_at r1 k = (samples_at r k + if Nat.eqb h k then 1 else 0)%Z).
    { intros h x r1 E. destruct (addTime_frame r h x r1 E) as (E1 & E2 & E3 & E4 & a & a' & E5 & E6 & E7).
      split; [exact (reg_inv_same r r1 E1 E2 I)|]. split; [lia|]. split; [rewrite E1; auto|].
      intros k. unfold samples_at. destruct (Nat.eqb_spec h k) as [<-|Hne].
      - rewrite E5, E7. apply (acc_Add_total _ _ _ E6).
      - assert (Q : nth_error (rg_timers r1) k = nth_error (rg_timers r) k).
        { destruct (Nat.lt_ge_cases k (length (rg_timers r))) as [L|L].
          - rewrite !(nth_error_nth' _ a) by lia. f_equal. apply E4. congruence.
          - rewrite !(proj2 (nth_error_None _ _)) by lia. reflexivity. }
        rewrite Q. lia. }
    assert (Hkeep : reg_inv r /\ length (rg_timers r) <= length (rg_timers r) /\ (forall e, In e (rg_tags r) -> In e (rg_tags r)) /\
      forall k, samples_at r k = (samples_at r k + 0)%Z) by (repeat split; try apply I; auto; intros; lia).
    destruct c as [tag|handle st now|tag st now|i now|i now|i now|]; cbn [stopped_handle].
    - apply Ok_inj in H. injection H as <- <-. destruct (reg_inv_handle r tag I) as (A & _ & B & l & E & _).
      split; [exact A|]. split; [rewrite E, app_length; lia|]. split; [auto|]. apply Hget.
    - apply Ok_inj in H. injection H as <- <-. split; [exact I|]. split; [lia|]. split; [auto|]. intros k. lia.
    - unfold timer_new_tag in H. destruct (reg_GetHandle r tag) as (r1, h1) eqn:Eg. apply Ok_inj in H. injection H as <- <-.
      destruct (reg_inv_handle r tag I) as (A & _ & B & l & E & _). assert (G := Hget tag). rewrite Eg in A, B, E, G. cbn [fst] in *.
      split; [exact A|]. split; [rewrite E, app_length; lia|]. split; [auto|]. exact G.
    - destruct (the_timer ts i) as [t| | |]; cbn [obind] in H; try discriminate. apply Ok_inj in H. injection H as <- <-.
      split; [exact I|]. split; [lia|]. split; [auto|]. intros k. lia.
    - destruct (the_timer ts i) as [t| | |] eqn:Et; cbn [obind] in H; try discriminate. destruct (the_timer_nth _ _ _ Et) as (En & _). rewrite En.
      unfold timer_Stop in H. destruct (reg_AddTime r (tm_handle t) _) as [r1| | |] eqn:Ea; cbn [obind] in H; try discriminate.
      apply Ok_inj in H. injection H as <- <-. destruct (Hadd _ _ _ Ea) as (A & B & C & D). auto.
    - destruct (the_timer ts i) as [t| | |] eqn:Et; cbn [obind] in H; try discriminate. destruct (the_timer_nth _ _ _ Et) as (En & _). rewrite En.
      unfold timer_destroy, timer_Stop in H. destruct (tm_timing t).
      + destruct (reg_AddTime r (tm_handle t) _) as [r1| | |] eqn:Ea; cbn [obind] in H; try discriminate.
        apply Ok_inj in H. injection H as <- <-. destruct (Hadd _ _ _ Ea) as (A & B & C & D). auto.
      + cbn [obind] in H. apply Ok_inj in H. injection H as <- <-. destruct Hkeep as (A & B & C & D). auto.
    - apply Ok_inj in H. injection H as <- <-. split; [apply reg_inv_reset; exact I|]. split; [cbn; lia|]. split; [congruence|].
      intros k. apply Hsame. reflexivity.
  Qed.
  Lemma run_inv cs : forall r ts r' ts', reg_inv r -> run_tcalls (r, ts) cs = Ok (r', ts') ->
    reg_inv r' /\ length (rg_timers r) <= length (rg_timers r') /\ (~ In TReset cs -> forall e, In e (rg_tags r) -> In e (rg_tags r')).
  Proof.
    induction cs as [|c cs IH]; intros r ts r' ts' I H.
    - apply Ok_inj in H. injection H as <- <-. auto.
    - unfold run_tcalls in H. cbn [ofold] in H. destruct (run_tcall (r, ts) c) as [(r1 & ts1)| | |] eqn:E; cbn [obind] in H; try discriminate.
      destruct (step_inv r ts c r1 ts1 I E) as (I1 & L1 & S1 & _). destruct (IH r1 ts1 r' ts' I1 H) as (I2 & L2 & S2).
      split; [exact I2|]. split; [lia|]. intros Hn e He. apply S2; [intros Q; apply Hn; right; exact Q|]. apply S1; [intros ->; apply Hn; left; reflexivity|exact He].
  Qed.
  Lemma find_handle (m : list (string * nat)) k v : NoDup (map snd m) -> In (k, v) m -> find (fun e => Nat.eqb (snd e) v) m = Some (k, v).
  Proof.
    induction m as [|(k' & v') m IH]; intros N H; [contradiction|]. cbn [find snd]. cbn [map snd] in N. inversion N as [|a l N1 N2]; subst.
    destruct H as [E|H].
    - injection E as -> ->. rewrite Nat.eqb_refl. reflexivity.
    - destruct (Nat.eqb_spec v' v) as [->|]; [|auto]. exfalso. apply N1. apply (in_map snd) in H. exact H.
  Qed.
End Reg.
