(** Property C71: the statistics of the timing registry are those of the
    durations that the program measured. *)
From Coq Require Import ZArith Reals List Bool Lia Lra Arith Permutation String OrderedTypeEx Sorted.
From Verif Require Import Num RSum ModelPolynomial ModelSegment ProofSegment2 ModelTiming SpecTiming SpecRegistry ProofTiming PropTiming.
Import ListNotations.
Local Open Scope nat_scope.

Definition call_of (c : user_call) : tcall :=
  match c with
  | UHandle tag => TGetHandle tag
  | UNew h stopped now => TNewHandle h stopped now
  | UNewTag tag stopped now => TNewTag tag stopped now
  | UStart i now => TStart i now
  | UStop i now => TStop i now
  | UDestroy i now => TDestroy i now
  | UReset => TReset
  end.

Lemma tag_find_insert m k v k' :
  tag_find (tag_insert m k v) k' = if String.eqb k' k then Some v else tag_find m k'.
Proof.
  induction m as [| (k1 & v1) m IH]; cbn [tag_insert tag_find]; [reflexivity |].
  destruct (String.compare k k1) eqn:E; cbn [tag_find].
  - apply String.compare_eq_iff in E. subst k1. destruct (String.eqb_spec k' k); reflexivity.
  - reflexivity.
  - rewrite IH. destruct (String.eqb_spec k' k) as [Q | N]; [| reflexivity].
    destruct (String.eqb_spec k' k1) as [Q1 |]; [| reflexivity].
    change (String_as_OT.cmp k k1 = Gt) in E. rewrite (proj2 (String_as_OT.cmp_eq k k1)) in E by congruence. discriminate.
Qed.

Lemma filter_none {A} (f : A -> bool) l : (forall e, In e l -> f e = false) -> filter f l = [].
Proof. induction l as [| x l IH]; intros H; [reflexivity |]. cbn [filter]. rewrite (H x (or_introl eq_refl)). apply IH. intros e He. apply H. now right. Qed.

Section Sim.
  Context {T : Type} {ops : NumOps T}.

  (** duration<double> of a number of nanoseconds *)
  Definition secs (z : Z) : T := ndiv (nofZ z) (nofZ (10 ^ 9)).
  Definition timer_of (w : watch) : timer := mkTimer (w_since w) (w_running w) (w_handle w).
  Definition tag_lt (a b : string * nat) : Prop := String_as_OT.lt (fst a) (fst b).

  Record sim (r : registry T) (ts : list (option timer)) (u : user_state) : Prop := {
    sim_tag : forall tag, tag_find (rg_tags r) tag = u_tag u tag;
    sim_len : length (rg_timers r) = u_handles u;
    sim_ts : ts = map (option_map timer_of) (u_watches u);
    sim_acc : forall k, k < u_handles u -> exists a, nth_error (rg_timers r) k = Some a /\
                ofold (acc_Add kWindow) (map secs (durations u k)) (acc_new kWindow) = Ok a;
    sim_bound : forall tag h, u_tag u tag = Some h -> h < u_handles u;
    sim_log : forall e, In e (u_log u) -> fst e < u_handles u;
    sim_sorted : StronglySorted tag_lt (rg_tags r)
  }.

  Lemma sim_new : sim reg_new [] user_start.
  Proof. constructor; cbn; try reflexivity; try (intros; lia || discriminate || contradiction). constructor. Qed.

  Lemma tag_lt_trans a b c : tag_lt a b -> tag_lt b c -> tag_lt a c.
  Proof. apply String_as_OT.lt_trans. Qed.
  Lemma insert_Forall (P : string * nat -> Prop) m k v : P (k, v) -> List.Forall P m -> List.Forall P (tag_insert m k v).
  Proof.
    intros H. induction m as [| (k1 & v1) m IH]; cbn [tag_insert]; intros F; [now constructor |]. inversion F; subst.
    destruct (String.compare k k1); constructor; auto.
  Qed.
  Lemma insert_sorted m k v : StronglySorted tag_lt m -> StronglySorted tag_lt (tag_insert m k v).
  Proof.
    induction m as [| (k1 & v1) m IH]; cbn [tag_insert]; intros S0; [constructor; constructor |].
    inversion S0 as [| ? ? S1 F1]; subst. destruct (String.compare k k1) eqn:E.
    - apply String.compare_eq_iff in E. subst k1. constructor; assumption.
    - apply String_as_OT.cmp_lt in E. constructor; [assumption |]. constructor; [exact E |].
      eapply Forall_impl; [| exact F1]. intros e He. eapply tag_lt_trans; [| exact He]. exact E.
    - constructor; [auto |]. apply insert_Forall; [| exact F1].
      rewrite String.compare_antisym in E. unfold CompOpp in E. destruct (String.compare k1 k) eqn:E2; try discriminate.
      now apply String_as_OT.cmp_lt in E2.
  Qed.

  Lemma sim_handle r ts u tag : sim r ts u ->
    sim (fst (reg_GetHandle r tag)) ts (fst (register u tag)) /\ snd (reg_GetHandle r tag) = snd (register u tag) /\
    snd (register u tag) < u_handles (fst (register u tag)).
  Proof.
    intros I. unfold reg_GetHandle, register. rewrite (sim_tag _ _ _ I).
    destruct (u_tag u tag) as [h |] eqn:E; cbn [fst snd]; [split; [exact I |]; split; [reflexivity |]; exact (sim_bound _ _ _ I _ _ E) |].
    split; [| split; [exact (sim_len _ _ _ I) | cbn; lia]].
    destruct I as [I1 I2 I3 I4 I5 I6 I7]. constructor; cbn [rg_tags rg_timers u_tag u_handles u_watches u_log].
    - intros t. rewrite tag_find_insert, I1, I2. reflexivity.
    - rewrite app_length, I2. cbn. lia.
    - exact I3.
    - intros k Hk. destruct (Nat.eq_dec k (u_handles u)) as [-> | N].
      + exists (acc_new kWindow). split; [rewrite <- I2, nth_error_app2, Nat.sub_diag by lia; reflexivity |].
        unfold durations. cbn [u_log]. rewrite filter_none; [reflexivity |].
        intros e He. apply I6 in He. apply Nat.eqb_neq. lia.
      + destruct (I4 k) as (a & A1 & A2); [lia |]. exists a. split; [| exact A2]. rewrite nth_error_app1; [exact A1 |]. rewrite I2. lia.
    - intros t h. destruct (String.eqb t tag); [intros Q; injection Q as <-; lia |]. intros Q. apply I5 in Q. lia.
    - intros e He. apply I6 in He. lia.
    - apply insert_sorted. exact I7.
  Qed.

  Lemma list_set_firstn {A} (l : list A) : forall i v, i < length l -> list_set l i v = firstn i l ++ v :: skipn (S i) l.
  Proof. induction l as [| x l IH]; intros [| i] v H; cbn in H; try lia; [reflexivity |]. cbn [list_set firstn skipn app]. now rewrite IH by lia. Qed.
  Lemma set_watch us i w : i < length us ->
    list_set (map (option_map timer_of) us) i (option_map timer_of w) = map (option_map timer_of) (firstn i us ++ w :: skipn (S i) us).
  Proof.
    intros H. rewrite list_set_firstn by (rewrite map_length; exact H). rewrite map_app. cbn [map]. rewrite <- firstn_map, <- skipn_map. reflexivity.
  Qed.
  Lemma sim_watch r ts u i w : sim r ts u -> i < length (u_watches u) -> sim r (list_set ts i (option_map timer_of w)) (with_watch u i w).
  Proof.
    intros [I1 I2 I3 I4 I5 I6 I7] H. constructor; cbn; try assumption. rewrite I3. apply set_watch. exact H.
  Qed.

  (** The abstract machine never has too many samples. *)
  Definition in_range (u : user_state) : Prop := forall h, (Z.of_nat (length (durations u h)) < 2 ^ 31)%Z.

  Lemma durations_record u h d k :
    durations (mkUser (u_tag u) (u_handles u) (u_watches u) (u_log u ++ [(h, d)])) k =
    durations u k ++ (if Nat.eqb h k then [d] else []).
  Proof.
    unfold durations. cbn [u_log]. rewrite filter_app, map_app. f_equal. cbn [filter fst]. destruct (Nat.eqb h k); reflexivity.
  Qed.

  Lemma sim_record r ts u w now : sim r ts u -> in_range u ->
    match record u w now with
    | None => reg_AddTime r (w_handle w) (secs (now - w_since w)) = UB
    | Some u' => (in_range u' /\ exists r', reg_AddTime r (w_handle w) (secs (now - w_since w)) = Ok r' /\ sim r' ts u') \/
                 (~ in_range u' /\ reg_AddTime r (w_handle w) (secs (now - w_since w)) = UB)
    end.
  Proof.
    intros I HR. unfold record. destruct (Nat.ltb_spec (w_handle w) (u_handles u)) as [H | H].
    2: { unfold reg_AddTime, oget. rewrite (proj2 (nth_error_None _ _)); [reflexivity |]. rewrite (sim_len _ _ _ I). exact H. }
    destruct I as [I1 I2 I3 I4 I5 I6 I7]. set (h := w_handle w) in *. set (d := (now - w_since w)%Z).
    set (u' := mkUser _ _ _ _). destruct (I4 h H) as (a & A1 & A2).
    assert (D : durations u' h = durations u h ++ [d]) by (unfold u'; rewrite durations_record, Nat.eqb_refl; reflexivity).
    assert (DO : forall k, k <> h -> durations u' k = durations u k).
    { intros k Hk. unfold u'. rewrite durations_record. replace (Nat.eqb h k) with false by (symmetry; apply Nat.eqb_neq; congruence). apply app_nil_r. }
    assert (EA : ofold (acc_Add kWindow) (map secs (durations u' h)) (acc_new kWindow) = acc_Add kWindow a (secs d)).
    { rewrite D, map_app, ofold_append, A2. cbn [obind map ofold]. destruct (acc_Add kWindow a (secs d)); reflexivity. }
    destruct (Z.lt_ge_cases (Z.of_nat (length (durations u' h))) (2 ^ 31)) as [L | L].
    - left. split; [intros k; destruct (Nat.eq_dec k h) as [-> | N]; [exact L | rewrite DO by exact N; apply HR] |].
      destruct (acc_adds kWindow ltac:(unfold kWindow; lia) (map secs (durations u' h))) as (a' & E & _); [rewrite map_length; lia |].
      rewrite EA in E. unfold reg_AddTime, oget. rewrite A1. cbn [obind]. rewrite E. cbn [obind]. eexists. split; [reflexivity |].
      constructor; cbn [rg_tags rg_timers u' u_tag u_handles u_watches u_log]; try assumption.
      + rewrite list_set_length. exact I2.
      + intros k Hk. destruct (Nat.eq_dec k h) as [-> | N].
        * exists a'. split; [| rewrite EA; exact E]. rewrite (nth_error_nth' _ a) by (rewrite list_set_length; lia).
          rewrite list_set_nth by lia. rewrite Nat.eqb_refl. reflexivity.
        * destruct (I4 k Hk) as (b & B1 & B2). exists b. rewrite DO by exact N. split; [| exact B2].
          rewrite (nth_error_nth' _ b) by (rewrite list_set_length; lia). rewrite list_set_nth_other by exact N.
          f_equal. exact (nth_error_nth _ _ b B1).
      + intros e He. apply in_app_or in He. destruct He as [He | [<- | []]]; [apply I6; exact He | exact H].
    - right. split; [intros Q; specialize (Q h); lia |].
      unfold reg_AddTime, oget. rewrite A1. cbn [obind]. rewrite <- EA, acc_overflow; [reflexivity | unfold kWindow; lia |].
      rewrite map_length. lia.
  Qed.

  Lemma the_timer_sim us i :
    the_timer (map (option_map timer_of) us) i =
    match nth_error us i with Some (Some w) => Ok (timer_of w) | _ => UB end.
  Proof.
    unfold the_timer, oget. rewrite nth_error_map. destruct (nth_error us i) as [[w |] |]; reflexivity.
  Qed.

  Lemma sim_step r ts u c : sim r ts u -> in_range u ->
    match user_step u c with
    | None => run_tcall (r, ts) (call_of c) = UB
    | Some u' => (in_range u' /\ exists r' ts', run_tcall (r, ts) (call_of c) = Ok (r', ts') /\ sim r' ts' u') \/
                 (~ in_range u' /\ run_tcall (r, ts) (call_of c) = UB)
    end.
  Proof.
    intros I HR. assert (TS := sim_ts _ _ _ I). destruct c; cbn [user_step call_of run_tcall].
    - left. destruct (sim_handle r ts u tag I) as (A & _). split; [unfold register; destruct (u_tag u tag); exact HR |]. eauto.
    - left. split; [exact HR |]. eexists _, _. split; [reflexivity |]. destruct I. constructor; cbn; try assumption.
      rewrite map_app, TS. unfold timer_new, timer_Start. destruct stopped; reflexivity.
    - left. destruct (sim_handle r ts u tag I) as (A & B & _). unfold timer_new_tag.
      split; [unfold register; destruct (u_tag u tag); exact HR |].
      destruct (reg_GetHandle r tag) as (r1 & h). cbn [fst snd] in A, B. subst h. eexists _, _. split; [reflexivity |].
      assert (TS1 := sim_ts _ _ _ A). destruct A. constructor; cbn; try assumption.
      rewrite map_app, TS1. unfold timer_new, timer_Start. destruct stopped; reflexivity.
    - rewrite TS, the_timer_sim. destruct (nth_error (u_watches u) i) as [[w |] |] eqn:E; [| reflexivity | reflexivity].
      cbn [obind]. left. split; [exact HR |]. eexists _, _. split; [reflexivity |].
      rewrite <- TS. apply (sim_watch r ts u i (Some (mkWatch (w_handle w) now true)) I). apply nth_error_Some. congruence.
    - rewrite TS, the_timer_sim. destruct (nth_error (u_watches u) i) as [[w |] |] eqn:E; [| reflexivity | reflexivity].
      cbn [obind]. assert (Hi : i < length (u_watches u)) by (apply nth_error_Some; congruence).
      unfold timer_Stop. cbn [timer_of tm_handle tm_time]. assert (Q := sim_record r ts u w now I HR). unfold secs in Q.
      destruct (record u w now) as [u1 |] eqn:ER.
      + assert (W1 : length (u_watches u1) = length (u_watches u)).
        { unfold record in ER. destruct (Nat.ltb _ _); [injection ER as <-; reflexivity | discriminate]. }
        destruct Q as [(R1 & r' & EA & I') | (R1 & EA)]; rewrite EA; cbn [obind]; [left | right]; (split; [exact R1 |]); [| reflexivity].
        eexists _, _. split; [reflexivity |]. cbn [fst snd]. rewrite <- TS.
        apply (sim_watch r' ts u1 i (Some (mkWatch (w_handle w) (w_since w) false)) I'). lia.
      + rewrite Q. reflexivity.
    - rewrite TS, the_timer_sim. destruct (nth_error (u_watches u) i) as [[w |] |] eqn:E; [| reflexivity | reflexivity].
      cbn [obind]. assert (Hi : i < length (u_watches u)) by (apply nth_error_Some; congruence).
      unfold timer_destroy, timer_Stop. cbn [timer_of tm_timing tm_handle tm_time]. destruct (w_running w).
      + assert (Q := sim_record r ts u w now I HR). unfold secs in Q. destruct (record u w now) as [u1 |] eqn:ER.
        * assert (W1 : length (u_watches u1) = length (u_watches u)).
          { unfold record in ER. destruct (Nat.ltb _ _); [injection ER as <-; reflexivity | discriminate]. }
          destruct Q as [(R1 & r' & EA & I') | (R1 & EA)]; rewrite EA; cbn [obind]; [left | right]; (split; [exact R1 |]); [| reflexivity].
          eexists _, _. split; [reflexivity |]. cbn [fst snd]. rewrite <- TS. apply (sim_watch r' ts u1 i None I'). lia.
        * rewrite Q. reflexivity.
      + cbn [obind]. left. split; [exact HR |]. eexists _, _. split; [reflexivity |]. rewrite <- TS. apply (sim_watch r ts u i None I Hi).
    - left. split; [exact HR |]. eexists _, _. split; [reflexivity |]. destruct I. constructor; cbn; try assumption; try reflexivity; [discriminate | constructor].
  Qed.

  Lemma step_log u c u' : user_step u c = Some u' -> exists l, u_log u' = u_log u ++ l.
  Proof.
    assert (RC : forall w now u1, record u w now = Some u1 -> exists l, u_log u1 = u_log u ++ l).
    { intros w now u1. unfold record. destruct (Nat.ltb _ _); [| discriminate]. intros E. injection E as <-. eexists. reflexivity. }
    destruct c; cbn [user_step].
    - intros E. injection E as <-. exists []. rewrite app_nil_r. unfold register. destruct (u_tag u tag); reflexivity.
    - intros E. injection E as <-. exists []. rewrite app_nil_r. reflexivity.
    - intros E. injection E as <-. exists []. rewrite app_nil_r. unfold register. destruct (u_tag u tag); reflexivity.
    - destruct (nth_error _ _) as [[w |] |]; try discriminate. intros E. injection E as <-. exists []. rewrite app_nil_r. reflexivity.
    - destruct (nth_error _ _) as [[w |] |]; try discriminate. destruct (record u w now) as [u1 |] eqn:ER; [| discriminate].
      intros E. injection E as <-. exact (RC _ _ _ ER).
    - destruct (nth_error _ _) as [[w |] |]; try discriminate. destruct (w_running w).
      + destruct (record u w now) as [u1 |] eqn:ER; [| discriminate]. intros E. injection E as <-. exact (RC _ _ _ ER).
      + intros E. injection E as <-. exists []. rewrite app_nil_r. reflexivity.
    - intros E. injection E as <-. exists []. rewrite app_nil_r. reflexivity.
  Qed.
  Lemma run_log cs : forall u u', user_run u cs = Some u' -> exists l, u_log u' = u_log u ++ l.
  Proof.
    induction cs as [| c cs IH]; intros u u' E; cbn [user_run] in E.
    - injection E as <-. exists []. now rewrite app_nil_r.
    - destruct (user_step u c) as [u1 |] eqn:E1; [| discriminate]. destruct (step_log _ _ _ E1) as (l1 & L1). destruct (IH _ _ E) as (l2 & L2).
      exists (l1 ++ l2). rewrite L2, L1, app_assoc. reflexivity.
  Qed.
  Lemma in_range_run cs u u' : user_run u cs = Some u' -> in_range u' -> in_range u.
  Proof.
    intros E H h. specialize (H h). destruct (run_log _ _ _ E) as (l & L). unfold durations in *. rewrite L, filter_app, map_app, app_length in H. lia.
  Qed.

  Lemma sim_run cs : forall r ts u, sim r ts u -> in_range u ->
    match user_run u cs with
    | None => run_tcalls (r, ts) (map call_of cs) = UB
    | Some u' => (in_range u' /\ exists r' ts', run_tcalls (r, ts) (map call_of cs) = Ok (r', ts') /\ sim r' ts' u') \/
                 (~ in_range u' /\ run_tcalls (r, ts) (map call_of cs) = UB)
    end.
  Proof.
    induction cs as [| c cs IH]; intros r ts u I HR; cbn [user_run map].
    - left. split; [exact HR |]. eexists _, _. split; [reflexivity | exact I].
    - unfold run_tcalls. cbn [ofold]. assert (S1 := sim_step r ts u c I HR). destruct (user_step u c) as [u1 |] eqn:E1.
      + destruct S1 as [(R1 & r1 & ts1 & E & I1) | (R1 & E)]; rewrite E; cbn [obind].
        * exact (IH r1 ts1 u1 I1 R1).
        * destruct (user_run u1 cs) as [u2 |] eqn:E2; [| reflexivity]. right. split; [| reflexivity]. intros Q. apply R1. eapply in_range_run; eauto.
      + rewrite S1. reflexivity.
  Qed.
  Lemma in_range_new : in_range user_start.
  Proof. intros h. cbn. lia. Qed.

  (** Bit-exact, for every number type: a program that the abstract machine can
      run, with less than 2^31 samples per handle, runs without undefined
      behaviour; then each query by handle reads an accumulator that was fed with
      exactly the durations measured for that handle, in order, and each query by
      tag is the query by the handle of the tag. *)
  Theorem C71_refines (cs : list user_call) (u : user_state) :
    user_run user_start cs = Some u -> (forall h, (Z.of_nat (length (durations u h)) < 2 ^ 31)%Z) ->
    exists r ts, run_tcalls (reg_new, []) (map call_of cs) = Ok (r, ts) /\
      (forall h, h < u_handles u ->
         (exists a, ofold (acc_Add kWindow) (map secs (durations u h)) (acc_new kWindow) = Ok a /\
            forall (A : Type) (f : accumulator T -> A), reg_query r h f = Ok (f a)) /\
         reg_GetNumSamples r h = Ok (Z.of_nat (length (durations u h))) /\
         reg_GetTotalSeconds r h = Ok (fold_left nadd (map secs (durations u h)) n0)) /\
      (forall h, u_handles u <= h -> forall (A : Type) (f : accumulator T -> A), reg_query r h f = UB) /\
      (forall (A : Type) (q : registry T -> nat -> outcome A) tag h, u_tag u tag = Some h ->
         reg_by_tag r tag q = (x <-- q r h ;; Ok (r, x)) /\ h < u_handles u).
  Proof.
    intros E HR. assert (Q := sim_run cs _ _ _ sim_new in_range_new). rewrite E in Q.
    destruct Q as [(_ & r & ts & ER & I) | (N & _)]; [| contradiction].
    exists r, ts. split; [exact ER |]. split; [| split].
    - intros h Hh. destruct (sim_acc _ _ _ I h Hh) as (a & A1 & A2).
      assert (G : forall (A : Type) (f : accumulator T -> A), reg_query r h f = Ok (f a)).
      { intros A f. unfold reg_query, oget. rewrite A1. reflexivity. }
      split; [exists a; split; assumption |].
      destruct (acc_adds kWindow ltac:(unfold kWindow; lia) (map secs (durations u h))) as (a' & E' & J); [rewrite map_length; specialize (HR h); lia |].
      rewrite A2 in E'. apply Ok_inj in E'. subst a'. destruct J as (J1 & J2 & _ & _ & _ & J6 & _).
      unfold reg_GetNumSamples, reg_GetTotalSeconds. rewrite !G. unfold acc_TotalSamples, acc_Sum. rewrite J2, J6, map_length. split; reflexivity.
    - intros h Hh A f. unfold reg_query, oget. rewrite (proj2 (nth_error_None _ _)); [reflexivity |]. rewrite (sim_len _ _ _ I). exact Hh.
    - intros A q tag h Ht. unfold reg_by_tag, reg_GetHandle. rewrite (sim_tag _ _ _ I), Ht. split; [reflexivity |]. exact (sim_bound _ _ _ I _ _ Ht).
  Qed.

  (** Everything else is undefined: a timer that does not exist, a handle that was
      not given out, or 2^31 samples of one handle. *)
  Theorem C71_undefined (cs : list user_call) :
    (user_run user_start cs = None \/
     exists u h, user_run user_start cs = Some u /\ (2 ^ 31 <= Z.of_nat (length (durations u h)))%Z) ->
    run_tcalls (@reg_new T, []) (map call_of cs) = UB.
  Proof.
    assert (Q := sim_run cs _ _ _ sim_new in_range_new).
    intros [E | (u & h & E & L)]; rewrite E in Q; [exact Q |].
    destruct Q as [(R1 & _) | (_ & Q)]; [specialize (R1 h); lia | exact Q].
  Qed.

  (** A query by an unknown tag registers it. *)
  Theorem C71_unknown_tag (cs : list user_call) (u : user_state) r ts tag :
    user_run user_start cs = Some u -> run_tcalls (reg_new, []) (map call_of cs) = Ok (r, ts) -> u_tag u tag = None ->
    exists r', reg_by_tag r tag reg_GetNumSamples = Ok (r', 0%Z) /\ snd (reg_GetHandle r' tag) = u_handles u /\
      length (rg_timers r') = S (u_handles u).
  Proof.
    intros E ER HN. assert (Q := sim_run cs _ _ _ sim_new in_range_new). rewrite E in Q.
    destruct Q as [(_ & r0 & ts0 & ER0 & I) | (_ & Q)]; [| congruence].
    rewrite ER in ER0. apply Ok_inj in ER0. injection ER0 as <- <-.
    unfold reg_by_tag, reg_GetHandle at 1. rewrite (sim_tag _ _ _ I), HN.
    unfold reg_GetNumSamples, reg_query, oget. cbn [rg_timers]. rewrite nth_error_app2, Nat.sub_diag by lia. cbn [nth_error obind].
    eexists. split; [reflexivity |]. cbn [rg_timers rg_tags]. split.
    - unfold reg_GetHandle. cbn [rg_tags rg_timers]. rewrite tag_find_insert, String.eqb_refl. cbn [snd]. exact (sim_len _ _ _ I).
    - rewrite app_length, (sim_len _ _ _ I). cbn. lia.
  Qed.

  (** Print has one line per known tag, in the order of the tags, with the number
      of samples of that tag; no line has statistics unless there are samples. *)
  Theorem C71_print (cs : list user_call) (u : user_state) r ts :
    user_run user_start cs = Some u -> run_tcalls (reg_new, []) (map call_of cs) = Ok (r, ts) ->
    exists rows, reg_Print r = Ok rows /\
      StronglySorted String_as_OT.lt (map (fun x => fst (fst x)) rows) /\
      (forall tag, u_tag u tag <> None <-> In tag (map (fun x => fst (fst x)) rows)) /\
      (forall tag n d, In (tag, n, d) rows -> exists h, u_tag u tag = Some h /\ n = Z.of_nat (length (durations u h)) /\
         match d with
         | None => durations u h = []
         | Some (total, meansec, stddev, minsec, maxsec) => durations u h <> [] /\
             reg_GetTotalSeconds r h = Ok total /\ reg_GetMeanSeconds r h = Ok meansec /\
             (exists var, reg_GetVarianceSeconds r h = Ok var /\ stddev = nsqrt var) /\
             reg_GetMinSeconds r h = Ok minsec /\ reg_GetMaxSeconds r h = Ok maxsec
         end).
  Proof.
    intros E ER. assert (Q := sim_run cs _ _ _ sim_new in_range_new). rewrite E in Q.
    destruct Q as [(HR & r0 & ts0 & ER0 & I) | (_ & Q)]; [| congruence].
    rewrite ER in ER0. apply Ok_inj in ER0. injection ER0 as <- <-.
    destruct (C71_refines cs u E HR) as (r0 & ts0 & ER0 & H1 & H2 & H3).
    rewrite ER in ER0. apply Ok_inj in ER0. injection ER0 as <- <-.
    assert (ND : NoDup (map fst (rg_tags r))).
    { assert (S0 := sim_sorted _ _ _ I). revert S0. generalize (rg_tags r). clear. induction l as [| (k & v) l IH]; intros S0; [constructor |].
      inversion S0 as [| ? ? S1 F]; subst. cbn [map fst]. constructor; [| apply IH; exact S1]. intros Q. apply in_map_iff in Q. destruct Q as ((k' & v') & Q1 & Q2).
      rewrite Forall_forall in F. apply F in Q2. cbn [fst] in Q1. subst k'. exact (String_as_OT.lt_not_eq _ _ Q2 eq_refl). }
    assert (HT : forall tag h, In (tag, h) (rg_tags r) <-> u_tag u tag = Some h).
    { intros tag h. rewrite <- (sim_tag _ _ _ I). split; [apply tag_find_NoDup; exact ND | apply tag_find_In]. }
    assert (G : forall l, (forall e, In e l -> In e (rg_tags r)) -> exists rows,
      omap (fun e : string * nat =>
            n <-- reg_GetNumSamples r (snd e) ;;
            if (0 <? n)%Z then
              total <-- reg_GetTotalSeconds r (snd e) ;;
              meansec <-- reg_GetMeanSeconds r (snd e) ;;
              var <-- reg_GetVarianceSeconds r (snd e) ;;
              minsec <-- reg_GetMinSeconds r (snd e) ;;
              maxsec <-- reg_GetMaxSeconds r (snd e) ;;
              Ok (fst e, n, Some (total, meansec, nsqrt var, minsec, maxsec))
            else Ok (fst e, n, None)) l = Ok rows /\
      map (fun x => fst (fst x)) rows = map fst l /\
      (forall tag n d, In (tag, n, d) rows -> exists h, u_tag u tag = Some h /\ n = Z.of_nat (length (durations u h)) /\
         match d with
         | None => durations u h = []
         | Some (total, meansec, stddev, minsec, maxsec) => durations u h <> [] /\
             reg_GetTotalSeconds r h = Ok total /\ reg_GetMeanSeconds r h = Ok meansec /\
             (exists var, reg_GetVarianceSeconds r h = Ok var /\ stddev = nsqrt var) /\
             reg_GetMinSeconds r h = Ok minsec /\ reg_GetMaxSeconds r h = Ok maxsec
         end)).
    { induction l as [| (tag & h) l IH]; intros Hl; [exists []; split; [reflexivity |]; split; [reflexivity | intros ? ? ? []] |].
      destruct IH as (rows & R1 & R2 & R3); [intros e He; apply Hl; right; exact He |].
      assert (Ht : u_tag u tag = Some h) by (apply HT, Hl; left; reflexivity).
      assert (Hh := sim_bound _ _ _ I _ _ Ht). destruct (H1 h Hh) as ((a & A1 & A2) & N1 & _).
      cbn [omap snd fst]. rewrite N1, R1. cbn [obind].
      destruct (Z.ltb_spec 0 (Z.of_nat (length (durations u h)))) as [L | L].
      - destruct (C52_window kWindow (map secs (durations u h))) as (a' & B1 & _ & _ & _ & v & V); [unfold kWindow; lia | rewrite map_length; apply HR |].
        rewrite A1 in B1. apply Ok_inj in B1. subst a'.
        assert (EV : reg_GetVarianceSeconds r h = Ok v) by (unfold reg_GetVarianceSeconds; rewrite A2; cbn [obind]; exact V).
        assert (E1 : reg_GetTotalSeconds r h = Ok (acc_Sum a)) by apply A2.
        assert (E2 : reg_GetMeanSeconds r h = Ok (acc_Mean a)) by apply A2.
        assert (E4 : reg_GetMinSeconds r h = Ok (acc_Min a)) by apply A2.
        assert (E5 : reg_GetMaxSeconds r h = Ok (acc_Max a)) by apply A2.
        rewrite E1, E2, EV, E4, E5. cbn [obind].
        eexists. split; [reflexivity |]. split; [cbn [map fst]; now rewrite R2 |].
        intros tag' n d [Q | Q]; [| apply R3; exact Q]. injection Q as <- <- <-. exists h. split; [exact Ht |]. split; [reflexivity |].
        split; [intros Q; rewrite Q in L; cbn in L; lia |]. repeat (split; [assumption |]). split; [exists v; split; [assumption | reflexivity] |]. split; assumption.
      - cbn [obind]. eexists. split; [reflexivity |]. split; [cbn [map fst]; now rewrite R2 |].
        intros tag' n d [Q | Q]; [| apply R3; exact Q]. injection Q as <- <- <-. exists h. split; [exact Ht |]. split; [reflexivity |].
        destruct (durations u h); [reflexivity | cbn in L; lia]. }
    destruct (G (rg_tags r) (fun e H => H)) as (rows & R1 & R2 & R3). exists rows. split; [exact R1 |]. split; [| split; [| exact R3]].
    - rewrite R2. assert (S0 := sim_sorted _ _ _ I). revert S0. generalize (rg_tags r). clear.
      induction l as [| (k & v) l IH]; intros S0; [constructor |]. inversion S0 as [| ? ? S1 F]; subst. cbn [map fst]. constructor; [apply IH; exact S1 |].
      apply Forall_map. exact F.
    - intros tag. rewrite R2. split.
      + intros Q. destruct (u_tag u tag) as [h |] eqn:Et; [| congruence]. apply HT in Et. apply (in_map fst) in Et. exact Et.
      + intros Q. apply in_map_iff in Q. destruct Q as ((t & h) & Q1 & Q2). cbn [fst] in Q1. subst t. apply HT in Q2. congruence.
  Qed.
End Sim.
Print Assumptions C71_refines.
Print Assumptions C71_undefined.
Print Assumptions C71_unknown_tag.
Print Assumptions C71_print.

Local Open Scope R_scope.
(** The statistics of the registry in real arithmetic: the seconds of the
    durations ds measured for the handle. *)
Theorem C71_statistics (cs : list user_call) (u : user_state) (h : nat) :
  user_run user_start cs = Some u -> (forall h, (Z.of_nat (length (durations u h)) < 2 ^ 31)%Z) ->
  (h < u_handles u)%nat -> durations u h <> [] -> (forall d, In d (durations u h) -> (d < 2 ^ 63)%Z) ->
  exists r ts, run_tcalls (@reg_new R, []) (map call_of cs) = Ok (r, ts) /\
    let ds := map (fun d => IZR d / 10 ^ 9) (durations u h) in
    reg_GetTotalSeconds r h = Ok (lsum ds) /\ reg_GetMeanSeconds r h = Ok (mean ds) /\
    reg_GetVarianceSeconds r h = Ok (variance (recent 50 ds)) /\
    reg_GetHz r h = Ok (/ mean (recent 50 ds)) /\
    (exists m, reg_GetMinSeconds r h = Ok m /\ In m ds /\ forall x, In x ds -> m <= x) /\
    ((exists d, In d (durations u h) /\ (0 < d)%Z) ->
     exists m, reg_GetMaxSeconds r h = Ok m /\ In m ds /\ forall x, In x ds -> x <= m).
Proof.
  intros E HR Hh Hne Hb. destruct (C71_refines (T := R) cs u E HR) as (r & ts & ER & H1 & _). exists r, ts. split; [exact ER |].
  destruct (H1 h Hh) as ((a & A1 & A2) & _).
  assert (EQ : map (secs (T := R)) (durations u h) = map (fun d => IZR d / 10 ^ 9) (durations u h)).
  { apply map_ext. intros d. unfold secs. rnum. f_equal. rewrite pow_IZR. reflexivity. }
  rewrite EQ in A1. intros ds. change (map _ (durations u h)) with ds in A1.
  destruct (C52_statistics_partial kWindow ds) as (a' & B1 & _ & B3 & B4 & B5 & B6 & B7 & B8 & B9).
  - unfold kWindow; lia.
  - intros Q. apply Hne. apply map_eq_nil in Q. exact Q.
  - unfold ds. rewrite map_length. apply HR.
  - apply Forall_forall. intros x X. unfold ds in X. apply in_map_iff in X. destruct X as (d & <- & D). apply Hb in D.
    apply Rle_trans with (IZR (2 ^ 63)).
    + apply Rle_trans with (IZR (2 ^ 63) / 10 ^ 9).
      * apply Rmult_le_compat_r; [apply Rlt_le, Rinv_0_lt_compat, pow_lt; lra |]. apply IZR_le. lia.
      * assert (0 < IZR (2 ^ 63)) by (apply IZR_lt; reflexivity).
        assert (/ 10 ^ 9 <= 1) by (rewrite <- Rinv_1; apply Rinv_le_contravar; [lra | apply pow_R1_Rle; lra]). unfold Rdiv. nra.
    + apply IZR_le. discriminate.
  - rewrite A1 in B1. apply Ok_inj in B1. subst a'.
    split; [unfold reg_GetTotalSeconds; rewrite A2, B3; reflexivity |].
    split; [unfold reg_GetMeanSeconds; rewrite A2, B4; reflexivity |].
    split; [unfold reg_GetVarianceSeconds; rewrite A2; cbn [obind]; exact B6 |].
    split; [unfold reg_GetHz; rewrite A2, B5; change kWindow with 50%nat; f_equal; rnum; unfold Rdiv; apply Rmult_1_l |].
    split; [exists (acc_Min a); split; [unfold reg_GetMinSeconds; rewrite A2; reflexivity |]; split; assumption |].
    intros (d & D1 & D2). destruct B9 as (C1 & C2).
    + exists (IZR d / 10 ^ 9). split; [unfold ds; apply (in_map (fun d => IZR d / 10 ^ 9)), D1 |].
      apply Rle_trans with (/ 10 ^ 9).
      * apply Rinv_le_contravar; [apply pow_lt; lra |]. rewrite !pow_IZR. apply IZR_le. discriminate.
      * unfold Rdiv. rewrite <- (Rmult_1_l (/ 10 ^ 9)) at 1. apply Rmult_le_compat_r; [apply Rlt_le, Rinv_0_lt_compat, pow_lt; lra |]. apply IZR_le. lia.
    + exists (acc_Max a). split; [unfold reg_GetMaxSeconds; rewrite A2; reflexivity |]. split; assumption.
Qed.
Print Assumptions C71_statistics.

(** Two tags, three timers; one is destroyed while it runs. *)
Definition user_ex : list user_call :=
  [UHandle "a"; UNewTag "b" true 5; UNewTag "a" false 7; UStart 0 10; UStop 1 20; UStop 0 40; UNew 0 false 50; UDestroy 2 80].
Example C71_example : exists u, user_run user_start user_ex = Some u /\
  (forall h, (Z.of_nat (length (durations u h)) < 2 ^ 31)%Z) /\ (0 < u_handles u)%nat /\
  durations u 0 = [13; 30]%Z /\ durations u 1 = [30]%Z /\ u_tag u "b" = Some 1%nat /\ u_tag u "c" = None /\
  exists d, In d (durations u 0) /\ (0 < d < 2 ^ 63)%Z.
Proof.
  eexists. split; [reflexivity |]. split.
  { intros [| [| h]]; reflexivity. }
  split; [cbn; lia |]. split; [reflexivity |]. split; [reflexivity |]. split; [reflexivity |]. split; [reflexivity |].
  exists 13%Z. split; [left; reflexivity | lia].
Qed.
Example C71_undefined_example : user_run user_start [UStop 0 1] = None /\ user_run user_start [UNew 3 false 0; UStop 0 1] = None.
Proof. split; reflexivity. Qed.

(** Max() of a handle whose durations are all 0 is not 0. *)
Theorem C71_max_of_zero_finding : exists (cs : list user_call) (u : user_state) (r : registry R) ts (m : R),
  user_run user_start cs = Some u /\ run_tcalls (reg_new, []) (map call_of cs) = Ok (r, ts) /\
  durations u 0 = [0]%Z /\ reg_GetMaxSeconds r 0 = Ok m /\ 0 < m.
Proof.
  exists [UNewTag "a" false 5; UDestroy 0 5]. eexists. eexists. eexists. eexists. split; [reflexivity |]. split; [reflexivity |]. split; [reflexivity |].
  split; [reflexivity |]. cbn [acc_Max acc_Add ac_max]. rnum.
  assert (P : 0 < @dbl_min R R_ops) by (unfold dbl_min, nlit; rnum; apply Rdiv_lt_0_compat; apply IZR_lt; reflexivity).
  match goal with |- 0 < (if Rltb ?a ?b then _ else _) => destruct (Rltb_spec a b) as [L | L] end; [exact (Rlt_trans _ _ _ P L) | exact P].
Qed.
Print Assumptions C71_max_of_zero_finding.

(** MiniTimer: the time from the last start (or construction) to the stop; never
    negative, 0 if the clock went back. *)
Theorem C71_mini_timer (m : Z * Z) (t0 t1 : Z) :
  let m1 := mini_start m t0 in
  ((t0 <= t1)%Z -> snd (mini_stop (T := R) m1 t1) = IZR (t1 - t0) / 10 ^ 9) /\
  ((t1 < t0)%Z -> snd (mini_stop (T := R) m1 t1) = 0) /\
  snd (mini_stop (T := R) (mini_new t0) t1) = snd (mini_stop (T := R) m1 t1) /\
  (let m2 := fst (mini_stop (T := R) m1 t1) in mini_getTime (fst m2) (snd m2) = snd (mini_stop (T := R) m1 t1)) /\
  ((0 < t0)%Z -> @mini_getTime R _ (fst (mini_new t0)) (snd (mini_new t0)) = 0).
Proof.
  cbv zeta. unfold mini_stop, mini_start, mini_new, mini_getTime. cbn [fst snd]. split; [| split; [| split; [reflexivity | split; [reflexivity |]]]].
  - intros H. destruct (Z.ltb_spec t1 t0); [lia |]. rnum. f_equal. rewrite pow_IZR. reflexivity.
  - intros H. destruct (Z.ltb_spec t1 t0); [reflexivity | lia].
  - intros H. destruct (Z.ltb_spec 0 t0); [reflexivity | lia].
Qed.
Print Assumptions C71_mini_timer.
Example C71_mini_example : snd (mini_stop (T := R) (mini_start (mini_new 5) 10) 2000000010) = 2.
Proof. rewrite (proj1 (C71_mini_timer (mini_new 5) 10 2000000010)) by lia. replace (2000000010 - 10)%Z with (2 * 10 ^ 9)%Z by reflexivity. rewrite mult_IZR, pow_IZR. unfold Rdiv. rewrite Rmult_assoc, Rinv_r; [lra |]. apply not_0_IZR. discriminate. Qed.
