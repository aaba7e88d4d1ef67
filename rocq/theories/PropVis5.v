(** C76 (appendMarkers) and C82 (geometry and visibility of the vehicles): statements
    added after trying wrong programs. *)
From Coq Require Import ZArith Reals List Bool Lia Lra String.
From Verif Require Import Num RSum ModelVis SpecVis PropVis.
Import ListNotations.
Notation length := List.length.
Open Scope R_scope.

(** appendMarkers keeps what the array holds and adds the markers in order; an empty
    namespace leaves theirs, another one replaces it; nothing else changes. *)
Theorem C76_appendMarkers {T} {ops : NumOps T} (ms arr : list (marker T)) (ns : string) :
  exists new, appendMarkers ms ns arr = arr ++ new /\
    Forall2 (fun m m' => mk_ns m' = (if string_dec ns "" then mk_ns m else ns) /\
      (mk_frame m', mk_id m', mk_type m', mk_action m', mk_position m', mk_orientation m') = (mk_frame m, mk_id m, mk_type m, mk_action m, mk_position m, mk_orientation m) /\
      (mk_scale m', mk_color m', mk_lifetime m', mk_locked m', mk_points m', mk_colors m', mk_mesh m') =
      (mk_scale m, mk_color m, mk_lifetime m, mk_locked m, mk_points m, mk_colors m, mk_mesh m)) ms new.
Proof.
  eexists. split; [reflexivity|]. induction ms as [|m ms IH]; cbn [map]; constructor; [|exact IH].
  destruct (string_dec ns "") as [->|N]; [repeat split|]. apply String.eqb_neq in N. rewrite N. repeat split.
Qed.
Print Assumptions C76_appendMarkers.
Example C76_appendMarkers_example : map mk_ns (appendMarkers [set_ns marker_new "a"] "" [set_ns (T := R) marker_new "b"]) = ["b"; "a"]%string /\
  map mk_ns (appendMarkers [set_ns marker_new "a"] "c" [set_ns (T := R) marker_new "b"]) = ["b"; "c"]%string.
Proof. split; reflexivity. Qed.

(** A display keeps, of the markers with one namespace and id, the last one. *)
Definition displayed {A} (g : list (marker A)) (m : marker A) : Prop :=
  exists before after, g = before ++ m :: after /\ forall m', In m' after -> mk_ns m' = mk_ns m -> mk_id m' <> mk_id m.
(** What is seen of a marker. *)
Definition looks_same {A} (m m' : marker A) : Prop :=
  mk_type m = mk_type m' /\ mk_position m = mk_position m' /\ mk_orientation m = mk_orientation m' /\ mk_scale m = mk_scale m' /\ mk_color m = mk_color m' /\ mk_mesh m = mk_mesh m'.
(** Although ids repeat, nothing of the Leica is lost: every part is displayed, by this
    marker or by a copy of it. *)
Theorem C82_leica_visible {T} {ops : NumOps T} (cos15 : T) (m : marker T) : In m (leica cos15) ->
  exists m', displayed (leica cos15) m' /\ looks_same m m'.
Proof.
  assert (D : forall k, (k < 6)%nat -> k <> 1%nat -> displayed (leica cos15) (nth k (leica cos15) marker_new)).
  { intros k Hk N. exists (firstn k (leica cos15)), (skipn (S k) (leica cos15)).
    do 6 (destruct k as [|k]; [first [exfalso; apply N; reflexivity | split; [reflexivity|]; cbn; intros m' Hm; repeat (destruct Hm as [<-|Hm]; [cbn; intros _ ?; discriminate|]); destruct Hm]|]).
    lia. }
  intros Hm. destruct (In_nth _ _ marker_new Hm) as (k & Hk & <-). cbn [leica length] in Hk.
  destruct (Nat.eq_dec k 1) as [->|N].
  - exists (nth 0 (leica cos15) marker_new). split; [apply D; lia|]. repeat split.
  - exists (nth k (leica cos15) marker_new). split; [apply D; [exact Hk|exact N]|]. repeat split.
Qed.
Print Assumptions C82_leica_visible.
(** Each marker of the hexacopter is displayed. *)
Theorem C82_hexacopter_visible {T} {ops : NumOps T} (simple : bool) (m : marker T) : In m (hexacopter simple) -> displayed (hexacopter simple) m.
Proof.
  intros Hm. destruct (In_nth _ _ marker_new Hm) as (k & Hk & <-).
  exists (firstn k (hexacopter simple)), (skipn (S k) (hexacopter simple)).
  destruct simple; cbn [hexacopter group_setFrameLocked map app length] in Hk;
    do 9 (destruct k as [|k]; [first [exfalso; lia | split; [reflexivity|]; cbn; intros m' Hm'; repeat (destruct Hm' as [<-|Hm']; [cbn; intros _ ?; discriminate|]); destruct Hm']|]); lia.
Qed.
Print Assumptions C82_hexacopter_visible.
Example C82_visible_example : length (leica (T := R) 1) = 6%nat /\ length (hexacopter (T := R) true) = 9%nat /\ length (hexacopter (T := R) false) = 8%nat.
Proof. repeat split. Qed.

(** The rotors: six discs of diameter 0.2 in the plane of the body that do not touch,
    about 0.22 from the centre; the layout is symmetric about both axes. *)
Theorem C82_rotors (simple : bool) :
  let rotor i := nth i (hexacopter (T := R) simple) marker_new in
  (forall i, (i < 6)%nat -> mk_type (rotor i) = 3%Z /\ mk_scale (rotor i) = [1 / 5; 1 / 5; 1 / 100] /\ mk_orientation (rotor i) = [1; 0; 0; 0] /\
     nth 2 (mk_position (rotor i)) 1 = 0 /\ 219 / 1000 <= dist3 (mk_position (rotor i)) [0; 0; 0] <= 22 / 100) /\
  (forall i j, (i < j < 6)%nat -> 1 / 5 < dist3 (mk_position (rotor i)) (mk_position (rotor j))) /\
  (forall i, (i < 6)%nat -> exists j k, (j < 6)%nat /\ (k < 6)%nat /\
     mk_position (rotor j) = [nth 0 (mk_position (rotor i)) 0; - nth 1 (mk_position (rotor i)) 0; 0] /\
     mk_position (rotor k) = [- nth 0 (mk_position (rotor i)) 0; nth 1 (mk_position (rotor i)) 0; 0]).
Proof.
  cbv zeta.
  assert (P : map (fun i => mk_position (nth i (hexacopter (T := R) simple) marker_new)) (seq 0 6) =
    [[19/100; 11/100; 0]; [19/100; -(11/100); 0]; [0; 22/100; 0]; [0; -(22/100); 0]; [-(19/100); 11/100; 0]; [-(19/100); -(11/100); 0]]).
  { destruct simple; cbn; unfold nlit, n0; rnum; reflexivity. }
  set (pos i := mk_position (nth i (hexacopter (T := R) simple) marker_new)) in *.
  cbn [map seq] in P. assert (P' : forall i, (i < 6)%nat -> pos i = nth i [[19/100; 11/100; 0]; [19/100; -(11/100); 0]; [0; 22/100; 0]; [0; -(22/100); 0]; [-(19/100); 11/100; 0]; [-(19/100); -(11/100); 0]] []).
  { rewrite <- P. intros i Hi. do 6 (destruct i as [|i]; [reflexivity|]). lia. } clear P.
  split; [|split].
  - intros i Hi. split; [destruct simple; do 6 (destruct i as [|i]; [reflexivity|]); lia|].
    split; [destruct simple; do 6 (destruct i as [|i]; [cbn; unfold nlit; rnum; repeat (f_equal; try lra)|]); lia|].
    split; [destruct simple; do 6 (destruct i as [|i]; [reflexivity|]); lia|].
    fold (pos i). rewrite (P' i Hi).
    do 6 (destruct i as [|i]; [cbn [nth]; split; [reflexivity|]; unfold dist3; cbn [nth]; split;
      [apply Rsqr_incr_0_var; [rewrite Rsqr_sqrt; unfold Rsqr; lra|apply sqrt_pos]|apply Rsqr_incr_0_var; [rewrite Rsqr_sqrt; unfold Rsqr; lra|lra]]|]). lia.
  - intros i j (Hij & Hj). fold (pos i) (pos j). rewrite (P' i ltac:(lia)), (P' j Hj).
    do 6 (destruct i as [|i]; [do 6 (destruct j as [|j]; [first [exfalso; lia | unfold dist3; cbn [nth]; apply Rsqr_incrst_0; [rewrite Rsqr_sqrt; unfold Rsqr; lra|lra|apply sqrt_pos]]|]); lia|]). lia.
  - intros i Hi. exists (nth i [1; 0; 3; 2; 5; 4]%nat 0%nat), (nth i [4; 5; 2; 3; 0; 1]%nat 0%nat).
    do 6 (destruct i as [|i]; [cbn [nth]; split; [lia|]; split; [lia|]; 
       fold (pos 0%nat) (pos 1%nat) (pos 2%nat) (pos 3%nat) (pos 4%nat) (pos 5%nat); rewrite !P' by lia; cbn [nth]; split; repeat (f_equal; try lra)|]). lia.
Qed.
Print Assumptions C82_rotors.

(** The Leica stands: a leg of the given length leaning by the angle whose cosine is
    [c] reaches from the lower end of the head down by the height 1.35. *)
Theorem C82_leica_legs (c : R) (i : nat) : c <> 0 -> (i < 5)%nat ->
  let leg := nth i (leica c) marker_new in let head := nth 5 (leica c) marker_new in
  mk_type leg = 3%Z /\ nth 2 (mk_scale leg) 0 * c = 135 / 100 /\
  nth 2 (mk_position leg) 0 + nth 2 (mk_scale leg) 0 * c / 2 = nth 2 (mk_position head) 0 - nth 2 (mk_scale head) 0 / 2.
Proof.
  intros Hc Hi. cbv zeta.
  assert (E : nth 2 (mk_scale (nth i (leica c) marker_new)) 0 = 135 / 100 / c /\ nth 2 (mk_position (nth i (leica c) marker_new)) 0 = - (135 / 100 + 3 / 10) / 2).
  { do 5 (destruct i as [|i]; [cbn; unfold nlit; rnum; split; reflexivity|]). lia. }
  destruct E as (-> & ->). split; [do 5 (destruct i as [|i]; [reflexivity|]); lia|].
  replace (135 / 100 / c * c) with (135 / 100) by (field; exact Hc). split; [reflexivity|].
  cbn. unfold nlit, n0. rnum. lra.
Qed.
Print Assumptions C82_leica_legs.
Example C82_leica_legs_example : cos (15 / 180 * PI) <> 0 /\ (4 < 5)%nat.
Proof. split; [|lia]. apply Rgt_not_eq. apply cos_gt_0; pose proof PI_RGT_0; lra. Qed.
