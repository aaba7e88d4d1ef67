(** C97: the table of results of the benchmark and the trials of its main function. *)
From Coq Require Import ZArith List Bool String Ascii Lia.
From Verif Require Import Num ModelPolynomial ModelSegment ModelVertex ModelTrajectory ModelSampling ModelLinear ModelNonlinear ModelPlanner ModelVis ModelBench ModelReport SpecReport
  PropBench4.
Import ListNotations.
Notation length := List.length.
Notation concat := List.concat.
Open Scope string_scope.

Lemma app_assoc_s (a b c : string) : (a ++ b) ++ c = a ++ b ++ c.
Proof. induction a as [|x a IH]; cbn; [reflexivity|]. now rewrite IH. Qed.
Lemma split_cons c s : exists h t, split c s = h :: t.
Proof. destruct s as [|a s]; cbn [split]; [eauto|]. destruct (Ascii.eqb a c); [eauto|]. destruct (split c s); eauto. Qed.
Lemma split_no c s : ~ has c s -> split c s = [s].
Proof.
  induction s as [|a s IH]; intros H; [reflexivity|]. cbn [split]. cbn [has] in H.
  destruct (Ascii.eqb_spec a c); [tauto|]. rewrite IH by tauto. reflexivity.
Qed.
Lemma split_at c s t : ~ has c s -> split c (s ++ String c t) = s :: split c t.
Proof.
  induction s as [|a s IH]; intros H; cbn [append split]; [now rewrite Ascii.eqb_refl|].
  cbn [has] in H. destruct (Ascii.eqb_spec a c); [tauto|]. rewrite IH by tauto. reflexivity.
Qed.
Lemma has_app c s t : has c (s ++ t) <-> has c s \/ has c t.
Proof. induction s as [|a s IH]; cbn [append has]; [tauto|]. rewrite IH. tauto. Qed.

Lemma removelast_snoc {A} (l : list A) x : removelast (l ++ [x])%list = l.
Proof. apply removelast_last. Qed.

Definition terminated (l : list string) : string := fold_right (fun a t => (a ++ endl) ++ t) "" l.
Lemma lines_terminated l : Forall (fun s => ~ has "010" s) l -> lines (terminated l) = l.
Proof.
  intros H. assert (E : split "010" (terminated l) = (l ++ [""])%list).
  { induction H as [|a l Ha _ IH]; [reflexivity|]. cbn [terminated fold_right]. fold (terminated l). rewrite app_assoc_s.
    change (endl ++ terminated l) with (String "010" (terminated l)).
    rewrite split_at by exact Ha. rewrite IH. reflexivity. }
  unfold lines. rewrite E. apply removelast_snoc.
Qed.

Definition separated (l : list string) : string :=
  match l with [] => "" | a :: l' => a ++ fold_right (fun b t => ", " ++ b ++ t) "" l' end.
Lemma strip_plain s : ~ has " " s -> strip s = s.
Proof. destruct s as [|a s]; [reflexivity|]. cbn [has strip]. intros H. destruct a as [[] [] [] [] [] [] [] []]; try reflexivity. exfalso. tauto. Qed.
Lemma cells_separated a l : plain a -> Forall plain l -> cells (separated (a :: l)) = a :: l.
Proof.
  intros (Ha & _ & Hs) H. unfold cells, separated.
  assert (G : forall b, ~ has "," b -> split "," (b ++ fold_right (fun b t => ", " ++ b ++ t) "" l) = b :: map (String " ") l).
  { induction H as [|c l Hc _ IH]; intros b Hb; cbn [fold_right map].
    - assert (E : b ++ "" = b) by (clear; induction b as [|x b IH]; cbn; congruence). rewrite E. now apply split_no.
    - change (", " ++ c ++ fold_right (fun b t => ", " ++ b ++ t) "" l) with (String "," (String " " c ++ fold_right (fun b t => ", " ++ b ++ t) "" l)).
      rewrite split_at by exact Hb. rewrite IH; [reflexivity|]. cbn [has]. intros [K|K]; [discriminate|]. destruct Hc as (Q & _). tauto. }
  rewrite G by exact Ha. cbn [map]. rewrite strip_plain by exact Hs. f_equal. rewrite map_map. cbn [strip]. apply map_id.
Qed.

Section Table.
  Context {T : Type} {ops : NumOps T} (ti : Z -> string) (td : T -> string).
  Definition row (r : bench_result T) : list string := map (fun nf => snd nf r) (columns ti td).
  Lemma line_row r : result_line ti td r = separated (row r) ++ endl.
  Proof. unfold result_line, row, columns, separated. cbn [map snd fold_right]. rewrite !app_assoc_s. cbn [append]. reflexivity. Qed.
  Lemma table_terminated results :
    outputResultsToString ti td results = terminated (header :: map (fun r => separated (row r)) results).
  Proof.
    unfold outputResultsToString. cbn [terminated fold_right].
    assert (G : forall s, fold_left (fun s r => s ++ result_line ti td r) results s = s ++ terminated (map (fun r => separated (row r)) results)).
    { induction results as [|r l IH]; intros s; cbn [fold_left map terminated fold_right].
      - clear. induction s as [|x s IH]; cbn; congruence.
      - rewrite IH. fold (terminated (map (fun r => separated (row r)) l)). rewrite app_assoc_s, line_row. reflexivity. }
    rewrite G. reflexivity.
  Qed.
  Context (Hi : forall z, plain (ti z)) (Hd : forall x, plain (td x)).
  Lemma row_plain r : plain (br_method r) -> Forall plain (row r).
  Proof.
    intros H. unfold row, columns. cbn [map snd].
    assert (B : plain (if br_violated r then "1" else "0")).
    { destruct (br_violated r); repeat split; cbn; intuition discriminate. }
    repeat (constructor; [first [apply Hi|apply Hd|exact H|exact B]|]). constructor.
  Qed.
  Lemma separated_line a l : plain a -> Forall plain l -> ~ has "010" (separated (a :: l)).
  Proof.
    intros (_ & H & _) F. cbn [separated]. rewrite has_app. intros [K|K]; [tauto|]. revert K. induction F as [|b l Hb _ IH]; cbn [fold_right has append]; [tauto|].
    intros [K|[K|K]]; try discriminate. rewrite has_app in K. destruct Hb as (_ & Q & _). destruct K as [K|K]; tauto.
  Qed.
  Lemma header_cells : cells header = map fst (columns ti td).
  Proof. reflexivity. Qed.
  Lemma header_line : ~ has "010" header.
  Proof. unfold header. cbn [append has]. intuition discriminate. Qed.
End Table.

Lemma position_nth x l : forall c, position x l = Some c -> nth_error l c = Some x.
Proof.
  induction l as [|y l IH]; intros c H; [discriminate|]. cbn [position] in H. destruct (String.eqb_spec x y) as [->|N].
  - injection H as <-. reflexivity.
  - destruct (position x l) as [k|]; [|discriminate]. injection H as <-. cbn [nth_error]. now apply IH.
Qed.
Lemma column_position {T} (ti : Z -> string) (td : T -> string) name f : In (name, f) (columns ti td) ->
  exists c, position name (map fst (columns ti td)) = Some c /\ nth_error (columns ti td) c = Some (name, f).
Proof.
  unfold columns. cbn [In]. intros H.
  repeat (destruct H as [H|H]; [injection H as <- <-; eexists; (split; [reflexivity|]); reflexivity|]). destruct H.
Qed.

Theorem C97_table {T} {ops : NumOps T} (ti : Z -> string) (td : T -> string) (results : list (bench_result T)) :
  (forall z, plain (ti z)) -> (forall x, plain (td x)) -> (forall r, In r results -> plain (br_method r)) ->
  let table := outputResultsToString ti td results in
  length (lines table) = S (length results) /\
  (forall l, In l (lines table) -> length (cells l) = 14%nat) /\
  forall i r name f, nth_error results i = Some r -> In (name, f) (columns ti td) -> lookup table i name = Some (f r).
Proof.
  intros Hi Hd Hm table.
  assert (E : lines table = header :: map (fun r => separated (row ti td r)) results).
  { unfold table. rewrite table_terminated. apply lines_terminated. constructor; [apply header_line|].
    apply Forall_forall. intros s Hs. apply in_map_iff in Hs as (r & <- & Hr). apply separated_line.
    - apply Hi.
    - assert (P := row_plain ti td Hi Hd r (Hm r Hr)). inversion P; assumption. }
  assert (C : forall r, In r results -> cells (separated (row ti td r)) = row ti td r).
  { intros r Hr. apply cells_separated; [apply Hi|]. assert (P := row_plain ti td Hi Hd r (Hm r Hr)). inversion P; assumption. }
  split; [rewrite E; cbn [length]; now rewrite map_length|]. split.
  - intros l. rewrite E. intros [<-|H]; [reflexivity|]. apply in_map_iff in H as (r & <- & Hr). rewrite C by exact Hr. reflexivity.
  - intros i r name f Hr Hf. unfold lookup. rewrite E. rewrite (header_cells ti td).
    destruct (column_position ti td name f Hf) as (c & -> & Hc).
    rewrite nth_error_map, Hr. cbn [option_map]. rewrite C by (now apply nth_error_In in Hr).
    unfold row. rewrite nth_error_map, Hc. reflexivity.
Qed.
Print Assumptions C97_table.

Theorem C97_file {T} {ops : NumOps T} (ti : Z -> string) (td : T -> string) (fs : string -> option string) (filename : string) (results : list (bench_result T)) :
  outputResultsToFile ti td true fs filename results filename = Some (outputResultsToString ti td results) /\
  (forall f, f <> filename -> outputResultsToFile ti td true fs filename results f = fs f) /\
  forall f, outputResultsToFile ti td false fs filename results f = fs f.
Proof.
  unfold outputResultsToFile. split; [now rewrite String.eqb_refl|]. split; [|reflexivity].
  intros f N. destruct (String.eqb_spec f filename); [contradiction|reflexivity].
Qed.
Print Assumptions C97_file.

(** ** The trials of main. *)
Section Main.
  Context {T : Type} {ops : NumOps T}.
  Context (run : Z -> Z -> list (bench_result T) -> outcome (option (list (bench_result T)))) (ros_ok : Z -> bool).
  Context (block : Z * Z -> list (bench_result T) -> Prop).
  Context (Hrun : forall trial segments results results', run trial segments results = Ok (Some results') ->
    exists rs, results' = (results ++ rs)%list /\ block (trial, segments) rs).

  Definition schedule (n : nat) (segments trial : Z) : list (Z * Z) := map (fun j => ((trial + Z.of_nat j)%Z, segments)) (seq 0 n).
  Lemma schedule_S n segments trial : schedule (S n) segments trial = (trial, segments) :: schedule n segments (trial + 1).
  Proof.
    unfold schedule. cbn [seq map]. rewrite Z.add_0_r. f_equal. rewrite <- seq_shift, map_map. apply map_ext. intros j. f_equal. lia.
  Qed.
  Lemma trial_loop_blocks n segments : forall trial results trial' results',
    trial_loop run ros_ok n segments trial results = Ok (Some (inr (trial', results'))) ->
    trial' = (trial + Z.of_nat n)%Z /\ exists bs, results' = (results ++ concat bs)%list /\ Forall2 block (schedule n segments trial) bs.
  Proof.
    induction n as [|n IH]; intros trial results trial' results' H; cbn [trial_loop] in H.
    - injection H as <- <-. split; [lia|]. exists []. rewrite app_nil_r. split; [reflexivity|constructor].
    - destruct (run trial segments results) as [[r|]| | |] eqn:E; cbn [obind] in H; try discriminate.
      destruct (ros_ok trial); [|discriminate]. apply IH in H as (-> & bs & -> & F). split; [lia|].
      apply Hrun in E as (rs & -> & B). exists (rs :: bs). cbn [concat]. rewrite app_assoc. split; [reflexivity|].
      rewrite schedule_S. constructor; assumption.
  Qed.
  Fixpoint schedules (sv : list Z) (trial : Z) : list (Z * Z) :=
    match sv with [] => [] | s :: sv' => (schedule num_trial_per_num_segments s trial ++ schedules sv' (trial + 5))%list end.
  Lemma segments_loop_blocks sv : forall trial results trial' results',
    segments_loop run ros_ok sv trial results = Ok (Some (inr (trial', results'))) ->
    exists bs, results' = (results ++ concat bs)%list /\ Forall2 block (schedules sv trial) bs.
  Proof.
    induction sv as [|s sv IH]; intros trial results trial' results' H; cbn [segments_loop] in H.
    - injection H as <- <-. exists []. rewrite app_nil_r. split; [reflexivity|constructor].
    - destruct (trial_loop run ros_ok num_trial_per_num_segments s trial results) as [[[r|[t r]]|]| | |] eqn:E; cbn [obind] in H; try discriminate.
      apply trial_loop_blocks in E as (-> & bs & -> & F). apply IH in H as (bs' & -> & F').
      exists (bs ++ bs')%list. rewrite concat_app, app_assoc. split; [reflexivity|]. cbn [schedules]. apply Forall2_app; assumption.
  Qed.
  (** The loops end early only after a trial for which ros::ok() is false. *)
  Lemma trial_loop_stop n segments : forall trial results results', trial_loop run ros_ok n segments trial results = Ok (Some (inl results')) ->
    exists k, (trial <= k < trial + Z.of_nat n)%Z /\ ros_ok k = false.
  Proof.
    induction n as [|n IH]; intros trial results results' H; cbn [trial_loop] in H; [discriminate|].
    destruct (run trial segments results) as [[r|]| | |] eqn:E; cbn [obind] in H; try discriminate.
    destruct (ros_ok trial) eqn:O; [|exists trial; split; [lia|exact O]]. apply IH in H as (k & K & O'). exists k. split; [lia|exact O'].
  Qed.
  Lemma trial_loop_time n segments : forall trial results trial' results', trial_loop run ros_ok n segments trial results = Ok (Some (inr (trial', results'))) ->
    trial' = (trial + Z.of_nat n)%Z.
  Proof.
    induction n as [|n IH]; intros trial results trial' results' H; cbn [trial_loop] in H; [injection H as <- _; lia|].
    destruct (run trial segments results) as [[r|]| | |] eqn:E; cbn [obind] in H; try discriminate.
    destruct (ros_ok trial); [|discriminate]. apply IH in H. lia.
  Qed.
  Lemma segments_loop_stop sv : forall trial results results', segments_loop run ros_ok sv trial results = Ok (Some (inl results')) ->
    exists k, (trial <= k < trial + 5 * Z.of_nat (length sv))%Z /\ ros_ok k = false.
  Proof.
    induction sv as [|s sv IH]; intros trial results results' H; cbn [segments_loop] in H; [discriminate|].
    destruct (trial_loop run ros_ok num_trial_per_num_segments s trial results) as [[[r|[t r]]|]| | |] eqn:E; cbn [obind] in H; try discriminate.
    - apply trial_loop_stop in E as (k & K & O). exists k. split; [|exact O]. cbn [length]. unfold num_trial_per_num_segments in K. lia.
    - apply trial_loop_time in E. subst t. apply IH in H as (k & K & O). exists k. split; [|exact O]. cbn [length]. unfold num_trial_per_num_segments in K. lia.
  Qed.
End Main.

Lemma schedules_all : schedules num_segments_vector 0 = map (fun k => (Z.of_nat k, nth (k / 5) [1; 2; 5; 10; 20; 30; 40; 50]%Z 0%Z)) (seq 0 40).
Proof. reflexivity. Qed.

Lemma concat_blocks {A} (bs : list (list A)) : forall n k j, Forall (fun b => length b = n) bs -> (j < n)%nat ->
  nth_error (concat bs) (n * k + j) = match nth_error bs k with Some b => nth_error b j | None => None end.
Proof.
  induction bs as [|b bs IH]; intros n k j F J; cbn [concat].
  - destruct k; cbn [nth_error]; destruct (n * _ + j)%nat; reflexivity.
  - inversion F as [|? ? Hb Fb]; subst. destruct k as [|k]; cbn [nth_error].
    + rewrite Nat.mul_0_r, Nat.add_0_l. apply nth_error_app1. exact J.
    + rewrite nth_error_app2 by lia. rewrite <- (IH (length b) k j Fb J). f_equal. lia.
Qed.
Lemma Forall2_len {A B} (P : A -> B -> Prop) l l' : Forall2 P l l' -> length l = length l'.
Proof. induction 1; cbn [length]; congruence. Qed.
Lemma Forall2_nth_error {A B} (P : A -> B -> Prop) l l' : Forall2 P l l' -> forall k x, nth_error l k = Some x -> exists y, nth_error l' k = Some y /\ P x y.
Proof.
  induction 1 as [|x y l l' H _ IH]; intros [|k] z E; try discriminate; cbn [nth_error] in *; [injection E as <-; eauto|eauto].
Qed.

(** Whatever the optimisers, times and random vertices are: main either returns 1 because ROS was shut
    down after one of the 40 trials and writes nothing, or goes through all of them; then the file output_path (if
    a path is given and can be opened) has 320 lines below the header, eight for each trial, and says so. *)
Theorem C97_main {T} {ops : NumOps T} inv solve rf fexp mav (v a : T) fuel nlopt clock visualize frame vertices (ros_ok : Z -> bool)
    (ti : Z -> string) (td : T -> string) (can_open : bool) (path : string) (fs fs' : string -> option string) (code : option Z) :
  (forall z, plain (ti z)) -> (forall x, plain (td x)) ->
  bench_main ti td (run_trial inv solve rf fexp mav v a fuel nlopt clock visualize frame vertices) ros_ok can_open path fs = Ok (Some (code, fs')) ->
  (code = Some 1%Z /\ (forall f, fs' f = fs f) /\ exists k, (0 <= k < 40)%Z /\ ros_ok k = false) \/
  (code = None /\
   (forall f, f <> path \/ can_open = false \/ path = "" -> fs' f = fs f) /\
   (can_open = true -> path <> "" -> exists table results, fs' path = Some table /\
      length (lines table) = 321%nat /\ length results = 320%nat /\
      (* the table is that of the results *)
      (forall i r name f, nth_error results i = Some r -> In (name, f) (columns ti td) -> lookup table i name = Some (f r)) /\
      (* trial k: segments 1, 1, 1, 1, 1, 2, ..., 50 and the eight methods *)
      forall k j, (k < 40)%nat -> (j < 8)%nat ->
        let segments := nth (k / 5) [1; 2; 5; 10; 20; 30; 40; 50]%Z 0%Z in
        lookup table (8 * k + j) "trial_number" = Some (ti (Z.of_nat k)) /\
        lookup table (8 * k + j) "num_segments" = Some (ti segments) /\
        lookup table (8 * k + j) "method_name" =
          nth_error ["nfabian"; "trapezoidal"; "segment_violation_scaling"; "nonlinear_time_only"; "nonlinear"; "nonlinear_richter";
                     "mellinger_outer_loop"; "mellinger_outer_loop_trapezoidal_init"] j /\
        exists vs nominal r m, vertices (Z.of_nat k) segments = Ok (Some vs) /\ nominalLength vs = Ok nominal /\
          nth_error results (8 * k + j) = Some r /\ nth_error all_methods j = Some m /\
          reports inv solve rf fexp mav v a fuel (nlopt (Z.of_nat k)) (clock (Z.of_nat k)) vs (Z.of_nat k) segments nominal m r)).
Proof.
  intros Hi Hd H. unfold bench_main in H.
  set (run := run_trial inv solve rf fexp mav v a fuel nlopt clock visualize frame vertices) in *.
  destruct (segments_loop run ros_ok num_segments_vector 0 []) as [[[r|[t results]]|]| | |] eqn:E; cbn [obind] in H; try discriminate.
  { left. injection H as <- <-. apply segments_loop_stop in E as (k & K & O). split; [reflexivity|]. split; [reflexivity|]. exists k. split; [exact K|exact O]. }
  right.
  set (block := fun (ts : Z * Z) (rs : list (bench_result T)) =>
    exists vs nominal, vertices (fst ts) (snd ts) = Ok (Some vs) /\ nominalLength vs = Ok nominal /\
      Forall2 (reports inv solve rf fexp mav v a fuel (nlopt (fst ts)) (clock (fst ts)) vs (fst ts) (snd ts) nominal) all_methods rs).
  destruct (segments_loop_blocks run ros_ok block) with (sv := num_segments_vector) (trial := 0%Z) (results := @nil (bench_result T)) (trial' := t) (results' := results) as (bs & R & F); [|exact E|].
  { intros trial segments res res' K. unfold run, run_trial in K.
    destruct (vertices trial segments) as [[vs|]| | |] eqn:V; cbn [obind] in K; try discriminate.
    destruct (runBenchmark inv solve rf fexp mav v a fuel (nlopt trial) (clock trial) visualize frame trial segments vs res) as [[[res2 mks]|]| | |] eqn:Rb; cbn [obind option_map fst] in K; try discriminate.
    injection K as <-. apply C90_results in Rb as (nominal & rs & _ & N & -> & Fr & _). exists rs. split; [reflexivity|].
    exists vs, nominal. cbn [fst snd]. auto. }
  cbn [app] in R. rewrite schedules_all in F.
  assert (L8 : Forall (fun b => length b = 8%nat) bs).
  { clear - F. induction F as [|x b l l' (vs & nominal & _ & _ & Fb) _ IH]; constructor; [|exact IH]. apply Forall2_len in Fb. now rewrite <- Fb. }
  assert (Lb : length bs = 40%nat) by (apply Forall2_len in F; now rewrite <- F, map_length, seq_length).
  assert (Lr : length results = 320%nat).
  { rewrite R. assert (G : forall (l : list (list (bench_result T))), Forall (fun b => length b = 8%nat) l -> length (concat l) = (8 * length l)%nat).
    { induction 1 as [|b l Hb _ IH]; [reflexivity|]. cbn [concat]. rewrite app_length, IH, Hb. cbn [length]. lia. }
    rewrite G by exact L8. now rewrite Lb. }
  assert (Bl : forall k j, (k < 40)%nat -> (j < 8)%nat -> let segments := nth (k / 5) [1; 2; 5; 10; 20; 30; 40; 50]%Z 0%Z in
     exists vs nominal r m, vertices (Z.of_nat k) segments = Ok (Some vs) /\ nominalLength vs = Ok nominal /\
          nth_error results (8 * k + j) = Some r /\ nth_error all_methods j = Some m /\
          reports inv solve rf fexp mav v a fuel (nlopt (Z.of_nat k)) (clock (Z.of_nat k)) vs (Z.of_nat k) segments nominal m r).
  { intros k j K J segments. destruct (Forall2_nth_error _ _ _ F k (Z.of_nat k, segments)) as (b & Eb & vs & nominal & V & N & Fb).
    { rewrite nth_error_map. assert (Es : nth_error (seq 0 40) k = Some k).
      { rewrite nth_error_nth' with (d := 0%nat) by (rewrite seq_length; exact K). rewrite seq_nth by exact K. reflexivity. }
      rewrite Es. reflexivity. }
    cbn [fst snd] in V, N, Fb. destruct (nth_error all_methods j) as [m|] eqn:M; [|apply nth_error_None in M; cbn in M; lia].
    destruct (Forall2_nth_error _ _ _ Fb j m M) as (r & Er & Re). exists vs, nominal, r, m. repeat split; try assumption.
    - rewrite R. rewrite (concat_blocks bs 8 k j L8 J), Eb. exact Er.
    all: apply Re. }
  assert (Pm : forall r, In r results -> plain (br_method r)).
  { intros r Hr. rewrite R in Hr. apply in_concat in Hr as (b & Hb & Hr).
    assert (G : exists ts, block ts b).
    { clear - F Hb. induction F as [|x y l l' P _ IH]; [destruct Hb|]. destruct Hb as [<-|Hb]; [eauto|auto]. }
    destruct G as (ts & vs & nominal & _ & _ & Fb). clear - Fb Hr.
    assert (G : exists m, br_method r = method_name m).
    { induction Fb as [|m y l l' (_ & P & _) _ IH]; [destruct Hr|]. destruct Hr as [<-|Hr]; [eauto|auto]. }
    destruct G as (m & ->). destruct m; repeat split; cbn; intuition discriminate. }
  injection H as <- <-. split; [reflexivity|]. split.
  { intros f Hf. destruct (String.eqb_spec path "") as [->|Np]; [reflexivity|]. cbn [negb]. unfold outputResultsToFile.
    destruct can_open; [|reflexivity]. destruct (String.eqb_spec f path) as [->|]; [|reflexivity]. intuition congruence. }
  intros -> Np. destruct (String.eqb_spec path "") as [Q|_]; [contradiction|]. cbn [negb].
  destruct (C97_table ti td results Hi Hd Pm) as (Ll & _ & Lk).
  exists (outputResultsToString ti td results), results.
  split; [apply C97_file|]. split; [now rewrite Ll, Lr|]. split; [exact Lr|]. split; [exact Lk|].
  intros k j K J. destruct (Bl k j K J) as (vs & nominal & r & m & V & N & Er & M & Re).
  destruct Re as (Tr & Me & Sg & Re). assert (Re' := conj Tr (conj Me (conj Sg Re))).
  split; [|split; [|split]].
  - rewrite (Lk _ r "trial_number" (fun r => ti (br_trial r)) Er); [now rewrite Tr|]. unfold columns. cbn [In]. tauto.
  - rewrite (Lk _ r "num_segments" (fun r => ti (br_segments r)) Er); [now rewrite Sg|]. unfold columns. cbn [In]. tauto.
  - rewrite (Lk _ r "method_name" br_method Er); [|unfold columns; cbn [In]; tauto]. rewrite Me.
    transitivity (nth_error (map method_name all_methods) j); [|reflexivity]. rewrite nth_error_map, M. reflexivity.
  - exists vs, nominal, r, m. auto 10.
Qed.
Print Assumptions C97_main.

(** A table with one result. *)
Example C97_example : let ti := fun z => if Z.eqb z 3 then "3" else "7" in let td := fun x : Z => "0.5" in
  let r := (@mkResult Z 3 "nfabian"%string 7 1 1 true 1 1 1 1 1 1 1 1)%Z in
  (forall z, plain (ti z)) /\ (forall x, plain (td x)) /\ (forall r', In r' [r] -> plain (br_method r')) /\
  lines (outputResultsToString ti td [r]) =
    ["trial_number, method_name, num_segments, optimization_success, nominal_length, trajectory_length, trajectory_time, computation_time, bounds_violated, v_max, a_max, cost, max_dist_sl_traj, area_traj_sl";
     "3, nfabian, 7, 7, 0.5, 0.5, 0.5, 0.5, 1, 0.5, 0.5, 0.5, 0.5, 0.5"].
Proof.
  intros ti td r. split; [|split; [|split]].
  - intros z. unfold ti. destruct (Z.eqb z 3); repeat split; cbn; intuition discriminate.
  - intros x. repeat split; cbn; intuition discriminate.
  - intros r' [<-|[]]. repeat split; cbn; intuition discriminate.
  - reflexivity.
Qed.

(** Main in fixed point numbers, each trial on the two vertices of the example of C90. *)
Definition ex_trial : Z -> Z -> list (bench_result Z) -> outcome (option (list (bench_result Z))) :=
  @run_trial Z Fix_ops (fun m => m) (fun A b => map (fun _ => 0%Z) b) (fun _ => (true, [])) (fun _ => 0%Z) ex_mav
    (10 * 10 ^ 9)%Z (10 * 10 ^ 9)%Z 40 (fun _ m => ex_nlopt (match m with MellingerOuterLoop | MellingerTrapezoidalInit => true | _ => false end)) (fun _ _ => 7%Z) false "world"
    (fun _ _ => Ok (Some [ex_vertex 0%Z; ex_vertex (125 * 10 ^ 6)%Z])).
Definition ran {A} (x : outcome (option A)) : bool := match x with Ok (Some _) => true | _ => false end.
Lemma ran_inv {A} (x : outcome (option A)) : ran x = true -> exists a, x = Ok (Some a).
Proof. destruct x as [[a|]| | |]; try discriminate. intros _. now exists a. Qed.
Lemma ex_trial_ran trial segments results : ran (ex_trial trial segments results) = true.
Proof. vm_compute. reflexivity. Qed.
Definition ros_stays (k : Z) : bool := true.
Definition ros_stops (k : Z) : bool := Z.ltb k 2.
Section AnyRun.
  Context (run : Z -> Z -> list (bench_result Z) -> outcome (option (list (bench_result Z)))).
  Context (Hrun : forall trial segments results, ran (run trial segments results) = true).
  Lemma ex_trial_loop n segments : forall trial results, exists x, trial_loop run ros_stays n segments trial results = Ok (Some (inr x)).
  Proof.
    induction n as [|n IH]; intros trial results; cbn [trial_loop]; [eauto|].
    destruct (ran_inv _ (Hrun trial segments results)) as (r & ->). cbn [obind ros_stays]. apply IH.
  Qed.
  Lemma ex_segments_loop sv : forall trial results, exists x, segments_loop run ros_stays sv trial results = Ok (Some (inr x)).
  Proof.
    induction sv as [|s sv IH]; intros trial results; cbn [segments_loop]; [eauto|].
    destruct (ex_trial_loop num_trial_per_num_segments s trial results) as ([t r] & ->). cbn [obind]. apply IH.
  Qed.
  Lemma ex_main : exists (ti : Z -> string) (td : Z -> string), (forall z, plain (ti z)) /\ (forall x, plain (td x)) /\
    (exists fs, bench_main ti td run ros_stays true "out.csv" (fun _ => None) = Ok (Some (None, fs))) /\
    exists fs, bench_main ti td run ros_stops true "out.csv" (fun _ => None) = Ok (Some (Some 1%Z, fs)).
  Proof.
    exists (fun z => if Z.eqb z 39 then "39" else "7"), (fun _ => "0.5").
    split; [intros z; destruct (Z.eqb z 39); repeat split; cbn; intuition discriminate|].
    split; [intros x; repeat split; cbn; intuition discriminate|]. split; unfold bench_main.
    - destruct (ex_segments_loop num_segments_vector 0 []) as ([t r] & ->). cbn [obind]. eauto.
    - unfold num_segments_vector. cbn [segments_loop]. unfold num_trial_per_num_segments. cbn [trial_loop].
      destruct (ran_inv _ (Hrun 0%Z 1%Z [])) as (r0 & ->). cbn [obind]. change (ros_stops 0) with true. cbn [Z.add].
      destruct (ran_inv _ (Hrun 1%Z 1%Z r0)) as (r1 & ->). cbn [obind]. change (ros_stops 1) with true. cbn [Z.add Pos.add Pos.succ].
      destruct (ran_inv _ (Hrun 2%Z 1%Z r1)) as (r2 & ->). cbn [obind]. change (ros_stops 2) with false. cbn [obind]. eauto.
  Qed.
End AnyRun.
Example C97_main_example : exists (ti : Z -> string) (td : Z -> string), (forall z, plain (ti z)) /\ (forall x, plain (td x)) /\
  (exists fs, bench_main ti td ex_trial ros_stays true "out.csv" (fun _ => None) = Ok (Some (None, fs))) /\
  exists fs, bench_main ti td ex_trial ros_stops true "out.csv" (fun _ => None) = Ok (Some (Some 1%Z, fs)).
Proof. exact (ex_main ex_trial ex_trial_ran). Qed.
