(** Model of the output and of the main function of the time allocation benchmark
    (mav_trajectory_generation_ros/src/time_evaluation_node.cpp, cited by lines). *)
From Coq Require Import ZArith List Bool String Ascii.
From Verif Require Import Num ModelPolynomial ModelSegment ModelVertex ModelTrajectory ModelSampling ModelLinear ModelNonlinear ModelPlanner ModelVis ModelBench.
Import ListNotations.
Notation length := List.length.
Open Scope string_scope.

(** std::endl (815, 827), flushing left out. *)
Definition endl : string := String "010" "".

Section Report.
  Context {T : Type} {ops : NumOps T}.
  (** The text of an int and of a double on a std::stringstream (812; six significant
      digits); a bool is written as 1 or 0. *)
  Context (text_of_int : Z -> string) (text_of_double : T -> string).

  (** 813-815: the three string literals. *)
  Definition header : string :=
    "trial_number, method_name, num_segments, optimization_success, " ++
    "nominal_length, trajectory_length, trajectory_time, computation_time, " ++
    "bounds_violated, v_max, a_max, cost, max_dist_sl_traj, area_traj_sl".
  (** 817-826: one line of the loop. *)
  Definition result_line (r : bench_result T) : string :=
    text_of_int (br_trial r) ++ ", " ++ br_method r ++ ", " ++
    text_of_int (br_segments r) ++ ", " ++ text_of_int (br_success r) ++
    ", " ++ text_of_double (br_nominal r) ++ ", " ++
    text_of_double (br_length r) ++ ", " ++ text_of_double (br_time r) ++
    ", " ++ text_of_double (br_computation r) ++ ", " ++
    (if br_violated r then "1" else "0") ++ ", " ++ text_of_double (br_v_max r) ++ ", " ++
    text_of_double (br_a_max r) ++ ", " ++ text_of_double (br_cost r) ++ ", " ++
    text_of_double (br_max_dist r) ++ ", " ++
    text_of_double (br_area r) ++ endl.
  (** 809-830 outputResultsToString. *)
  Definition outputResultsToString (results : list (bench_result T)) : string :=
    fold_left (fun s r => s ++ result_line r) results (header ++ endl).
  (** 832-845 outputResultsToFile: the files afterwards; can_open: fopen succeeds.
      fopen with "w+" empties the file; errors of fprintf are left out. *)
  Definition outputResultsToFile (can_open : bool) (fs : string -> option string) (filename : string) (results : list (bench_result T))
    : string -> option string :=
    if can_open then fun f => if String.eqb f filename then Some (outputResultsToString results) else fs f else fs.

  (** 860-861. *)
  Definition num_trial_per_num_segments : nat := 5.
  Definition num_segments_vector : list Z := [1; 2; 5; 10; 20; 30; 40; 50]%Z.
  (** What main does to the object: run trial segments results is results_ after
      runBenchmark(trial, segments) (None: the fuel of a loop is used up); ros_ok: ros::ok()
      after the trial.  The sum type: inl is the end of main with return 1 (882), inr the
      trial number and results_ after the loops. *)
  Context (run : Z -> Z -> list (bench_result T) -> outcome (option (list (bench_result T)))) (ros_ok : Z -> bool).
  (** 870-885: the inner loop over j. *)
  Fixpoint trial_loop (n : nat) (segments trial : Z) (results : list (bench_result T)) : outcome (option (list (bench_result T) + Z * list (bench_result T))) :=
    match n with
    | O => Ok (Some (inr (trial, results)))
    | S n' => r <-- run trial segments results ;;
              match r with
              | None => Ok None
              | Some results' => if ros_ok trial then trial_loop n' segments (trial + 1) results' else Ok (Some (inl results'))
              end
    end.
  (** 869-886: the outer loop over i. *)
  Fixpoint segments_loop (sv : list Z) (trial : Z) (results : list (bench_result T)) : outcome (option (list (bench_result T) + Z * list (bench_result T))) :=
    match sv with
    | [] => Ok (Some (inr (trial, results)))
    | s :: sv' => r <-- trial_loop num_trial_per_num_segments s trial results ;;
                  match r with
                  | Some (inr (trial', results')) => segments_loop sv' trial' results'
                  | other => Ok other
                  end
    end.
  (** 849-902 main: the exit code if it returns before ros::spin (901) and the files; node set-up,
      log output, the waits (877-880) and the timing table (899) are left out. *)
  Definition bench_main (can_open : bool) (output_path : string) (fs : string -> option string) : outcome (option (option Z * (string -> option string))) :=
    r <-- segments_loop num_segments_vector 0 [] ;;
    match r with
    | None => Ok None
    | Some (inl _) => Ok (Some (Some 1%Z, fs))
    | Some (inr (_, results)) =>
        Ok (Some (None, if negb (String.eqb output_path "") then outputResultsToFile can_open fs output_path results else fs))
    end.
End Report.

Section Run.
  Context {T : Type} {ops : NumOps T}.
  (** 143-340 runBenchmark(trial, segments) on the object: vertices trial segments is the result
      of createRandomVertices (152-153), whose generator is seeded with the trial number; nlopt and
      the measured times may differ from trial to trial; the published markers are left out. *)
  Definition run_trial inv solve rf fexp mav (v_max a_max : T) fuel nlopt clock visualize frame (vertices : Z -> Z -> outcome (option (list (vertex T))))
      (trial segments : Z) (results : list (bench_result T)) : outcome (option (list (bench_result T))) :=
    vs <-- vertices trial segments ;;
    match vs with
    | None => Ok None
    | Some vs => r <-- runBenchmark inv solve rf fexp mav v_max a_max fuel (nlopt trial) (clock trial) visualize frame trial segments vs results ;;
                 Ok (option_map fst r)
    end.
End Run.
