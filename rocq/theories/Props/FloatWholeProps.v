(** Whole runs with doubles end as documented when no coefficient is next to a
    threshold (C106). *)
From Coq Require Import String List ZArith QArith Bool Arith Lia.
From Verif.Base Require Import Py Num XNum Paths B64.
From Verif.Model Require Import Mech World Metrics Drivers Sensitivity Simulation Sampling Inputs Main Cli FloatDrivers FloatRun DoubleError
  FloatMain Pool PoolMain Program.
From Verif.Spec Require Import TrimSpec Samples MetricSpec DriverSpec DriverSamples SensitivitySpec SimSpec SamplingSpec InputSpec ArgsSpec
  MainSpec MainSamples CliSpec FloatSpec FloatSamples FloatRunSpec FloatMainSpec FloatMainSamples FloatAgreeSpec ProgramSpec ProgramSamples
  FloatWholeSpec FloatWholeSamples.
From Verif.Proofs Require Import FloatWholeFacts FloatWholeEx ProgramEx.
Import ListNotations.
Local Open Scope string_scope.

(** C106: for any number of processes [main] returns, and every run that ends
    returns, the model that the documented search with exact coefficients and
    thresholds gives; it is within the limit and written to its file.
    ([NoFuel] stands for a run that does not end.) *)
Theorem main_writes_documented :
  forall me n K rates floor C a B w sol ref rops cpus threads j k,
    (1 <= cpus)%Z -> (0 <= threads)%Z ->
    prepared K C a w sol -> double_posed K rates floor C a sol -> a_method a = method_name me -> a_sa a = false ->
    documented_at me n K rates floor C a B sol ref rops j k ->
    exists r w', main_procs cpus threads B K rates floor C a w (Ok r) w' /\
      (forall x w2, main_procs cpus threads B K rates floor C a w x w2 -> x <> NoFuel -> x = Ok r /\ w2 = w') /\
      cut_to (job_for K floor C a) sol (xkept me (job_for K floor C a) sol rops (times k (start_at j))) (r_model r) /\
      xle (r_error r) (a_limit a) = true /\
      w_fs w' (path_join (a_path a) (reduced_name (n_species (r_model r)))) = Some (FMech [r_model r]).
Proof. intros. eapply procs_documented; eauto. Qed.
Print Assumptions main_writes_documented.

(** B takes a quarter of a percent of A and is needed: the start 0.01 fails,
    0.001 and 0.002 are fine. *)
Example main_writes_documented_case :
  prepared (eighth_machine "B") (cases_with "A") fork_main fork_world fork /\
  double_posed (eighth_machine "B") (steady_rates [25; 9975]%Z) None (cases_with "A") fork_main fork /\
  documented_at DRG 2 (eighth_machine "B") (steady_rates [25; 9975]%Z) None (cases_with "A") fork_main toy_limits
    fork [Fin (4 # 8)] (fork_sampled 25 9975) 1 2.
Proof.
  split; [exact fork_prepared|]. split; [apply fork_posed; vm_compute; reflexivity|exact quarter_documented].
Qed.

(** C106: sensitivity analysis after it removes species of that model only, and
    stays within the limit. *)
Theorem main_analyses_documented :
  forall me n K rates floor C a B w sol ref rops cpus threads j k r w',
    (1 <= cpus)%Z -> (0 <= threads)%Z ->
    prepared K C a w sol -> double_posed K rates floor C a sol -> a_method a = method_name me ->
    a_sa a = true -> temps_ok w (a_path a) B ->
    documented_at me n K rates floor C a B sol ref rops j k ->
    main_procs cpus threads B K rates floor C a w (Ok r) w' ->
    exists m, cut_to (job_for K floor C a) sol (xkept me (job_for K floor C a) sol rops (times k (start_at j))) m /\
      sublist (m_species (r_model r)) (m_species m) /\ xle (r_error r) (a_limit a) = true.
Proof. intros. eapply procs_analysed with (n := n); eauto. Qed.
Print Assumptions main_analyses_documented.

(** Analysis then removes C, without which the delay is the same. *)
Example main_analyses_documented_case :
  prepared (eighth_machine "B") (cases_with "A") fork_analysed fork_world fork /\
  double_posed (eighth_machine "B") (steady_rates [25; 9975]%Z) None (cases_with "A") fork_analysed fork /\
  temps_ok fork_world "out" toy_limits /\
  documented_at DRG 2 (eighth_machine "B") (steady_rates [25; 9975]%Z) None (cases_with "A") fork_analysed toy_limits
    fork [Fin (4 # 8)] (fork_sampled 25 9975) 1 2 /\
  view (fmain toy_limits (eighth_machine "B") (steady_rates [25; 9975]%Z) None (cases_with "A") fork_analysed fork_world) =
    Ok (["A"; "B"], "reduced_2.yaml", Fin 0, []).
Proof. exact quarter_analysed. Qed.

(** C106: when every start fails, no number of processes makes [main] return a
    model; one process exits. *)
Theorem main_gives_up_as_documented :
  forall me n K rates floor C a B w sol ref rops cpus threads,
    (1 <= cpus)%Z -> (0 <= threads)%Z ->
    prepared K C a w sol -> double_posed K rates floor C a sol -> a_method a = method_name me ->
    fails_at_all me n K rates floor C a B sol ref rops ->
    (forall r w', ~ main_procs cpus threads B K rates floor C a w (Ok r) w') /\
    (threads = 1%Z -> forall x w', main_procs cpus threads B K rates floor C a w x w' -> x = Raise SystemExit).
Proof. intros. eapply procs_gives_up; eauto. Qed.
Print Assumptions main_gives_up_as_documented.

Example main_gives_up_as_documented_case :
  prepared (eighth_machine "B") (cases_with "A") fork_main fork_world fork /\
  double_posed (eighth_machine "B") (steady_rates [1; 9999999]%Z) None (cases_with "A") fork_main fork /\
  fails_at_all DRG 2 (eighth_machine "B") (steady_rates [1; 9999999]%Z) None (cases_with "A") fork_main toy_limits
    fork [Fin (4 # 8)] (fork_sampled 1 9999999).
Proof.
  split; [exact fork_prepared|]. split; [apply fork_posed; vm_compute; reflexivity|exact trace_fails].
Qed.

(** C106: the same from the arguments of the program and its input file. *)
Theorem program_writes_documented :
  forall read convert other cpus B K rates l ss i th tr p nt w d I d' a C floor sol me,
    spelled l ss -> asked ss (Reduce i th tr p nt) -> (1 <= cpus)%Z -> (0 <= nt)%Z ->
    read i w = (Ok (YDict d), w) -> parse_inputs (YDict d) w = (Ok (I, d'), w) -> yaml_name (in_model I) = true ->
    hands I p a C floor -> blank (in_sa I) -> in_method I = YStr (method_name me) -> prepared K C a w sol ->
    exists a', in_doubles a a' /\
    forall n ref rops j k, double_posed K rates floor C a' sol -> documented_at me n K rates floor C a' B sol ref rops j k ->
    exists m w', program read convert other cpus B K rates l w (Ok tt) w' /\
      (forall x w2, program read convert other cpus B K rates l w x w2 -> x <> NoFuel -> x = Ok tt /\ w2 = w') /\
      cut_to (job_for K floor C a') sol (xkept me (job_for K floor C a') sol rops (times k (start_at j))) m /\
      w_fs w' (path_join p (reduced_name (n_species m))) = Some (FMech [m]).
Proof. exact prog_documented_doubles. Qed.
Print Assumptions program_writes_documented.

(** The hypotheses hold for no, one and four processes. *)
Example program_writes_documented_case :
  (forall n z, In (n, z) [("4", 4%Z); ("0", 0%Z); ("1", 1%Z)] ->
     exists ss, spelled (run_args n) ss /\ asked ss (Reduce "in.yaml" None None "out" z)) /\
  (exists I d', parse_inputs (YDict fork_file) fork_world = (Ok (I, d'), fork_world) /\
     hands I "out" fork_main (cases_with "A") None /\ blank (in_sa I) /\ in_method I = YStr (method_name DRG) /\
     yaml_name (in_model I) = true) /\
  prepared (eighth_machine "B") (cases_with "A") fork_main fork_world fork /\
  forall n, In n ["4"; "0"; "1"] -> exists m w', fork_program 25 9975 (run_args n) fork_world (Ok tt) w' /\
    species_names m = ["A"; "B"; "C"] /\ w_fs w' "out/reduced_3.yaml" = Some (FMech [m]).
Proof. exact quarter_program. Qed.
