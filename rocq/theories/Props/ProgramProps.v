(** Properties of the program from its arguments to its files: C100. *)
From Coq Require Import String List ZArith QArith Bool Arith Lia.
From Verif.Base Require Import Py Num XNum Paths B64.
From Verif.Model Require Import Mech World Metrics Drivers Sensitivity Simulation Sampling Inputs Main Cli FloatRun DoubleError FloatMain
  Pool PoolMain Program.
From Verif.Spec Require Import TrimSpec Samples MetricSpec DriverSpec DriverSamples SensitivitySpec SimSpec SamplingSpec SamplingSamples InputSpec ArgsSpec
  InputSamples MainSpec MainSamples CliSpec FloatSpec DoubleErrorSpec FloatMainSpec FloatMainSamples ProgramSpec ProgramSamples.
From Verif.Proofs Require Import ProgramFacts ProgramEx.
Import ListNotations.
Local Open Scope string_scope.

(** C100: arguments that ask for a reduction, with any number of processes from
    0 on, and a file with the documented contents: if the program ends without
    error, there is a model at the path given; its error, computed with doubles,
    is a finite number and within the limit unless a coefficient is next to the
    accepted threshold; files other than samples and models are as before; the
    target and retained species and all species that the cases use are in it,
    unless sensitivity analysis may remove them. *)
Theorem program_end_to_end :
  forall read convert other cpus B K rates l ss i th tr p n w d I d' a C floor sol me,
    spelled l ss -> asked ss (Reduce i th tr p n) -> (1 <= cpus)%Z -> (0 <= n)%Z ->
    read i w = (Ok (YDict d), w) -> yaml_input d -> lists_given d -> parse_inputs (YDict d) w = (Ok (I, d'), w) ->
    hands I p a C floor -> in_method I = YStr (method_name me) -> prepared K C a w sol ->
    exists a', in_doubles a a' /\
    forall u w', double_posed K rates floor C a' sol -> (~ blank (in_sa I) -> temps_ok w p B) ->
    program read convert other cpus B K rates l w (Ok u) w' ->
    exists m ref e, metrics_of (conds_of (k_fuel K) (k_physics K) floor C) sol = Ok ref /\
      error_of (double_conds (conds_of (k_fuel K) (k_physics K) floor C)) ref m = Ok (Fin e) /\
      (~ at_the_edge me K rates floor C a' sol -> xle (Fin e) (a_limit a) = true) /\
      w_fs w' (path_join p (reduced_name (n_species m))) = Some (FMech [m]) /\
      (forall f, ~ In f sample_files -> ~ scratch p (length (ca_ign C)) f ->
         (forall k, f <> path_join p (reduced_name k)) -> w_fs w' f = w_fs w f) /\
      (blank (in_sa I) \/ limbo_harmless me a' w ->
        (forall s, In s (a_targets a ++ a_safe a) -> In s (species_names m)) /\
        (forall s, used I s -> In s (species_names m))).
Proof. exact prog_end_doubles. Qed.
Print Assumptions program_end_to_end.

(** C100: arguments that differ only in the number of processes: what the
    program can give with one it can give with the other. *)
Theorem program_with_any_processes :
  forall read convert other cpus B K rates l l' ss ss' i th tr p n n' w d I d' a C floor u w',
    spelled l ss -> asked ss (Reduce i th tr p n) -> spelled l' ss' -> asked ss' (Reduce i th tr p n') ->
    (1 <= cpus)%Z -> (0 <= n)%Z -> (0 <= n')%Z ->
    read i w = (Ok (YDict d), w) -> parse_inputs (YDict d) w = (Ok (I, d'), w) ->
    hands I p a C floor ->
    model_apart p C (in_model I) ->
    program read convert other cpus B K rates l w (Ok u) w' -> program read convert other cpus B K rates l' w (Ok u) w'.
Proof. exact prog_any. Qed.
Print Assumptions program_with_any_processes.

(** Four or no processes: the hypotheses hold, and there is a run. *)
Example program_end_to_end_case :
  (forall n z, In (n, z) [("4", 4%Z); ("0", 0%Z); ("1", 1%Z)] ->
     exists ss, spelled (run_args n) ss /\ asked ss (Reduce "in.yaml" None None "out" z)) /\
  inputb run_file = true /\
  (exists I d', parse_inputs (YDict run_file) toy_world = (Ok (I, d'), toy_world) /\ hands I "out" run_main_in (cases_with "N2") None /\
     used I "N2") /\
  prepared (eighth_machine "HO2") (cases_with "N2") run_main_in toy_world toy /\
  double_posed (eighth_machine "HO2") (steady_rates [2; 0; 3; (-2); 4]%Z) None (cases_with "N2") run_doubles toy /\
  in_doubles run_main_in run_doubles /\ temps_ok toy_world "out" toy_limits /\ limbo_harmless DRGEP run_doubles toy_world /\
  model_apart "out" (cases_with "N2") "mech.yaml" /\
  forall n, In n ["4"; "0"; "1"] -> exists w', run_program (run_args n) toy_world (Ok tt) w' /\
    look w' ["mech.yaml"; "out/reduced_3.yaml"; "out/reduced_2.yaml"; "out/0.h5"] = [Some 6%nat; Some 3%nat; None; None].
Proof. exact run_holds. Qed.

(** C100: for arguments that ask for nothing that can be done — none, help, the
    version, mistakes — the process exits and no file changes. *)
Theorem program_unasked_changes_nothing :
  forall read convert other cpus B K rates l w r w',
    (forall ss a, spelled l ss -> ~ asked ss a) ->
    program read convert other cpus B K rates l w r w' -> r = Raise SystemExit /\ w' = w.
Proof. exact prog_unasked. Qed.
Print Assumptions program_unasked_changes_nothing.

Example program_unasked_changes_nothing_case :
  forall ss a, spelled ["--input"; "in.yaml"; "-V"] ss -> ~ asked ss a.
Proof.
  intros ss a S A. assert (command ["--input"; "in.yaml"; "-V"] ["--input"; "in.yaml"; "-V"] = Goes a) as E by (apply CliMain.command_goes; eauto).
  vm_compute in E. discriminate E.
Qed.

(** C100: a negative number of processes: ValueError, and no file changes. *)
Theorem program_refuses_negative_processes :
  forall read convert other cpus B K rates l ss i th tr p n w d I d' a C floor sol me r w',
    spelled l ss -> asked ss (Reduce i th tr p n) -> (n < 0)%Z ->
    read i w = (Ok (YDict d), w) -> parse_inputs (YDict d) w = (Ok (I, d'), w) -> yaml_name (in_model I) = true ->
    hands I p a C floor ->
    in_method I = YStr (method_name me) -> a_targets a <> [] -> holds w (in_model I) (in_phase I) sol -> fresh w ->
    ca_ign C <> [] \/ ca_psr C <> [] \/ ca_flame C <> [] ->
    program read convert other cpus B K rates l w r w' -> r = Raise ValueError /\ w' = w.
Proof. exact prog_negative. Qed.
Print Assumptions program_refuses_negative_processes.

Example program_refuses_negative_processes_case :
  (exists ss, spelled (run_args "-2") ss /\ asked ss (Reduce "in.yaml" None None "out" (-2))) /\
  run_program (run_args "-2") toy_world (Raise ValueError) toy_world.
Proof. exact run_refused. Qed.
