(** Properties of the command line: C95. *)
From Coq Require Import String Ascii List ZArith Bool.
From Verif.Base Require Import Py.
From Verif.Model Require Import World Inputs Main Cli.
From Verif.Spec Require Import CliSpec.
From Verif.Proofs Require Import CliFacts CliMain CliEnd CliInt.
Import ListNotations.
Local Open Scope string_scope.

(** C95: the program does something exactly if the arguments spell settings that
    ask for it, and it does what they ask for: options by name, by an
    unambiguous beginning of it or by letter, with values that follow or are
    attached; of several values of an option the last counts. *)
Theorem command_line_grammar :
  forall l a, command l l = Goes a <-> exists ss, spelled l ss /\ asked ss a.
Proof. exact command_goes. Qed.
Print Assumptions command_line_grammar.

(** Abbreviations, letters, and repeated options. *)
Example command_line_grammar_case :
  command ["-ia.yaml"; "--in=b.yaml"; "--num"; "-3"; "--pa"; "out"] ["-ia.yaml"; "--in=b.yaml"; "--num"; "-3"; "--pa"; "out"]
    = Goes (Reduce "b.yaml" None None "out" (-3)) /\
  command ["--conv"; "-m=chem.inp"; "--th"; "therm.dat"] ["--conv"; "-m=chem.inp"; "--th"; "therm.dat"]
    = Goes (Convert "chem.inp" (Some "therm.dat") None "") /\
  spelled ["-ia.yaml"; "--in=b.yaml"] [SetInput "a.yaml"; SetInput "b.yaml"].
Proof.
  split; [vm_compute; reflexivity|]. split; [vm_compute; reflexivity|].
  apply (sp_letters "ia.yaml"). apply (le_glued "i" "--input" "a" ".yaml").
  - cbn; tauto.
  - constructor.
  - discriminate.
  - apply (sp_equals "--in" "--input" "b.yaml"); [|constructor|constructor]. apply (abbreviates_filter "in" OInput). reflexivity.
Qed.

(** Otherwise it leaves: with 1 if there are no arguments; with 0 only if the
    version or help is asked for; and with 2 if the arguments do not spell
    settings or the file is missing. *)
Theorem command_line_exit_codes :
  forall l c, command l l = Exits c ->
    c = 1%Z /\ l = [] \/
    c = 0%Z /\ ((exists ss, spelled l ss /\ In SetVersion ss) \/
                (exists s, In s l /\ asks_help s) /\ forall ss, ~ spelled l ss) \/
    c = 2%Z /\ l <> [] /\ forall ss, spelled l ss -> ~ In SetVersion ss /\ forall a, ~ asked ss a.
Proof. exact command_exits. Qed.
Print Assumptions command_line_exit_codes.

Theorem version_wins :
  forall l ss, spelled l ss -> In SetVersion ss -> command l l = Exits 0.
Proof. exact command_version. Qed.
Print Assumptions version_wins.

(** Help, after settings and before anything that does not begin like several
    options. *)
Theorem help_wins :
  forall l ss s l', spelled l ss -> abbreviates s "--help" \/ s = "-h" -> (forall x, In x l' -> ~ unclear x) ->
    command (l ++ s :: l') (l ++ s :: l') = Exits 0.
Proof. exact command_help. Qed.
Print Assumptions help_wins.

Example command_line_exit_codes_case :
  command [] [] = Exits 1 /\
  command ["-VV"; "-i"; "a.yaml"] ["-VV"; "-i"; "a.yaml"] = Exits 0 /\
  command ["-i"; "a.yaml"; "-h"; "--nonsense"] ["-i"; "a.yaml"; "-h"; "--nonsense"] = Exits 0 /\
  command ["--convert"] ["--convert"] = Exits 2 /\
  command ["-i"; "a.yaml"; "--num_threads=two"] ["-i"; "a.yaml"; "--num_threads=two"] = Exits 2 /\
  command ["-i"; "a.yaml"; "--t"; "x"] ["-i"; "a.yaml"; "--t"; "x"] = Exits 2 /\
  command ["-h"; "--t"] ["-h"; "--t"] = Exits 2 /\
  command ["-i"; "-a.yaml"] ["-i"; "-a.yaml"] = Exits 2.
Proof. repeat split; vm_compute; reflexivity. Qed.

(** Any number of processes can be asked for, also a negative one; an option
    without number stands for 0. *)
Theorem processes_as_written :
  forall l ss i th tr p n z, spelled l ss -> asked ss (Reduce i th tr p n) ->
    (forall t, In t [["--num_threads"; decimal_text z]; ["--num_threads=" ++ decimal_text z]] ->
       command (l ++ t) (l ++ t) = Goes (Reduce i th tr p z)) /\
    command (l ++ ["--num_threads"]) (l ++ ["--num_threads"]) = Goes (Reduce i th tr p 0).
Proof. exact threads_command. Qed.
Print Assumptions processes_as_written.

Example processes_as_written_case :
  spelled ["--input"; "a.yaml"] [SetInput "a.yaml"] /\ asked [SetInput "a.yaml"] (Reduce "a.yaml" None None "" 1) /\
  decimal_text (-12) = "-12".
Proof.
  split; [|split; [|reflexivity]].
  - apply (sp_value "--input" "--input"); [exact (self_abbreviates OInput)|constructor| |constructor]. now constructor.
  - split; [intros [E|[]]; discriminate E|]. split; [intros [E|[]]; discriminate E|]. repeat split; discriminate.
Qed.

(** Integers are written as in Python. *)
Example integers_case :
  integer "-12" (-12) /\ integer " +1_0 " 10 /\ (forall z, ~ integer "1__0" z) /\ (forall z, ~ integer "_1" z) /\
  (forall z, ~ integer "1.0" z) /\
  command ["--input"; "a.yaml"; "--num_threads"; " 1_0 "] ["--input"; "a.yaml"; "--num_threads"; " 1_0 "] =
    Goes (Reduce "a.yaml" None None "" 10) /\
  command ["--input"; "a.yaml"; "--num_threads"; "1__0"] ["--input"; "a.yaml"; "--num_threads"; "1__0"] = Exits 2.
Proof.
  repeat split; try (intros z X; apply int_of_integer in X; discriminate X); try (apply int_of_integer); vm_compute; reflexivity.
Qed.

(** What is parsed decides what [pymars] does: the theorems about its options
    (C41, C54) are about command lines. *)
Theorem command_line_starts_program :
  forall read convert run l n, parse_args l = Goes n ->
    pymars read convert run (length l) (options_of n) =
    match command l l with
    | Exits _ => mraise SystemExit
    | Goes (Convert m _ _ p) => convert m p
    | Goes (Reduce i _ _ p _) => pymars read convert run 1 (mkOptions i p false "" false)
    end.
Proof. exact command_runs. Qed.
Print Assumptions command_line_starts_program.

(** The argument of [pymars] is not what is parsed: given any arguments, it does
    what the command line of the process asks for.  So the claim that
    [pymars(argv)] does what [argv] asks for is refuted; and [main(args)] of the
    module does nothing. *)
Theorem argument_not_parsed :
  forall a b sys, a <> [] -> b <> [] -> command a sys = command b sys.
Proof. intros a b sys A B. rewrite !command_eq; auto. Qed.
Print Assumptions argument_not_parsed.

Theorem argument_is_parsed_refuted :
  exists argv sys, (exists x, command argv argv = Goes x) /\ command argv sys <> command argv argv.
Proof. exists ["--input"; "a.yaml"], ["-V"]. split; [eexists; vm_compute; reflexivity|]. vm_compute. discriminate. Qed.
Print Assumptions argument_is_parsed_refuted.

Theorem main_runs_its_arguments_refuted :
  exists args, (exists x, command args args = Goes x) /\ forall sys, module_main (Some args) sys = None.
Proof. exists ["-i"; "a.yaml"]. split; [eexists; vm_compute; reflexivity|reflexivity]. Qed.
Print Assumptions main_runs_its_arguments_refuted.
