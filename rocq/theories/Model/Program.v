(** The program as a process runs it: from its arguments through the input file
    to [main], with doubles and with the number of processes that the arguments
    ask for.  __main__.py:8-15, pymars.py:293-407. *)
From Coq Require Import String List QArith ZArith Bool.
From Verif.Base Require Import Py XNum B64.
From Verif.Model Require Import Mech World Simulation Sampling Sensitivity Inputs Main Cli SaveText FloatDrivers FloatMain Pool PoolMain.
Import ListNotations.
Local Open Scope string_scope.

(** The upper threshold as a double: pymars.py:86-89 writes the default 0.1,
    which Model/Inputs.v has as 1/10.  A number from the input file is a double
    already. *)
Definition as_doubles (a : main_in) : main_in :=
  mkMain (a_file a) (a_limit a) (a_method a) (a_targets a) (a_safe a) (a_phase a) (a_sa a)
    (option_map (fun u => b64_val (b64_of_Q false u)) (a_upper a)) (a_type a) (a_path a).

Section Program.
  (** Reading a YAML file; converting files between formats; what [main] does
      with arguments that do not have the documented types; the number of
      processors. *)
  Variables (read_yaml : string -> M yval)
            (convert : string -> option string -> option string -> string -> M unit)
            (other : inputs -> string -> Z -> ends unit) (cpus : Z).
  Variables (B : limits) (K : machine) (rates : mech -> list xnum -> res (list b64)).

  (** pymars.py:389-405 — the call of [main]; its result is dropped. *)
  Definition call_main (I : inputs) (path : string) (threads : Z) : ends unit :=
    match main_args I path, typed_cases I, ymaybe (in_floor I) with
    | Some a, Some C, Some floor => main_procs cpus threads B K rates floor C (as_doubles a) ;;= just (mret tt)
    | _, _, _ => other I path threads
    end.

  (** pymars.py:350-407 — [pymars] without its parser, which is Model/Cli.v.
      The end of [ArgumentParser] is SystemExit.  After a conversion line 387
      fails, see Model/Main.v. *)
  Definition program (args : list string) : ends unit :=
    match command args args with
    | Exits _ => just (mraise SystemExit)
    | Goes (Convert m thermo transport path) => just (convert m thermo transport path)
    | Goes (Reduce input thermo transport path threads) =>
        dict <== just (read_yaml input) ;;
        r <== just (parse_inputs dict) ;;
        let I := fst r in
        if yaml_name (in_model I) then call_main I path threads
        else just (convert (in_model I) thermo transport path ;;; mraise AttributeError)
    end.
End Program.
