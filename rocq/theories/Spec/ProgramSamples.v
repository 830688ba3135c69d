(** A run of the program from its arguments. *)
From Coq Require Import String List QArith ZArith Bool.
From Verif.Base Require Import Py Num XNum B64.
From Verif.Model Require Import Mech World Simulation Sampling Inputs Main Pool PoolMain Program.
From Verif.Spec Require Import InputSamples MainSamples FloatMainSamples.
Import ListNotations.
Local Open Scope string_scope.

(** A file that asks for DRGEP, with one ignition case and sensitivity analysis
    with the default upper threshold, and the arguments. *)
Definition run_file : list (yval * yval) :=
  [entry "model" (YStr "mech.yaml"); entry "error" (YInt 10); entry "method" (YStr "DRGEP");
   entry "targets" (YList [YStr "O2"]); entry "sensitivity-analysis" (YBool true);
   entry "autoignition-conditions" (YList [YDict
     [entry "kind" (YStr "constant volume"); entry "temperature" (YInt 1000); entry "pressure" (YInt 1);
      entry "end-time" (YInt 1); entry "max-steps" (YInt 0); entry "reactants" (YDict [entry "N2" (YInt 1)])]])].
Definition run_args (n : string) : list string := ["--inp=in.yaml"; "--path"; "out"; "--num_threads"; n].
Definition run_program (args : list string) : ends unit :=
  program (fun _ => mret (YDict run_file)) (fun _ _ _ _ => mret tt) (fun _ _ _ => just (mraise TypeError)) 4
    toy_limits (eighth_machine "HO2") (steady_rates [2; 0; 3; (-2); 4]%Z) args.
Definition run_main_in : main_in := mkMain "mech.yaml" (Fin 10) "DRGEP" ["O2"] ["N2"] "" true (Some (1 # 10)) "initial" "out".
Definition run_doubles : main_in :=
  mkMain "mech.yaml" (Fin 10) "DRGEP" ["O2"] ["N2"] "" true (Some (3602879701896397 # 36028797018963968)) "initial" "out".
