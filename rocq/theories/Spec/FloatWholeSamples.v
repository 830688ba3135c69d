(** A run of the program with doubles on [fork]. *)
From Coq Require Import String List QArith ZArith Bool.
From Verif.Base Require Import Py Num XNum B64.
From Verif.Model Require Import Mech World Simulation Sampling Inputs Main Pool PoolMain Program.
From Verif.Spec Require Import InputSamples MainSamples FloatSpec FloatMainSamples ProgramSamples.
Import ListNotations.
Local Open Scope string_scope.

(** B takes [b] of [b + c] parts of A; the ignition of A needs B. *)
Definition fork_file : list (yval * yval) :=
  [entry "model" (YStr "mech.yaml"); entry "error" (YInt 10); entry "method" (YStr "DRG");
   entry "targets" (YList [YStr "A"]);
   entry "autoignition-conditions" (YList [YDict
     [entry "kind" (YStr "constant volume"); entry "temperature" (YInt 1000); entry "pressure" (YInt 1);
      entry "end-time" (YInt 1); entry "max-steps" (YInt 0); entry "reactants" (YDict [entry "A" (YInt 1)])]])].
Definition fork_program (b c : Z) (args : list string) : ends unit :=
  program (fun _ => mret (YDict fork_file)) (fun _ _ _ _ => mret tt) (fun _ _ _ => just (mraise TypeError)) 4
    toy_limits (eighth_machine "B") (steady_rates [b; c]) args.
(** What [main] is given, and the rates at the twenty sampled states. *)
Definition fork_main : main_in := mkMain "mech.yaml" (Fin 10) "DRG" ["A"] nil "" false None "initial" "out".
Definition fork_sampled (b c : Z) : list (list b64) := repeat [b64_of_Z b; b64_of_Z c] 20.
(** The same with an analysis that keeps A. *)
Definition fork_analysed : main_in := mkMain "mech.yaml" (Fin 10) "DRG" ["A"] nil "" true None "initial" "out".
