(** Small input dictionaries used in the examples beside the theorems about
    input checking. *)
From Coq Require Import String List QArith ZArith Bool.
From Verif.Base Require Import Py Num XNum.
From Verif.Model Require Import Mech World Metrics Drivers Simulation Inputs.
From Verif.Spec Require Import Samples DriverSpec DriverSamples SimSamples InputSpec.
Import ListNotations.
Local Open Scope string_scope.

Definition entry (k : string) (v : yval) : yval * yval := (YStr k, v).

(** An ignition case by equivalence ratio, a flame case by mass. *)
Definition by_ratio : list (yval * yval) :=
  [entry "kind" (YStr "constant volume"); entry "temperature" (YInt 1000); entry "pressure" (YNum (Fin 1));
   entry "end-time" (YInt 1);
   entry "equivalence-ratio" (YNum (Fin 1)); entry "fuel" (YDict [entry "H2" (YInt 2)]);
   entry "oxidizer" (YDict [entry "O2" (YInt 1); entry "N2" (YNum (Fin (376 # 100)))])].
Definition by_mass : list (yval * yval) :=
  [entry "temperature" (YInt 300); entry "pressure" (YInt 1);
   entry "reactants" (YDict [entry "O2" (YInt 1); entry "AR" (YInt 3)]); entry "composition-type" (YStr "mass")].

(** The whole file, with the given method, targets and retained species. *)
Definition whole_input (method : string) (targets : yval) (extra : list (yval * yval)) : list (yval * yval) :=
  ([entry "model" (YStr "mech.yaml"); entry "error" (YInt 10); entry "method" (YStr method); entry "targets" targets;
   entry "autoignition-conditions" (YList [YDict by_ratio]);
   entry "laminar-flame-conditions" (YList [YDict by_mass])] ++ extra)%list.

(** Checkers. *)
Definition keysb (d : list (yval * yval)) : bool :=
  match all_some ystr (map fst d) with Some l => nodupb l | None => false end.
Definition casesb (v : yval) : bool :=
  match v with
  | YList cs => forallb (fun c => match c with YDict d => keysb d | _ => true end) cs
  | YDict d => keysb d
  | _ => true
  end.
Definition inputb (d : list (yval * yval)) : bool :=
  keysb d &&
  forallb (fun kv => match fst kv with
    | YStr k => negb (str_in k ["autoignition-conditions"; "psr-conditions"; "laminar-flame-conditions"]) || casesb (snd kv)
    | _ => true end) d &&
  forallb (fun kv => match fst kv with
    | YStr k => negb (str_in k ["targets"; "retained-species"]) || match snd kv with YList _ => true | _ => false end
    | _ => true end) d.

(** What can be printed of an outcome: the species to retain, and the ones in
    the dictionary afterwards. *)
Definition shown (x : res (inputs * yval) * world) : res (option (list string) * option yval) :=
  match fst x with
  | Ok (i, YDict d) => Ok (ynames (in_safe i), dlook "retained-species" d)
  | Ok (i, _) => Ok (ynames (in_safe i), None)
  | Raise e => Raise e
  | NoFuel => NoFuel
  end.

(** One ignition case with O2 alone, which is the only target; N2 is retained. *)
Definition o2_case : list (yval * yval) :=
  [entry "kind" (YStr "constant volume"); entry "temperature" (YInt 1000); entry "pressure" (YInt 1);
   entry "end-time" (YInt 1); entry "reactants" (YDict [entry "O2" (YInt 1)])].
Definition o2_input : list (yval * yval) :=
  [entry "model" (YStr "mech.yaml"); entry "error" (YInt 200); entry "method" (YStr "DRGEP");
   entry "targets" (YList [YStr "O2"]); entry "retained-species" (YList [YStr "N2"]);
   entry "autoignition-conditions" (YList [YDict o2_case])].
Definition o2_cases : cases := mkCases [mkIgn "constant volume" 1000 1 1 10000 (mix "O2")] nil nil.
Definition o2_job : job := mkJob "mech.yaml" "" "out" ["O2"] ["N2"] (conds_of 50 toy_physics None o2_cases) None.
Definition o2_sampler : sampler := mret ([Fin (3 # 10)], toy_rops).
