(** Small runs of the whole program used in the examples. *)
From Coq Require Import String List QArith ZArith Bool Arith.
From Verif.Base Require Import Py Num XNum Paths.
From Verif.Model Require Import Mech World Metrics Drivers Sensitivity Simulation Sampling Inputs Main.
From Verif.Spec Require Import TrimSpec Samples MetricSpec DriverSpec DriverSamples SensitivitySpec SimSpec SimSamples SamplingSpec
  SamplingSamples InputSpec InputSamples MainSpec.
Import ListNotations.
Local Open Scope string_scope.

(** Ignition at step 3 with [s], at step 4 without; flames and reactors as
    before. *)
Definition late_without (s : string) : physics := mkPhysics exact_calc
  (fun c m => mkReactor (wide m 0 (ig_T c))
                (fun k => Some (wide m (Z.of_nat k # 10)
                  (if Nat.ltb k (if str_in s (species_names m) then 3 else 4) then ig_T c else 2000)))
                (fun k => Nat.leb 8 k))
  (ph_flame full_physics) (ph_psr full_physics).
Definition toy_machine (s : string) : machine :=
  mkMachine whole 50 (late_without s) (fun _ _ => Ok [2; 0; 3; (-2); 4]).
Definition toy_limits : limits := mkLimits 400 60 20 "/tmp/a" "/tmp/b".
(** Cases with the given species as mixture. *)
Definition cases_with (s : string) : cases :=
  mkCases [mkIgn "constant volume" 1000 1 1 0 (mix s)] nil nil.
Definition toy_main (method : string) (safe : list string) (sa : bool) (upper : option Q) : main_in :=
  mkMain "mech.yaml" (Fin 10) method ["O2"] safe "" sa upper "" "out".
