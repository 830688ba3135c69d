(** Examples for the number of processes. *)
From Coq Require Import String List QArith ZArith.
From Verif.Base Require Import Py Num XNum.
From Verif.Model Require Import Mech World Metrics Simulation Sampling.
From Verif.Spec Require Import SimSamples SamplingSamples.
Import ListNotations.
Local Open Scope string_scope.

(** A reactor that does not run, and two cases: the first names a species that
    the model does not have. *)
Definition psr_fails : physics :=
  mkPhysics exact_calc (ph_reactor full_physics) (ph_flame full_physics) (fun _ _ => Raise RuntimeError).
Definition two_psr : cases := mkCases [] [mkPSR 300 1 (mix "XX"); mkPSR 300 1 (mix "O2")] [].

(** Two ignition cases, and a run of the whole program with them. *)
Definition two_ign : cases :=
  mkCases [mkIgn "constant volume" 1000 1 1 0 (mix "N2"); mkIgn "constant volume" 1100 1 1 0 (mix "N2")] nil nil.
