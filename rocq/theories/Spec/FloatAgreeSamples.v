(** Sample for thresholds that meet a coefficient. *)
From Coq Require Import String List ZArith QArith.
From Verif.Base Require Import Py Num XNum.
From Verif.Model Require Import Mech World Metrics Drivers.
From Verif.Spec Require Import Samples DriverSamples FloatSpec.
Import ListNotations.
Local Open Scope string_scope.

(** B is the target and the simulation needs A, on which B depends with
    coefficient 1; A depends on C with 0.995. *)
Definition fork_back_job : job := mkJob "mech.yaml" "" "out" ["B"] nil (mkConds [needs "A" (Fin 3)] nil nil) None.
Definition fork_exact_sampler (b c : Z) : sampler := mret ([Fin 2], [[inject_Z b; inject_Z c]]).
