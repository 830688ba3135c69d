(** Samples for the drivers with doubles throughout. *)
From Coq Require Import String List ZArith QArith Bool.
From Verif.Base Require Import Py Num XNum Paths B64.
From Verif.Model Require Import Mech Matrices Graph World Metrics Drivers FloatDrivers FloatRun.
From Verif.Spec Require Import TrimSpec Samples DriverSpec DriverSamples FloatSpec.
Import ListNotations.
Local Open Scope string_scope.

(** The two channels of [fork] with rates [b] and [c]. *)
Definition fork_rates (b c : Z) : list (list b64) := [[b64_of_Z b; b64_of_Z c]].
Definition fork_fsampler (b c : Z) : fsampler := mret ([Fin 2], fork_rates b c).

(** The same job with upper threshold 1/2, and with a simulation that needs C. *)
Definition fork_upper_job : job :=
  mkJob "mech.yaml" "" "out" ["A"] nil (mkConds [needs "B" (Fin 3)] nil nil) (Some (1 # 2)%Q).
Definition fork_free_job : job := mkJob "mech.yaml" "" "out" ["A"] nil (mkConds [needs "A" (Fin 3)] nil nil) None.
