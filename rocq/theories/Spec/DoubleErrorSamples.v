(** Samples for the drivers whose errors are computed with doubles. *)
From Coq Require Import String List ZArith QArith Bool.
From Verif.Base Require Import Py Num XNum Paths B64.
From Verif.Model Require Import Mech World Metrics Drivers FloatDrivers FloatRun DoubleError.
From Verif.Spec Require Import TrimSpec Samples DriverSpec DriverSamples FloatSpec FloatRunSamples.
Import ListNotations.
Local Open Scope string_scope.

(** The doubles 0.5 and 0.63: they differ by a little more than 26 percent of
    the first, but the computed error is 26. *)
Definition near_half : xnum := Fin (b64_val (b64_of_frac 1 2)).
Definition near_63 : xnum := Fin (b64_val (b64_of_frac 63 100)).

(** A simulation of [fork] that gives 0.63 without B and 3 without C. *)
Definition edge_cond : cond := fun m =>
  if str_in "C" (species_names m) then
    (if str_in "B" (species_names m) then Ok [near_half] else Ok [near_63])
  else Ok [Fin 3].
Definition edge_job : job := mkJob "mech.yaml" "" "out" ["A"] nil (mkConds [edge_cond] nil nil) None.
Definition edge_fsampler : fsampler := mret ([near_half], fork_rates 61 939).
