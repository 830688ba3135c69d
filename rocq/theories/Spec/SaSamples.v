(** Small concrete runs used in the examples beside the theorems on
    sensitivity analysis. *)
From Coq Require Import String List QArith Bool.
From Verif.Base Require Import Py Num XNum Paths.
From Verif.Model Require Import Mech World Metrics Drivers Sensitivity.
From Verif.Spec Require Import TrimSpec Samples DriverSpec DriverSamples SensitivitySpec.
Import ListNotations.
Local Open Scope string_scope.

(** A simulation that gives 100, plus a penalty for each listed species that
    is missing. *)
Definition penal (l : list (string * Q)) : cond := fun m =>
  Ok [Fin (fold_right (fun sq a => if str_in (fst sq) (species_names m) then a else snd sq + a)%Q 100%Q l)].

(** [fan] in mech.yaml, and a saved ignition metric 100. *)
Definition sa_world : world :=
  mkWorld (fun f => if String.eqb f "mech.yaml" then Some (FMech [fan])
                    else if String.eqb f output_ignition then Some (FNums [Fin 100]) else None) nil.

(** The same without the saved metric. *)
Definition bare_world : world :=
  mkWorld (fun f => if String.eqb f "mech.yaml" then Some (FMech [fan]) else None) nil.

(** Sensitivity analysis of [fan] with A safe. *)
Definition fan_sa (path : string) (start limit : Q) (alg : algorithm) (lim : list string) (pen : list (string * Q)) : sa_job :=
  mkSA "mech.yaml" "" path (Fin start) (mkConds [penal pen] nil nil) (Fin limit) ["A"] alg (Own lim).
