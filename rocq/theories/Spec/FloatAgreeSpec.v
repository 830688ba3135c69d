(** When the coefficients stay off the thresholds of a driver. *)
From Coq Require Import String List ZArith QArith Qabs.
From Verif.Base Require Import Py Num XNum B64.
From Verif.Model Require Import Mech Matrices World Drivers FloatDrivers FloatMatrix FloatRun.
From Verif.Spec Require Import DriverSpec FloatSpec FloatMatrixSpec FloatRunSpec.

(** How far the numbers that a driver compares may be from the exact ones at
    the threshold [q], reached after [k] additions: the rounding of the sums of
    the threshold and of the step back, and that of the coefficients ([e]). *)
Definition off_by (k : nat) (q e : Q) : Q := (inject_Z (Z.of_nat (k + 11)) * (2 # 1) ^ (-52) * q + e)%Q.

(** No exact coefficient of a model with [n] reactions is that close to
    [k + 1] times the [i]-th start. *)
Definition stays_off (me : method) (J : job) (sol : mech) (rops : list (list b64)) (n i k : nat) : Prop :=
  let q := times (S k) (start_at i) in
  let d := off_by k q (coefficient_bound me (n_species sol) n) in
  (d < q)%Q /\ forall v, xcoefficient me J sol rops v -> (d < Qabs (v - q))%Q.
