(** Samples for the properties of sampling and of the error with doubles. *)
From Coq Require Import String List ZArith QArith Qabs Bool Arith.
From Verif.Base Require Import Py Num B64.
From Verif.Model Require Import FloatDrivers FloatMatrix FloatSampling.
From Verif.Spec Require Import FloatMatrixSpec FloatSamples FloatSamplingSpec.
Import ListNotations.
Local Open Scope Q_scope.

(** [n] equal steps of [d] mK from [a] mK on at 1 atm, each temperature the
    nearest double; one species. *)
Definition ramp (a d : Z) (n : nat) : list fpoint :=
  map (fun i => mkFPoint (b64_of_frac (a + Z.of_nat i * d) 1000) (b64_of_Z 101325) [fone]) (seq 0 (S n)).

(** A flame from 298.15 K to 1900.2 K and one from 298 K to 1900.5 K. *)
Definition flame_298_15 : list fpoint := ramp 298150 64082 25.
Definition flame_298 : list fpoint := ramp 298000 64100 25.

(** From 1000.3 K to 1900.3 K. *)
Definition ignition_1000_3 : list fpoint := ramp 1000300 36000 25.

(** Decision procedures for the hypotheses. *)
Definition tempb (p : fpoint) : bool :=
  sizedb (fp_T p) 1048576 && Qle_bool 1 (temp p).

Definition ordinaryb (ps : list fpoint) : bool := forallb tempb ps.

Fixpoint stepsb (r : Q) (ps : list fpoint) : bool :=
  match ps with
  | p :: ((q :: _) as t) => Qle_bool (temp q - temp p) r && stepsb r t
  | _ => true
  end.

Definition gentleb (ps : list fpoint) (p0 : fpoint) : bool :=
  Qle_bool (temp p0 + 1) (temp (last ps p0)) && stepsb ((1 # 21) * (temp (last ps p0) - temp p0)) ps.

Definition highestb (ps : list fpoint) (p0 : fpoint) : bool :=
  forallb (fun p => Qle_bool (temp p) (temp (last ps p0))) ps.

Definition metricb (x : b64) : bool :=
  sizedb x ((2 # 1) ^ 400) && Qle_bool ((2 # 1) ^ (-400)) (b64_val x).

(** Ignition delays of a detailed and of two reduced models. *)
Definition delays : list b64 := [b64_of_frac 31 10000; b64_of_frac 7 1000000].
Definition delays_near : list b64 := [b64_of_frac 32 10000; b64_of_frac 71 10000000].
Definition delays_failed : list b64 := [b64_of_frac 32 10000; fzero].
