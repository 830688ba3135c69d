(** The threshold arithmetic of the drivers in IEEE binary64. *)
From Coq Require Import ZArith QArith List Bool.
From Coq Require Import Floats.SpecFloat.
From Verif.Base Require Import B64.
From Verif.Model Require Import Drivers.
From Verif.Spec Require Import DriverSpec.

(** The exact value of a finite binary64 number.  Thresholds are always finite
    (proved in Proofs/FloatFacts.v); infinities and NaN get 0. *)
Definition b64_val (x : b64) : Q :=
  match x with
  | S754_finite s m e => inject_Z (cond_Zopp s (Zpos m)) * (2 # 1) ^ e
  | _ => 0
  end.

(** drg.py:319-376, drgep.py:458-513, pfa.py:345-402: [0.01], [/= 10],
    [+= threshold_increment] and [-= 2 * threshold_increment], each rounded to
    nearest even. *)
Definition floatA : arith :=
  mkArith b64 (b64_of_frac 1 100) (fun t => b64_div t (b64_of_Z 10)) b64_add
          (fun t i => b64_sub t (b64_mul (b64_of_Z 2) i)) b64_val.

(** drg.py:351 and pfa.py:377: [threshold <= 1e-5]; drgep.py:488:
    [threshold <= 1e-6]. *)
Definition floor_f (me : method) (t : b64) : bool :=
  b64_le t (match me with DRG | PFA => b64_of_frac 1 100000 | DRGEP => b64_of_frac 1 1000000 end).
