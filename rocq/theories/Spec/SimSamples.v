(** Small reactors, profiles and cases used in the examples beside the
    theorems about simulations. *)
From Coq Require Import String List QArith ZArith Bool Arith.
From Verif.Base Require Import Py Num XNum.
From Verif.Model Require Import Mech World Metrics Simulation.
From Verif.Spec Require Import Samples SimSpec.
Import ListNotations.
Local Open Scope string_scope.

Definition pt (t T : Q) : point := mkPoint t T 101325 [1].

(** 1000 K, and 2000 K from step [burn] on; a tenth of a second per step;
    steady from step [steady] on. *)
Definition ramp (burn steady : nat) : reactor :=
  mkReactor (pt 0 1000)
    (fun k => Some (pt (Z.of_nat k # 10) (if Nat.ltb k burn then 1000 else 2000)))
    (fun k => Nat.leb steady k).

(** The same, but the integrator fails at step [bad]. *)
Definition broken (bad : nat) (R : reactor) : reactor :=
  mkReactor (ra_init R) (fun k => if Nat.leb bad k then None else ra_step R k) (ra_small R).

Definition mix (s : string) : mixture := mkMix 0 nil nil [(s, 1)] "mole".
Definition ign (tend : Q) (steps : Z) : in_ign := mkIgn "constant volume" 1000 1 tend steps (mix "O2").

(** A reactor per model: it burns if HO2 is present. *)
Definition toy_physics : physics := mkPhysics exact_calc
  (fun _ m => ramp (if str_in "HO2" (species_names m) then 3 else 1000) 8)
  (fun _ m => if str_in "H2" (species_names m) then Ok (Fin (2 # 5), [pt 0 300; pt 1 2000]) else Raise CanteraError)
  (fun _ m => if str_in "H" (species_names m)
              then Ok (mkCurve (mkPP (Fin (1 # 100)) (Fin 1200) [Fin 1]) (mkPP (Fin 1) (Fin 1500) [Fin 1])
                               (mkPP (Fin 10) (Fin 1800) [Fin 1]))
              else Raise RuntimeError).
Definition toy_cases : cases :=
  mkCases [ign 1 0] [mkPSR 300 1 (mix "O2")] [mkFlame 300 1 (1 # 10) (mix "O2")].

(** A profile of [n] equal rises of 10 K. *)
Definition steps_profile (n : nat) : list point :=
  map (fun k => pt (Z.of_nat k # 10) (inject_Z (1000 + 10 * Z.of_nat k))) (seq 0 (S n)).
