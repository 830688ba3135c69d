(** Small simulations with doubles. *)
From Coq Require Import String List QArith ZArith Bool Arith.
From Verif.Base Require Import Py Num B64.
From Verif.Model Require Import Mech World Simulation FloatDrivers FloatSampling FloatSimulation.
From Verif.Spec Require Import Samples SimSpec SimSamples FloatProfiles.
Import ListNotations.
Local Open Scope string_scope.

(** The first double above 1000. *)
Definition just_above_1000 : Q := 1000 + (2 # 1) ^ (-43).

(** Ignition from there; the first step ends at 1400 K. *)
Definition by_a_hair (c : in_ign) (m : mech) : reactor :=
  mkReactor (SimSamples.pt 0 (ig_T c)) (fun k => Some (SimSamples.pt (Z.of_nat k # 10) (if Nat.eqb k 1 then 1400 else 2000)))
    (fun k => Nat.leb 5 k).
Definition hair_physics (A : calc) : physics :=
  mkPhysics A by_a_hair (fun _ _ => Raise CanteraError) (fun _ _ => Raise CanteraError).
Definition hair_case : in_ign := mkIgn "constant volume" just_above_1000 1 1 0 (mix "O2").

(** The points of a profile of doubles, at whole times. *)
Definition as_points (ps : list fpoint) : list point :=
  map (fun p => mkPoint 0 (b64_val (fp_T p)) (b64_val (fp_P p)) (map b64_val (fp_Y p))) ps.
