(** Small reactor networks used in the examples beside the theorems about the
    objects for ignition cases. *)
From Coq Require Import String List QArith Qabs ZArith Bool Arith.
From Verif.Base Require Import Py Num XNum Paths.
From Verif.Model Require Import Mech World Metrics Simulation Psr IgnCase Main.
From Verif.Spec Require Import Samples SimSpec SimSamples PsrSamples MainSamples IgnCaseSpec.
Import ListNotations.
Local Open Scope string_scope.

Fixpoint steps_in (h : list ev) : nat :=
  match h with [] => O | EStep :: t => S (steps_in t) | EReinit :: t => steps_in t end.

(** [T0], and 2000 K from step [burn] on; a tenth of a second per step; one
    variable, the temperature, and one that is halved with every step from
    1 on and no longer changes after step [calm]. *)
Definition toy_net (burn : nat) (T0 : Q) (calm : nat) : network :=
  let temp n := if Nat.ltb n burn then T0 else 2000 in
  mkNet (fun h => pt (Z.of_nat (steps_in h) # 10) (temp (steps_in h)))
    (fun _ => true)
    (fun h => [Fin (temp (steps_in h)); Fin (1 # Pos.of_nat (2 ^ Nat.min calm (steps_in h)))])
    (1 # 1000) (1 # 1000) sup_norm (Fin (7 # 5)).

(** The same for every case and model. *)
Definition toy_nets (burn calm : nat) : in_ign -> mech -> network := fun c _ => toy_net burn (ig_T c) calm.

(** The delays of calls, in tenths of seconds. *)
Definition delays (l : list answer) : list (option (option Z)) :=
  map (fun r => match r with
                | Ok (d, _) => Some (option_map (fun q => Qround.Qfloor (10 * q)) d)
                | _ => None
                end) l.

(** An ignition case and a flame with the given species as mixture. *)
Definition burning_cases (mx : string) : cases :=
  mkCases (ca_ign (cases_with mx)) nil [mkFlame 300 1 (1 # 10) (mix mx)].
