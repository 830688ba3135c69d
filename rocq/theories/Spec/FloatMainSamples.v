(** Small runs of the whole program with doubles. *)
From Coq Require Import String List QArith ZArith Bool Arith.
From Verif.Base Require Import Py Num XNum Paths B64.
From Verif.Model Require Import Mech World Metrics Drivers Simulation Sampling Main FloatDrivers FloatRun FloatSimulation FloatMain.
From Verif.Spec Require Import TrimSpec Samples DriverSpec DriverSamples SimSpec SimSamples SamplingSpec SamplingSamples MainSpec
  MainSamples FloatRunSamples.
Import ListNotations.
Local Open Scope string_scope.

(** Ignition after 4/8 s with the species [s], after 6/8 s without; the
    temperatures are compared and the samples taken with doubles. *)
Definition eighths (s : string) : physics := mkPhysics double_calc
  (fun c m => mkReactor (wide m 0 (ig_T c))
                (fun k => Some (wide m (Z.of_nat k # 8)
                  (if Nat.ltb k (if str_in s (species_names m) then 4 else 6) then ig_T c else 2000)))
                (fun k => Nat.leb 8 k))
  (ph_flame full_physics) (ph_psr full_physics).
Definition eighth_machine (s : string) : machine := mkMachine whole 50 (eighths s) (fun _ _ => Ok nil).

(** Rates that are the same in all states. *)
Definition steady_rates (l : list Z) : mech -> list xnum -> res (list b64) := fun _ _ => Ok (map b64_of_Z l).

(** [toy] with HO2 as the species that matters; [fork] with B and rates [b]
    and [c]; [fan] with B. *)
Definition ftoy (me : string) (safe : list string) (sa : bool) (up : option Q) : M rmodel :=
  fmain toy_limits (eighth_machine "HO2") (steady_rates [2; 0; 3; (-2); 4]%Z) None (cases_with "N2") (toy_main me safe sa up).
Definition fork_in (me : string) : main_in := mkMain "mech.yaml" (Fin 10) me ["A"] nil "" false None "" "out".
Definition ffork (b c : Z) (me : string) : M rmodel :=
  fmain toy_limits (eighth_machine "B") (steady_rates [b; c]) None (cases_with "A") (fork_in me).
Definition ffan (me : string) : M rmodel :=
  fmain toy_limits (eighth_machine "B") (steady_rates [61; 35; 904]%Z) None (cases_with "A") (fork_in me).
