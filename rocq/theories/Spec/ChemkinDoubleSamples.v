(** Small models whose numbers are doubles, for the export. *)
From Coq Require Import String List ZArith QArith.
From Verif.Base Require Import Py XNum B64.
From Verif.Model Require Import Chem Compare Chemkin FloatDrivers SaveText.
From Verif.Spec Require Import CompareSamples CompareDoubleSamples.
Import ListNotations.
Local Open Scope string_scope.

(** The nearest double to the power. *)
Definition nearest_power (k : Q) : b64 := b64_of_Q false (thousand (fun _ => 1%Q) k).

Definition even_h_h_m : creaction :=
  mkCRx "2 H + M <=> H2 + M" "three-body-Arrhenius" [("H", 2%Q)] [("H2", 1%Q)] true (arrhenius (even_arr (1 # 1024)))
    (Some (mkCollider (Fin 1) [("H2", Fin 0); ("OH", Fin (7 # 2))])).
Definition even_activated : creaction :=
  mkCRx "H + OH (+M) <=> H2 + O (+M)" "chemically-activated-Lindemann" [("H", 1%Q); ("OH", 1%Q)] [("H2", 1%Q); ("O", 1%Q)] false
    (mkRate "LindemannRate" "Lindemann" None (Some (even_arr 282)) (Some (even_arr 6)) (Some []) None None) None.
Definition even_chebyshev : creaction :=
  mkCRx "H + O <=> OH" "Chebyshev" [("H", 1%Q); ("O", 1%Q)] [("OH", 1%Q)] false
    (chebyshev (mkCheb [Fin 300; Fin 2500] [Fin 1000; Fin 1000000] [[Fin 8; Fin (1 # 2)]; [Fin (-(3 # 8)); Fin 0]])) None.
Definition even_kinds : csolution :=
  with_reactions [even_h2_o 38700; even_h_h_m; even_h_oh; even_activated; even_oh; even_chebyshev].

(** About 3e-10 m, 2e-22 J and 8e-31 m^3. *)
Definition even_h2_t := sp "H2" [("H", 2%Q)] (-1) (Some [("geometry", TText "linear"); ("diameter", TNum (Fin (5 # (2 ^ 34))));
  ("well_depth", TNum (Fin (3 # (2 ^ 74)))); ("dipole", TNum (Fin 0)); ("polarizability", TNum (Fin (1 # (2 ^ 100))));
  ("rotational_relaxation", TNum (Fin 280))]).
Definition even_hydrogen : csolution := mkCSol "gas" ["H"] [even_h2_t] [even_h_h_m].

(** The double 1.00705, a little larger than that number. *)
Definition edge_A : Q := 2267675002371729 # 2251799813685248.
Definition edge_gas : csolution :=
  with_reactions [mkCRx "H2 + O <=> H + OH" "Arrhenius" [("H2", 1%Q); ("O", 1%Q)] [("H", 1%Q); ("OH", 1%Q)] false (arrhenius (mkArr (Fin edge_A) (Fin 0) (Fin 0))) None].
