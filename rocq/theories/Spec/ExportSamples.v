(** Small models for the examples about [soln2ck]. *)
From Coq Require Import String List QArith.
From Verif.Base Require Import Py XNum Text.
From Verif.Model Require Import Chem Compare Chemkin.
From Verif.Spec Require Import CompareSamples.
Import ListNotations.
Local Open Scope string_scope.

(** [str] with 18 digits; no power of 1000 that is not an integer occurs. *)
Definition show : xnum -> string := xsci 17.
Definition no_rounding : arith := exact_arith (fun _ => 0%Q).

(** One reaction of every type. *)
Definition h_h_m : creaction :=
  mkCRx "2 H + M <=> H2 + M" "three-body-Arrhenius" [("H", 2%Q)] [("H2", 1%Q)] true (arrhenius (plain_arr 1000))
    (Some (mkCollider (Fin 1) [("H2", Fin 0); ("AR", Fin (63 # 100)); ("OH", Fin (36 # 10))])).
Definition activated : creaction :=
  mkCRx "H + OH (+M) <=> H2 + O (+M)" "chemically-activated-Lindemann" [("H", 1%Q); ("OH", 1%Q)] [("H2", 1%Q); ("O", 1%Q)] false
    (mkRate "LindemannRate" "Lindemann" None (Some (plain_arr 282)) (Some (plain_arr 6)) (Some []) None None) None.
Definition by_pressure : creaction :=
  mkCRx "H2 + O <=> H + OH" "pressure-dependent-Arrhenius" [("H2", 1%Q); ("O", 1%Q)] [("H", 1%Q); ("OH", 1%Q)] false
    (plog [(101325, plain_arr 38700); (10132500, plain_arr 40000)]) None.
Definition by_chebyshev : creaction :=
  mkCRx "H + O <=> OH" "Chebyshev" [("H", 1%Q); ("O", 1%Q)] [("OH", 1%Q)] false
    (chebyshev (mkCheb [Fin 300; Fin 2500] [Fin 1000; Fin 1000000] [[Fin 8; Fin (1 # 2)]; [Fin (-(1 # 3)); Fin 0]])) None.
Definition all_kinds : csolution := with_reactions [h2_o 38700; h_h_m; h_oh troe4; activated; by_pressure; by_chebyshev].

(** All species with transport data. *)
Definition h2_t := sp "H2" [("H", 2%Q)] (-1) (Some [("geometry", TText "linear"); ("diameter", TNum (Fin (292 # 1000000000000)));
  ("well_depth", TNum (Fin (52 # 100000000000000000000000))); ("dipole", TNum (Fin 0)); ("polarizability", TNum (Fin (79 # 100000000000000000000000000000000)));
  ("rotational_relaxation", TNum (Fin 280))]).
Definition h_t := sp "H" [("H", 1%Q)] 218 (Some [("geometry", TText "atom"); ("diameter", TNum (Fin (205 # 1000000000000)));
  ("well_depth", TNum (Fin (2 # 1000000000000000000000))); ("dipole", TNum (Fin 0)); ("polarizability", TNum (Fin 0));
  ("rotational_relaxation", TNum (Fin 0))]).
Definition hydrogen : csolution := mkCSol "gas" ["H"] [h2_t; h_t] [h_h_m].

(** The same with one well depth that is no number. *)
Definition two_species (a b : cspecies) : csolution := mkCSol "gas" ["H"] [a; b] [h_h_m].

(** A reaction of a type that is not exported. *)
Definition surface : creaction :=
  mkCRx "H2 <=> 2 H" "interface-Arrhenius" [("H2", 1%Q)] [("H", 2%Q)] false (arrhenius (plain_arr 5)) None.
Definition with_surface : csolution := with_reactions [h2_o 38700; surface; h_oh troe4].
Definition with_troe3 : csolution := with_reactions [h2_o 38700; h_oh troe3; activated].

(** Names that take more than one line. *)
Definition names_gas (l : list string) : csolution :=
  mkCSol "gas" ["H"] (map (fun n => sp n [("H", 1%Q)] 0 None) l) nil.
Definition long_names : list string :=
  ["CH2CHO"; "HCCOH"; "C3H8"; "N-C3H7"; "SINGLET-METHYLENE"; "A-VERY-LONG-SPECIES-NAME-OF-MORE-THAN-SIXTY-CHARACTERS-IN-ONE-WORD"; "CH2"; "AR"].
Definition energetic (E : Q) : arr := mkArr (Fin 1) (Fin 0) (Fin E).
