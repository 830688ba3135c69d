(** A small model whose numbers are doubles. *)
From Coq Require Import String List QArith.
From Verif.Base Require Import Py XNum B64.
From Verif.Model Require Import Chem FloatDrivers.
From Verif.Spec Require Import CompareSamples.
Import ListNotations.
Local Open Scope string_scope.

Definition even_arr (A : Q) : arr := mkArr (Fin A) (Fin (11 # 4)) (Fin 26150000).
Definition even_h2_o (A : Q) : creaction :=
  mkCRx "H2 + O <=> H + OH" "Arrhenius" [("H2", 1%Q); ("O", 1%Q)] [("H", 1%Q); ("OH", 1%Q)] false (arrhenius (even_arr A)) None.
Definition even_h_oh : creaction :=
  mkCRx "H + O (+M) <=> OH (+M)" "falloff-Troe" [("H", 1%Q); ("O", 1%Q)] [("OH", 1%Q)] false
    (falloff (even_arr 4000) (even_arr 90000) (map Fin [3 # 4; 94; 1756; 5182])) (Some (mkCollider (Fin 1) [("H2", Fin 2)])).
Definition even_oh : creaction :=
  mkCRx "OH <=> H + O" "pressure-dependent-Arrhenius" [("OH", 1%Q)] [("H", 1%Q); ("O", 1%Q)] false
    (plog [(101325, even_arr 7); (1013250, even_arr 9)]) None.
Definition even_gas (A : Q) : csolution := with_reactions [even_h2_o A; even_h_oh; even_oh].

(** The double 1e-8, which is a little larger than 10^-8. *)
Definition ten_nano : Q := b64_val (b64_of_frac 1 100000000).
