(** Small models for the examples about [compare_models] and [soln2ck]. *)
From Coq Require Import String List QArith.
From Verif.Base Require Import Py XNum.
From Verif.Model Require Import Chem.
Import ListNotations.
Local Open Scope string_scope.

Definition fnum (q : Q) : xnum := Fin q.
Definition plain_arr (A : Q) : arr := mkArr (Fin A) (Fin (27 # 10)) (Fin 26150000).
Definition arrhenius (a : arr) : rate := mkRate "ArrheniusRate" "" (Some a) None None None None None.
Definition falloff (low high : arr) (c : list xnum) : rate :=
  mkRate "TroeRate" "Troe" None (Some low) (Some high) (Some c) None None.
Definition plog (t : list (Q * arr)) : rate := mkRate "PlogRate" "" None None None None (Some t) None.
Definition chebyshev (c : cheb) : rate := mkRate "ChebyshevRate" "" None None None None None (Some c).

Definition gas_transport (d : Q) : dict tval :=
  [("geometry", TText "linear"); ("diameter", TNum (Fin d)); ("well_depth", TNum (Fin (1 # 100)));
   ("dipole", TNum (Fin 0)); ("polarizability", TNum (Fin 0)); ("rotational_relaxation", TNum (Fin (38 # 10)))].

Definition sp (name : string) (comp : dict Q) (h : Q) (t : option (dict tval)) : cspecies :=
  mkCSp name comp (fun T => Fin (30000 + T)) (fun T => Fin (h + 30000 * T)) (fun T => Fin (200000 + T))
    (Fin 300) (Fin 5000)
    (map Fin [1000; 33372792 # 10000000; -(494024731 # 10000000000000); 499456778 # 1000000000000; 1; 2; 3; 4; 5; 6; 7; 8; 9; 10; 11])
    t.
Definition h2 := sp "H2" [("H", 2%Q)] (-1) (Some (gas_transport (29 # 10))).
Definition o := sp "O" [("O", 1%Q)] 249 None.
Definition h := sp "H" [("H", 1%Q)] 218 None.
Definition oh := sp "OH" [("O", 1%Q); ("H", 1%Q)] 39 None.
Definition oh' := sp "OH" [("H", 1%Q); ("O", 1%Q)] 39 None.

Definition h2_o (A : Q) : creaction :=
  mkCRx "H2 + O <=> H + OH" "Arrhenius" [("H2", 1%Q); ("O", 1%Q)] [("H", 1%Q); ("OH", 1%Q)] false (arrhenius (plain_arr A)) None.
Definition h_oh (c : list xnum) : creaction :=
  mkCRx "H + O (+M) <=> OH (+M)" "falloff-Troe" [("H", 1%Q); ("O", 1%Q)] [("OH", 1%Q)] false
    (falloff (plain_arr 4000) (plain_arr 90000) c) (Some (mkCollider (Fin 1) [("H2", Fin 2); ("AR", Fin (7 # 10))])).

Definition troe4 : list xnum := map Fin [735 # 1000; 94; 1756; 5182].
Definition troe3 : list xnum := map Fin [735 # 1000; 94; 1756].

Definition small_gas : csolution := mkCSol "gas" ["H"; "O"] [h2; o; h; oh] [h2_o 38700; h_oh troe4].
(** The same in another order. *)
Definition small_gas' : csolution := mkCSol "other" ["O"; "H"] [oh'; h; h2; o] [h_oh troe4; h2_o 38700].

Definition with_reactions (l : list creaction) : csolution := mkCSol "gas" ["H"; "O"] [h2; o; h; oh] l.
Definition with_species (s : list cspecies) : csolution := mkCSol "gas" ["H"; "O"] s nil.

(** A pair of reactions marked as duplicates. *)
Definition ho2 (A : Q) : creaction :=
  mkCRx "2 OH <=> H2 + 2 O" "Arrhenius" [("OH", 2%Q)] [("H2", 1%Q); ("O", 2%Q)] true (arrhenius (plain_arr A)) None.

(** One reaction, reversible and not. *)
Definition both_ways : creaction :=
  mkCRx "OH <=> H + O" "Arrhenius" [("OH", 1%Q)] [("H", 1%Q); ("O", 1%Q)] false (arrhenius (plain_arr 5)) None.
Definition one_way : creaction :=
  mkCRx "OH => H + O" "Arrhenius" [("OH", 1%Q)] [("H", 1%Q); ("O", 1%Q)] false (arrhenius (plain_arr 5)) None.
