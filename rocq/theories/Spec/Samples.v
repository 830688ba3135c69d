(** Small concrete mechanisms used in the examples beside the theorems. *)
From Coq Require Import String List QArith Bool.
From Verif.Base Require Import Py.
From Verif.Model Require Import Mech.
From Verif.Spec Require Import TrimSpec.
Import ListNotations.
Local Open Scope string_scope.

Definition sp (n : string) (i : nat) := mkSpecies n i.
Definition rx (re pr : dict Q) (tb : option third_body) (i : nat) := mkRx re pr tb i.

(** H + O2 (+M) <=> HO2 with efficiencies, an explicit collider AR, a
    duplicate pair, and plain reactions. *)
Definition toy : mech := mkMech "gas"
  [sp "H" 0; sp "O2" 1; sp "HO2" 2; sp "AR" 3; sp "H2" 4; sp "N2" 5]
  [rx [("H", 1); ("O2", 1)] [("HO2", 1)] (Some (mkTB 1 [("H2", 2#1); ("AR", 7#10)])) 0;
   rx [("H", 1); ("O2", 1)] [("HO2", 1)] (Some (mkTB 0 [("AR", 1)])) 1;
   rx [("HO2", 1); ("H", 1)] [("H2", 1); ("O2", 1)] None 2;
   rx [("HO2", 1); ("H", 1)] [("O2", 1); ("H2", 1)] None 3;
   rx [("H", 2)] [("H2", 1)] None 4]
  "mixture-averaged" (300, 101325).

(** Like a reaction with two named colliders and zero default efficiency. *)
Definition toy2 : mech := mkMech "gas"
  [sp "H" 0; sp "H2" 1; sp "AR" 2; sp "HE" 3]
  [rx [("H", 2)] [("H2", 1)] (Some (mkTB 0 [("AR", 1); ("HE", 1)])) 0]
  "" (300, 101325).

Fixpoint nodupb (l : list string) : bool :=
  match l with
  | nil => true
  | x :: t => negb (str_in x t) && nodupb t
  end.

(** A checker for [wf_mech]. *)
Definition wf_mechb (m : mech) : bool :=
  let names := species_names m in
  nodupb names &&
  forallb (fun r =>
    forallb (fun s => str_in s names) (dkeys (rx_reactants r)) &&
    forallb (fun s => str_in s names) (dkeys (rx_products r)) &&
    match rx_third r with
    | None => true
    | Some tb => forallb (fun s => str_in s names) (dkeys (tb_effs tb))
    end) (m_reactions m).

Definition no_multi_explicitb (m : mech) : bool :=
  forallb (fun r => match rx_third r with
    | None => true
    | Some tb => negb (Qeq_bool (tb_default tb) 0) || Nat.leb (length (tb_effs tb)) 1
    end) (m_reactions m).
