(** Mechanisms and [reduce_model.trim]. *)
From Coq Require Import String List Bool QArith.
From Verif.Base Require Import Py Paths.
Import ListNotations.
Local Open Scope string_scope.

(** A Cantera [Species]: its name, and an opaque payload for everything
    [trim] does not look at (thermo, transport, composition). *)
Record species := mkSpecies { sp_name : string; sp_info : nat }.

(** A Cantera [ThirdBody]: [default_efficiency] and [efficiencies]. *)
Record third_body := mkTB { tb_default : Q; tb_effs : dict Q }.

(** A Cantera [Reaction]; [rx_info] is an opaque payload (rate, duplicate
    flag, equation text, ...). *)
Record reaction := mkRx {
  rx_reactants : dict Q;
  rx_products : dict Q;
  rx_third : option third_body;
  rx_info : nat
}.

(** A Cantera [Solution] as far as the reduction code observes it.  [m_TP] is
    the thermodynamic state copied by [trim]. *)
Record mech := mkMech {
  m_name : string;
  m_species : list species;
  m_reactions : list reaction;
  m_transport : string;
  m_TP : Q * Q
}.

(** [solution.species_names] *)
Definition species_names (m : mech) : list string := map sp_name (m_species m).
(** [solution.n_species] *)
Definition n_species (m : mech) : nat := length (m_species m).

(** reduce_model.py:41 — species not in the exclusion list. *)
Definition trim_species (sol : mech) (exclusion_list : list string) : list species :=
  filter (fun sp => negb (str_in (sp_name sp) exclusion_list)) (m_species sol).

(** reduce_model.py:47-54 — explicit third body that is removed: a falsy
    default efficiency, one efficiency, and its key excluded. *)
Definition explicit_removed (exclusion_list : list string) (r : reaction) : bool :=
  match rx_third r with
  | None => false
  | Some tb =>
      if negb (Qeq_bool (tb_default tb) 0) then false
      else match tb_effs tb with
           | [(k, _)] => str_in k exclusion_list
           | _ => false
           end
  end.

(** reduce_model.py:56-59 — all products and reactants are kept. *)
Definition all_kept (final_names : list string) (r : reaction) : bool :=
  forallb (fun s => str_in s final_names)
          (dkeys (rx_products r) ++ dkeys (rx_reactants r)).

(** reduce_model.py:61-66 — efficiencies restricted to kept species.  In
    Cantera the assignment mutates the reaction object of the freshly loaded
    [solution], which nothing else refers to; the model builds a new value. *)
Definition restrict_third (final_names : list string) (r : reaction) : reaction :=
  match rx_third r with
  | None => r
  | Some tb =>
      mkRx (rx_reactants r) (rx_products r)
           (Some (mkTB (tb_default tb)
                       (filter (fun kv => str_in (fst kv) final_names) (tb_effs tb))))
           (rx_info r)
  end.

(** reduce_model.py:44-67 — the loop over reactions. *)
Fixpoint trim_reactions (exclusion_list final_names : list string)
         (rs : list reaction) : list reaction :=
  match rs with
  | nil => nil
  | r :: t =>
      if explicit_removed exclusion_list r then
        trim_reactions exclusion_list final_names t
      else if all_kept final_names r then
        restrict_third final_names r :: trim_reactions exclusion_list final_names t
      else trim_reactions exclusion_list final_names t
  end.

(** reduce_model.py:40-85 — [trim] after loading.  Cantera's [Solution]
    constructor raises ValueError when the species list is empty (checked by
    tests/test_reduce_model.py); other checks of the constructor are not
    modelled. *)
Definition trim_mech (sol : mech) (exclusion_list : list string)
           (new_model_file phase_name : string) : res mech :=
  let final_species := trim_species sol exclusion_list in
  let final_names := map sp_name final_species in
  let final_reactions := trim_reactions exclusion_list final_names (m_reactions sol) in
  match final_species with
  | nil => Raise ValueError
  | _ =>
      Ok (mkMech (if String.eqb phase_name "" then fst (splitext new_model_file)
                  else phase_name)
                 final_species final_reactions (m_transport sol) (m_TP sol))
  end.
