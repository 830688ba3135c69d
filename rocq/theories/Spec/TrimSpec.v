(** Independent vocabulary for the properties of [trim]. *)
From Coq Require Import String List QArith.
From Verif.Base Require Import Py.
From Verif.Model Require Import Mech.
Import ListNotations.

(** [l'] is obtained from [l] by deleting elements. *)
Inductive sublist {A : Type} : list A -> list A -> Prop :=
| sub_nil : sublist nil nil
| sub_drop x l' l : sublist l' l -> sublist l' (x :: l)
| sub_keep x l' l : sublist l' l -> sublist (x :: l') (x :: l).

(** The species takes part in the reaction as reactant or product. *)
Definition participates (s : string) (r : reaction) : Prop :=
  (exists v, In (s, v) (rx_reactants r)) \/ (exists v, In (s, v) (rx_products r)).

(** The species is named as a collider of the reaction. *)
Definition collider (s : string) (r : reaction) : Prop :=
  exists tb v, rx_third r = Some tb /\ In (s, v) (tb_effs tb).

(** The reaction has one explicit collider (default efficiency zero), [s]. *)
Definition explicit_collider (s : string) (r : reaction) : Prop :=
  exists tb v, rx_third r = Some tb /\ (tb_default tb == 0)%Q /\ tb_effs tb = [(s, v)].

(** A mechanism as Cantera loads it: distinct species names, and reactions
    that mention declared species only. *)
Definition wf_mech (m : mech) : Prop :=
  NoDup (species_names m) /\
  forall r, In r (m_reactions m) ->
    (forall s, participates s r -> In s (species_names m)) /\
    (forall s, collider s r -> In s (species_names m)).

(** The reaction survives the exclusion of the species in [excl]. *)
Definition survives (excl : list string) (r : reaction) : Prop :=
  (forall s, participates s r -> ~ In s excl) /\
  (forall s, explicit_collider s r -> ~ In s excl).

(** [r'] is [r] with excluded species deleted from its collider list. *)
Definition restricted (excl : list string) (r r' : reaction) : Prop :=
  rx_reactants r' = rx_reactants r /\
  rx_products r' = rx_products r /\
  rx_info r' = rx_info r /\
  match rx_third r, rx_third r' with
  | None, None => True
  | Some tb, Some tb' =>
      tb_default tb' = tb_default tb /\
      sublist (tb_effs tb') (tb_effs tb) /\
      (forall s v, In (s, v) (tb_effs tb') <-> In (s, v) (tb_effs tb) /\ ~ In s excl)
  | _, _ => False
  end.

(** The second list arises from the first by deleting the reactions that do
    not survive and restricting the others. *)
Inductive reactions_trimmed (excl : list string) : list reaction -> list reaction -> Prop :=
| rt_nil : reactions_trimmed excl nil nil
| rt_drop r l l' : ~ survives excl r -> reactions_trimmed excl l l' ->
    reactions_trimmed excl (r :: l) l'
| rt_keep r r' l l' : survives excl r -> restricted excl r r' ->
    reactions_trimmed excl l l' -> reactions_trimmed excl (r :: l) (r' :: l').

(** Two reactions that form a duplicate pair in the sense of Cantera: the same
    species take part, and their third bodies have the same kind and colliders. *)
Definition same_participants (r1 r2 : reaction) : Prop :=
  (forall s, participates s r1 <-> participates s r2) /\
  (forall s, explicit_collider s r1 <-> explicit_collider s r2).

(** No third body has a zero default efficiency together with two or more
    named colliders. *)
Definition no_multi_explicit (m : mech) : Prop :=
  forall r tb, In r (m_reactions m) -> rx_third r = Some tb ->
    (tb_default tb == 0)%Q -> (length (tb_effs tb) <= 1)%nat.
