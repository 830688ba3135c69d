(** What [soln2ck.write] leaves and returns. *)
From Coq Require Import String Ascii List Bool Arith ZArith QArith.
From Verif.Base Require Import Py XNum.
From Verif.Model Require Import Chem.
From Verif.Spec Require Import TextSpec ChemkinSpec CardSpec.
Import ListNotations.
Local Open Scope string_scope.

(** ** File names *)
Definition is_dot (c : ascii) : bool := Ascii.eqb c ".".
(** A file name without directory and extension. *)
Definition stem (s : string) : Prop := s <> "" /\ free is_slash s /\ free is_dot s.
(** An extension. *)
Definition extension (e : string) : Prop := exists w, e = "." ++ w /\ free is_slash w /\ free is_dot w.
(** A directory: the current one or one given by name. *)
Definition directory (d : string) : Prop := forall t, d <> t ++ "/".
Definition inside (d f : string) : string := if String.eqb d "" then f else d ++ "/" ++ f.

(** ** Which reactions and species can be written at all *)

(** The broadening function has as many data as the export asks for. *)
Definition enough_broadening (k : rate) : Prop :=
  exists c, rt_falloff k = Some c /\
    (c = nil \/ rt_sub k = "Troe" /\ (4 <= length c)%nat \/ rt_sub k = "SRI" /\ (5 <= length c)%nat).

Inductive writable (r : creaction) : Prop :=
| w_arrhenius : cr_type r = "Arrhenius" \/ cr_type r = "three-body-Arrhenius" ->
    rt_arr (cr_rate r) <> None -> writable r
| w_falloff : starts "falloff-" (cr_type r) \/ starts "chemically-activated" (cr_type r) ->
    rt_low (cr_rate r) <> None -> rt_high (cr_rate r) <> None ->
    enough_broadening (cr_rate r) -> writable r
| w_plog : forall e l, cr_type r = "pressure-dependent-Arrhenius" -> rt_plog (cr_rate r) = Some (e :: l) -> writable r
| w_chebyshev : forall c, cr_type r = "Chebyshev" -> rt_cheb (cr_rate r) = Some c ->
    (2 <= length (ch_T c))%nat -> (2 <= length (ch_P c))%nat -> writable r.

(** The types that are known. *)
Definition known_type (t : string) : Prop :=
  In t ["Arrhenius"; "three-body-Arrhenius"; "pressure-dependent-Arrhenius"; "Chebyshev"] \/
  starts "falloff-" t \/ starts "chemically-activated" t.

(** Transport data with all that is written. *)
Definition transport_data (s : cspecies) : Prop :=
  exists t g, cs_transport s = Some t /\ dget "geometry" t = Some (TText g) /\ shape g <> None /\
    forall a, In a ["well_depth"; "diameter"; "dipole"; "polarizability"; "rotational_relaxation"] ->
      exists x, dget a t = Some (TNum x).

Definition any_transport (s : cspecies) : Prop := cs_transport s <> None.

(** ** The files *)

(** The names to be expected for the stem [b]. *)
Definition expected (b : string) (thermo transport : Prop) (l : list string) : Prop :=
  exists t r, l = (b ++ ".inp") :: t ++ r /\
    (thermo /\ t = [b ++ "_thermo.dat"] \/ ~ thermo /\ t = nil) /\
    (transport /\ r = [b ++ "_transport.dat"] \/ ~ transport /\ r = nil).

(** The same model with other reactions. *)
Definition only_reactions (l : list creaction) (s : csolution) : csolution :=
  mkCSol (so_name s) (so_elements s) (so_species s) l.

(** The same reaction with another efficiency for the species not listed. *)
Definition set_default (x : xnum) (r : creaction) : creaction :=
  mkCRx (cr_equation r) (cr_type r) (cr_reactants r) (cr_products r) (cr_duplicate r) (cr_rate r)
    match cr_third r with Some c => Some (mkCollider x (co_effs c)) | None => None end.

(** The arguments of [ck2yaml]. *)
Definition yaml_arguments (input thermo transport output : string) : list string :=
  app [append "--input=" input]
   (app (if string_dec thermo "" then [] else [append "--thermo=" thermo])
   (app (if string_dec transport "" then [] else [append "--transport=" transport])
        [append "--output=" output; "--permissive"])).
