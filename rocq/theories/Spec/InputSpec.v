(** Vocabulary for the properties of input checking. *)
From Coq Require Import String Ascii List QArith ZArith Bool.
From Verif.Base Require Import Py Num XNum Paths.
From Verif.Model Require Import Mech World Simulation Inputs.
From Verif.Spec Require Import DriverSpec SimSpec.
Import ListNotations.
Local Open Scope string_scope.

(** A number above zero.  YAML's [true] counts as 1. *)
Inductive positive : yval -> Prop :=
| pos_true : positive (YBool true)
| pos_int z : (0 < z)%Z -> positive (YInt z)
| pos_num q : (0 < q)%Q -> positive (YNum (Fin q))
| pos_inf : positive (YNum PInf).

(** Left out, or given in a way that says nothing. *)
Inductive blank : yval -> Prop :=
| blank_null : blank YNull
| blank_false : blank (YBool false)
| blank_int : blank (YInt 0)
| blank_num q : (q == 0)%Q -> blank (YNum (Fin q))
| blank_str : blank (YStr "")
| blank_list : blank (YList nil)
| blank_dict : blank (YDict nil).

(** The keys of a dictionary are distinct and not containers. *)
Definition scalar (v : yval) : Prop := match v with YList _ | YDict _ => False | _ => True end.
Definition dict_ok (d : list (yval * yval)) : Prop :=
  NoDup (map fst d) /\ Forall scalar (map fst d).

(** The value of a field of a dictionary, if it is left out the default. *)
Definition field (key : string) (default : yval) (d : list (yval * yval)) (v : yval) : Prop :=
  In (YStr key, v) d \/ (v = default /\ forall v', ~ In (YStr key, v') d).

(** Positive amounts of at least one species, all of them among [names]. *)
Definition amounts_of (names : list string) (v : yval) : Prop :=
  exists d, v = YDict d /\ d <> nil /\
    forall k x, In (k, x) d -> positive x /\ exists s, k = YStr s /\ In s names.

(** A composition: equivalence ratio with fuel and oxidizer, in moles; or
    reactants, in moles or by mass. *)
Definition mix_ok (names : list string) (x : raw_mix) : Prop :=
  (positive (rm_ratio x) /\ amounts_of names (rm_fuel x) /\ amounts_of names (rm_oxidizer x) /\
   blank (rm_reactants x) /\ rm_type x = YStr "mole") \/
  (blank (rm_ratio x) /\ blank (rm_fuel x) /\ blank (rm_oxidizer x) /\
   amounts_of names (rm_reactants x) /\ (rm_type x = YStr "mole" \/ rm_type x = YStr "mass")).

(** [x] are the composition fields of the dictionary. *)
Definition mix_fields (d : list (yval * yval)) (x : raw_mix) : Prop :=
  field "equivalence-ratio" (YNum (Fin 0)) d (rm_ratio x) /\
  field "fuel" (YList nil) d (rm_fuel x) /\
  field "oxidizer" (YList nil) d (rm_oxidizer x) /\
  field "reactants" (YList nil) d (rm_reactants x) /\
  field "composition-type" (YStr "mole") d (rm_type x).

(** The case is acceptable, and [r] has its fields. *)
Definition ign_case (names : list string) (case : yval) (r : raw_ign) : Prop :=
  exists d, case = YDict d /\
    field "kind" (YStr "") d (ri_kind r) /\
    field "temperature" (YNum (Fin 0)) d (ri_T r) /\
    field "pressure" (YNum (Fin 0)) d (ri_P r) /\
    field "end-time" (YInt 0) d (ri_end r) /\
    field "max-steps" (YInt 10000) d (ri_steps r) /\
    mix_fields d (ri_mix r) /\
    (ri_kind r = YStr "constant volume" \/ ri_kind r = YStr "constant pressure") /\
    positive (ri_T r) /\ positive (ri_P r) /\ mix_ok names (ri_mix r).
Definition psr_case (names : list string) (case : yval) (r : raw_psr) : Prop :=
  exists d, case = YDict d /\
    field "temperature" (YNum (Fin 0)) d (rp_T r) /\
    field "pressure" (YNum (Fin 0)) d (rp_P r) /\
    mix_fields d (rp_mix r) /\
    positive (rp_T r) /\ positive (rp_P r) /\ mix_ok names (rp_mix r).
Definition flame_case (names : list string) (case : yval) (r : raw_flame) : Prop :=
  exists d, case = YDict d /\
    field "temperature" (YNum (Fin 0)) d (rf_T r) /\
    field "pressure" (YNum (Fin 0)) d (rf_P r) /\
    field "width" (YNum (Fin (1 # 10))) d (rf_width r) /\
    mix_fields d (rf_mix r) /\
    positive (rf_T r) /\ positive (rf_P r) /\ positive (rf_width r) /\ mix_ok names (rf_mix r).

(** The value is a list of cases, or says that there are none.  [null] does
    not. *)
Definition listed (v : yval) (cs : list yval) : Prop :=
  v = YList cs \/ (cs = nil /\ (v = YDict nil \/ v = YStr "")).

(** The dictionaries in a list of cases have distinct scalar keys, and so has
    the value itself if it is a dictionary. *)
Definition yaml_dict (v : yval) : Prop := match v with YDict d => dict_ok d | _ => True end.
Definition yaml_cases (v : yval) : Prop :=
  yaml_dict v /\ match v with YList cs => Forall yaml_dict cs | _ => True end.

(** Fields have the documented types: numbers, and dictionaries from names to
    numbers (or nothing). *)
Definition number (v : yval) : Prop := match v with YBool _ | YInt _ | YNum _ => True | _ => False end.
Definition name_amounts (v : yval) : Prop :=
  v = YList nil \/ exists d, v = YDict d /\ forall k x, In (k, x) d -> number x /\ exists s, k = YStr s.
Definition typed_case (case : yval) : Prop :=
  exists d, case = YDict d /\
    (forall key v, In key ["temperature"; "pressure"; "width"; "equivalence-ratio"] -> In (YStr key, v) d -> number v) /\
    (forall key v, In key ["fuel"; "oxidizer"; "reactants"] -> In (YStr key, v) d -> name_amounts v).

(** The composition names species [s]. *)
Definition names_species (x : raw_mix) (s : string) : Prop :=
  exists d v, (rm_fuel x = YDict d \/ rm_oxidizer x = YDict d \/ rm_reactants x = YDict d) /\ In (YStr s, v) d.
(** Some case of the inputs does. *)
Definition case_mixes (I : inputs) : list raw_mix :=
  (map ri_mix (in_ign I) ++ map rp_mix (in_psr I) ++ map rf_mix (in_flame I))%list.
Definition used (I : inputs) (s : string) : Prop := exists x, In x (case_mixes I) /\ names_species x s.

(** ** The whole input dictionary *)

(** Everything in it is as YAML makes it. *)
Definition yaml_input (d : list (yval * yval)) : Prop :=
  dict_ok d /\
  forall key v, In key ["autoignition-conditions"; "psr-conditions"; "laminar-flame-conditions"] ->
    In (YStr key, v) d -> yaml_cases v.

(** A list, a dictionary or a string. *)
Definition container (v : yval) : Prop :=
  match v with YList _ | YDict _ | YStr _ => True | _ => False end.

(** Each of the names is a species. *)
Definition all_species (names : list string) (l : list yval) : Prop :=
  forall v, In v l -> exists s, v = YStr s /\ In s names.

(** The fields of the dictionary are acceptable and [I] has them, apart from
    the list of species to retain. *)
Record input_ok (d : list (yval * yval)) (w : world) (I : inputs) : Prop := {
  io_model : field "model" (YStr "") d (YStr (in_model I)) /\ in_model I <> "";
  io_error : field "error" (YNum (Fin 0)) d (in_error I) /\ ~ blank (in_error I);
  io_method : field "method" (YStr "") d (in_method I);
  io_sa : field "sensitivity-analysis" (YBool false) d (in_sa I);
  io_way : ~ (blank (in_method I) /\ blank (in_sa I));
  io_known : ~ blank (in_method I) -> In (in_method I) [YStr "DRG"; YStr "DRGEP"; YStr "PFA"];
  io_upper : exists u, field "upper-threshold" YNull d u /\
    ((blank u /\ ~ blank (in_sa I) /\ in_upper I = YNum (Fin (1 # 10))) \/
     ((~ blank u \/ blank (in_sa I)) /\ in_upper I = u));
  io_type : field "sensitivity-type" (YStr "initial") d (in_type I);
  io_phase : field "phase-name" (YStr "") d (YStr (in_phase I));
  io_floor : field "min-flame-speed" YNull d (in_floor I);
  io_species : exists sol ts given, holds w (in_model I) (in_phase I) sol /\
    in_targets I = YList ts /\ field "targets" (YList nil) d (YList ts) /\ all_species (species_names sol) ts /\
    (~ blank (in_method I) -> ts <> nil) /\
    field "retained-species" (YList nil) d (YList given) /\ all_species (species_names sol) given /\
    exists ci cp cf csi csp csf,
      field "autoignition-conditions" (YDict nil) d ci /\ listed ci csi /\
      field "psr-conditions" (YDict nil) d cp /\ listed cp csp /\
      field "laminar-flame-conditions" (YDict nil) d cf /\ listed cf csf /\
      ~ (csi = nil /\ csp = nil /\ csf = nil) /\
      Forall2 (ign_case (species_names sol)) csi (in_ign I) /\
      Forall2 (psr_case (species_names sol)) csp (in_psr I) /\
      Forall2 (flame_case (species_names sol)) csf (in_flame I);
  io_containers : forall x, In x (case_mixes I) ->
    container (rm_fuel x) /\ container (rm_oxidizer x) /\ container (rm_reactants x)
}.

(** Lists of targets and of species to retain are lists, as documented. *)
Definition lists_given (d : list (yval * yval)) : Prop :=
  forall key v, In key ["targets"; "retained-species"] -> In (YStr key, v) d -> exists l, v = YList l.

(** The same inputs with another list of species to retain. *)
Definition with_safe (I : inputs) (safe : yval) : inputs :=
  mkInputs (in_model I) (in_error I) (in_ign I) (in_psr I) (in_flame I) (in_method I) (in_targets I) safe
           (in_sa I) (in_upper I) (in_type I) (in_phase I) (in_floor I).

(** [l] lists the species to retain: the ones given, then, without repetition,
    those that the cases use and that are neither targets nor given. *)
Definition protects (I : inputs) (given : list yval) (ts : list yval) : Prop :=
  exists extra, in_safe I = YList (given ++ map YStr extra) /\ NoDup extra /\
    forall s, In s extra <-> used I s /\ ~ In (YStr s) ts /\ ~ In (YStr s) given.

(** The job that a run on these inputs gives the drivers, as far as species are
    concerned. *)
Definition job_of (I : inputs) (J : Drivers.job) : Prop :=
  Drivers.j_file J = in_model I /\ Drivers.j_phase J = in_phase I /\
  ynames (in_targets I) = Some (Drivers.j_targets J) /\ ynames (in_safe I) = Some (Drivers.j_safe J).

(** All cases can be set up with the model. *)
Definition sets_up (C : cases) (m : mech) : Prop :=
  (forall c, In c (ca_ign C) -> supports (ig_mix c) m) /\
  (forall c, In c (ca_psr C) -> supports (ps_mix c) m) /\
  (forall c, In c (ca_flame C) -> supports (fl_mix c) m).

(** The outcome is a value or an AssertionError. *)
Definition asserts {A} (r : res A) : Prop :=
  match r with Ok _ => True | Raise AssertionError => True | _ => False end.
