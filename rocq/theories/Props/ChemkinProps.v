(** Property theorems about the Chemkin export and [convert]: C43-C45, C58-C66. *)
From Coq Require Import String Ascii List Bool Arith ZArith QArith Qabs.
From Verif.Base Require Import Py XNum.
From Verif.Model Require Import Chem Compare Chemkin.
From Verif.Spec Require Import TextSpec ChemkinSpec CardSpec ExportSpec CompareSamples ExportSamples.
From Verif.Proofs Require Import FormatFacts ExportFacts ExportMain ExportEx.
Import ListNotations.
Local Open Scope string_scope.

(** C43: the model file lists the elements and species, and every reaction with
    its rate converted to Chemkin units and its auxiliary data. *)
Theorem exported_model_reads_back :
  forall repr fpow, prints repr ->
  forall s b d st sp, directory d -> stem b -> usable_model s ->
  exists text rest es,
    fst (write repr (exact_arith fpow) s (b ++ ".inp") d st sp) = (inside d b ++ ".inp", text) :: rest /\
    names_in "ELEMENTS" text = so_elements s /\ names_in "SPECIES" text = map cs_name (so_species s) /\
    read_reactions text = Some es /\ Forall2 (describes (map cs_name (so_species s))) (so_reactions s) es.
Proof. exact export_reads. Qed.
Print Assumptions exported_model_reads_back.

Example exported_model_reads_back_case : prints show /\ directory "out" /\ stem "gas" /\ usable_model all_kinds.
Proof. exact export_case. Qed.

(** C44: the thermodynamic data file has a card for every species, in order. *)
Theorem exported_thermo_reads_back :
  forall repr ar s b d sp, directory d -> stem b ->
  Forall writable (so_reactions s) -> Forall fits_card (so_species s) ->
  exists text cards, In (inside d b ++ "_thermo.dat", text) (fst (write repr ar s (b ++ ".inp") d false sp)) /\
    read_thermo text = Some cards /\ Forall2 card_of (so_species s) cards.
Proof. exact thermo_file. Qed.
Print Assumptions exported_thermo_reads_back.

Example exported_thermo_reads_back_case :
  directory "out" /\ stem "gas" /\ Forall writable (so_reactions all_kinds) /\ Forall fits_card (so_species all_kinds).
Proof. exact thermo_case. Qed.

(** C45: the wrapped list of species, whatever the reactions are. *)
Theorem species_list_survives_wrapping :
  forall repr ar s b d st sp, directory d -> stem b ->
  free is_newline (so_name s) -> Forall usable_name (so_elements s) -> Forall usable_name (map cs_name (so_species s)) ->
  exists text rest, fst (write repr ar s (b ++ ".inp") d st sp) = (inside d b ++ ".inp", text) :: rest /\
    names_in "SPECIES" text = map cs_name (so_species s) /\ Forall (fits 60) (section "SPECIES" text).
Proof. exact species_list. Qed.
Print Assumptions species_list_survives_wrapping.

Example species_list_survives_wrapping_case :
  directory "" /\ stem "gas" /\ free is_newline (so_name (names_gas long_names)) /\ Forall usable_name (so_elements (names_gas long_names)) /\
  Forall usable_name (map cs_name (so_species (names_gas long_names))) /\
  section "SPECIES" (snd (hd ("", "") (fst (write show no_rounding (names_gas long_names) "gas.inp" "" true true)))) =
    ["CH2CHO  HCCOH  C3H8  N-C3H7  SINGLET-METHYLENE"; "A-VERY-LONG-SPECIES-NAME-OF-MORE-THAN-SIXTY-CHARACTERS-IN-ONE-WORD"; "CH2  AR"].
Proof. exact names_case. Qed.

(** C58: the transport data file. *)
Theorem exported_transport_reads_back :
  forall repr fpow s b d st, directory d -> stem b ->
  Forall writable (so_reactions s) ->
  (st = false -> Forall (fun x => cs_coeffs x <> nil) (so_species s)) -> Forall fits_transport (so_species s) ->
  exists text ts, In (inside d b ++ "_transport.dat", text) (fst (write repr (exact_arith fpow) s (b ++ ".inp") d st false)) /\
    read_transport text = Some ts /\ Forall2 transport_of (so_species s) ts.
Proof. exact transport_file. Qed.
Print Assumptions exported_transport_reads_back.

Example exported_transport_reads_back_case :
  directory "out" /\ stem "gas" /\ Forall writable (so_reactions hydrogen) /\
  Forall (fun x => cs_coeffs x <> nil) (so_species hydrogen) /\ Forall fits_transport (so_species hydrogen).
Proof. exact transport_case. Qed.

(** C59: when the export succeeds. *)
Theorem export_succeeds_iff :
  forall repr ar s f d st sp,
  (exists l, snd (write repr ar s f d st sp) = Ok l) <->
  Forall writable (so_reactions s) /\
  (st = false -> Forall (fun x => cs_coeffs x <> nil) (so_species s)) /\
  (sp = false -> Forall any_transport (so_species s) -> Forall transport_data (so_species s)).
Proof. exact export_iff. Qed.
Print Assumptions export_succeeds_iff.

(** C59: the files written are those named in the result. *)
Theorem export_returns_the_files :
  forall repr ar s b d st sp l, directory d -> stem b ->
  snd (write repr ar s (b ++ ".inp") d st sp) = Ok l ->
  map fst (fst (write repr ar s (b ++ ".inp") d st sp)) = l /\
  expected (inside d b) (st = false) (sp = false /\ Forall any_transport (so_species s)) l.
Proof. exact export_names. Qed.
Print Assumptions export_returns_the_files.

Example export_returns_the_files_case :
  snd (write show no_rounding hydrogen "gas.inp" "out" false false) = Ok ["out/gas.inp"; "out/gas_thermo.dat"; "out/gas_transport.dat"] /\
  snd (write show no_rounding all_kinds "gas.inp" "" true false) = Ok ["gas.inp"] /\
  snd (write show no_rounding (two_species h2_t h) "gas.inp" "" false false) = Ok ["gas.inp"; "gas_thermo.dat"] /\
  snd (write show no_rounding (two_species h2_t h2) "gas.inp" "" false false) = Ok ["gas.inp"; "gas_thermo.dat"; "gas_transport.dat"] /\
  snd (write show no_rounding with_surface "gas.inp" "" false false) = Raise NotImplementedErr /\
  snd (write show no_rounding with_troe3 "gas.inp" "" false false) = Raise IndexError.
Proof. exact success_case. Qed.

(** C60: a reaction that cannot be written leaves a file that holds the
    reactions before it and no end mark. *)
Theorem export_stops_at_unsupported_reaction :
  forall repr ar s pre r post b d st sp, directory d -> stem b ->
  so_reactions s = (pre ++ r :: post)%list -> Forall writable pre -> ~ writable r ->
  exists text e rest, write repr ar s (b ++ ".inp") d st sp = ([(inside d b ++ ".inp", text)], Raise e) /\
    fst (write repr ar (only_reactions pre s) (b ++ ".inp") d st sp) = (inside d b ++ ".inp", text ++ "END") :: rest /\
    (~ known_type (cr_type r) -> e = NotImplementedErr) /\
    ((starts "falloff-" (cr_type r) \/ starts "chemically-activated" (cr_type r)) ->
     rt_low (cr_rate r) <> None -> rt_high (cr_rate r) <> None ->
     (exists c, rt_falloff (cr_rate r) = Some c /\ c <> nil) ->
     rt_sub (cr_rate r) = "Troe" \/ rt_sub (cr_rate r) = "SRI" -> e = IndexError).
Proof. exact export_stops. Qed.
Print Assumptions export_stops_at_unsupported_reaction.

Example export_stops_at_unsupported_reaction_case :
  directory "" /\ stem "gas" /\
  (so_reactions with_surface = [h2_o 38700] ++ surface :: [h_oh troe4])%list /\ Forall writable [h2_o 38700] /\ ~ writable surface /\ ~ known_type (cr_type surface) /\
  (so_reactions with_troe3 = [h2_o 38700] ++ h_oh troe3 :: [activated])%list /\ ~ writable (h_oh troe3) /\
  starts "falloff-" (cr_type (h_oh troe3)).
Proof. exact stops_case. Qed.

(** C61: [convert] of a Cantera model. *)
Theorem convert_writes_chemkin :
  forall repr ar load ck2yaml from b e thermo transport d s,
  directory d -> stem b -> In e [".yaml"; ".yml"; ".cti"] -> load (inside from b ++ e) = Ok s ->
  convert repr ar load ck2yaml (inside from b ++ e) thermo transport d =
  (fst (write repr ar s (b ++ ".inp") d false false), bind (snd (write repr ar s (b ++ ".inp") d false false)) (fun l => Ok (Names l))).
Proof. exact convert_to_chemkin. Qed.
Print Assumptions convert_writes_chemkin.

(** C61: the files are in the directory given, not in that of the model, and
    those named in the result. *)
Theorem convert_returns_the_files :
  forall repr ar load ck2yaml from b e thermo transport d s files c,
  directory d -> stem b -> In e [".yaml"; ".yml"; ".cti"] -> load (inside from b ++ e) = Ok s ->
  convert repr ar load ck2yaml (inside from b ++ e) thermo transport d = (files, Ok c) ->
  exists l, c = Names l /\ map fst files = l /\ expected (inside d b) True (Forall any_transport (so_species s)) l.
Proof. exact convert_names. Qed.
Print Assumptions convert_returns_the_files.

(** C61: [convert] of any other file. *)
Theorem convert_calls_ck2yaml :
  forall repr ar load ck2yaml from b e thermo transport d,
  directory d -> stem b -> extension e -> ~ In e [".yaml"; ".yml"; ".cti"] ->
  convert repr ar load ck2yaml (inside from b ++ e) thermo transport d =
  (nil, bind (ck2yaml (yaml_arguments (inside from b ++ e) thermo transport (inside d b ++ ".yaml")))
       (fun _ => Ok (Name (inside d b ++ ".yaml")))).
Proof. exact convert_to_yaml. Qed.
Print Assumptions convert_calls_ck2yaml.

Example convert_calls_ck2yaml_case :
  forall load ck2yaml, load "mechs/gas.yml" = Ok hydrogen ->
  snd (convert show no_rounding load ck2yaml "mechs/gas.yml" "" "" "out") = Ok (Names ["out/gas.inp"; "out/gas_thermo.dat"; "out/gas_transport.dat"]) /\
  (ck2yaml ["--input=mechs/gas.txt"; "--transport=tr.dat"; "--output=gas.yaml"; "--permissive"] = Ok tt ->
   convert show no_rounding load ck2yaml "mechs/gas.txt" "" "tr.dat" "" = (nil, Ok (Name "gas.yaml"))).
Proof. exact convert_case. Qed.

(** C62: the efficiency of species that are not listed is not exported: models
    that differ in nothing else give the same files. *)
Theorem default_efficiency_is_lost_refuted :
  forall repr ar x s f d st sp,
  write repr ar (only_reactions (map (set_default x) (so_reactions s)) s) f d st sp = write repr ar s f d st sp.
Proof. exact default_lost. Qed.
Print Assumptions default_efficiency_is_lost_refuted.

Example default_efficiency_is_lost_refuted_case : set_default (Fin 0) (h_oh troe4) <> h_oh troe4.
Proof. discriminate. Qed.

(** C63: an equation of 51 characters is not separated from the first number,
    and the file cannot be read. *)
Theorem long_equation_refuted :
  exists s r text rest,
    so_reactions s = [r] /\ exportable r /\ free is_newline (cr_equation r) /\ free is_slash (cr_equation r) /\ (String.length (cr_equation r) = 51)%nat /\
    Forall usable_name (so_elements s) /\ Forall usable_name (map cs_name (so_species s)) /\
    write show no_rounding s "gas.inp" "" true true = ((("gas.inp", text) :: rest), Ok ["gas.inp"]) /\ read_reactions text = None.
Proof. exact long_refuted. Qed.
Print Assumptions long_equation_refuted.

(** C64: Chebyshev coefficients keep the units of the model.  The rate below is
    10^a (m^3/kmol)/s at all temperatures and pressures, that is 10^(a+3)
    (cm^3/mol)/s; the file says 10^a. *)
Theorem chebyshev_units_refuted :
  exists s r c a text rest e t p n v,
    usable_model s /\ so_reactions s = [r] /\ order r 2 /\ rt_cheb (cr_rate r) = Some c /\ ch_data c = [[Fin a]] /\
    fst (write show no_rounding s "gas.inp" "" true true) = (("gas.inp", text) :: rest) /\ read_reactions text = Some [e] /\
    e_aux e = [Data "TCHEB" t; Data "PCHEB" p; Data "CHEB" n; Data "CHEB" [v]] /\
    (v == a)%Q /\ ~ (v == a + 3)%Q.
Proof. exact chebyshev_refuted. Qed.
Print Assumptions chebyshev_units_refuted.

(** C65: the exported numbers are not precise enough for [compare_models]. *)
Theorem exported_model_matches_refuted :
  exists A A' text rest e,
    let s := with_reactions [h2_o A] in
    usable_model s /\ fst (write show no_rounding s "gas.inp" "" true true) = (("gas.inp", text) :: rest) /\
    read_reactions text = Some [e] /\ Forall2 Qeq [A' * 1000; 27 # 10; 26150000 / 4184]%Q (e_rate e) /\
    compare_models s s = Ok true /\ compare_models s (with_reactions [h2_o A']) = Ok false.
Proof. exact precision_refuted. Qed.
Print Assumptions exported_model_matches_refuted.

(** C65: activation energies of falloff reactions have four digits. *)
Theorem falloff_energy_refuted :
  exists s r a text rest e vA vb vE,
    usable_model s /\ so_reactions s = [r] /\ rt_high (cr_rate r) = Some (energetic a) /\
    fst (write show no_rounding s "gas.inp" "" true true) = (("gas.inp", text) :: rest) /\
    read_reactions text = Some [e] /\ e_rate e = [vA; vb; vE] /\ (Qabs (vE - cal_per_mol a) > (4 # 10000) * cal_per_mol a)%Q.
Proof. exact energy_refuted. Qed.
Print Assumptions falloff_energy_refuted.

(** C66: a species of five elements shifts the columns of its card. *)
Theorem five_elements_refuted :
  exists s x text rest, so_species s = [x] /\ length (cs_comp x) = 5%nat /\
    Forall (fun e => token (fst e) /\ (String.length (fst e) <= 2)%nat /\ (snd e == 1)%Q) (cs_comp x) /\
    write show no_rounding s "gas.inp" "" false true = ([rest; ("gas_thermo.dat", text)], Ok ["gas.inp"; "gas_thermo.dat"]) /\
    read_thermo text = None.
Proof. exact elements_refuted. Qed.
Print Assumptions five_elements_refuted.

(** C66: fractions of atoms are cut off. *)
Theorem fraction_of_atom_refuted :
  exists s x text rest c, so_species s = [x] /\ cs_comp x = [("C", (15 # 2)%Q)] /\
    fst (write show no_rounding s "gas.inp" "" false true) = [rest; ("gas_thermo.dat", text)] /\
    read_thermo text = Some [c] /\ cd_elements c = [("C", 7%Q)].
Proof. exact fraction_refuted. Qed.
Print Assumptions fraction_of_atom_refuted.

(** C66: thermodynamic data that are no NASA polynomials are written as if they
    were, without an error. *)
Theorem other_thermo_refuted :
  exists s x text rest, so_species s = [x] /\ length (cs_coeffs x) = 4%nat /\
    write show no_rounding s "gas.inp" "" false true = ([rest; ("gas_thermo.dat", text)], Ok ["gas.inp"; "gas_thermo.dat"]) /\
    read_thermo text = None.
Proof. exact thermo_refuted. Qed.
Print Assumptions other_thermo_refuted.
