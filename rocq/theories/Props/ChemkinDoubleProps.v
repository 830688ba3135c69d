(** C102: the Chemkin export when the unit conversions are computed with doubles. *)
From Coq Require Import String List ZArith QArith.
From Verif.Base Require Import Py XNum B64.
From Verif.Model Require Import Chem Compare Chemkin ChemkinDouble.
From Verif.Spec Require Import TextSpec ChemkinSpec CardSpec ExportSpec CompareSamples ExportSamples ChemkinDoubleSpec ChemkinDoubleSamples.
From Verif.Proofs Require Import ChemkinDoubleFacts ChemkinDoubleEx.
Import ListNotations.
Local Open Scope string_scope.

(** The model file has every reaction with numbers that are, to the printed
    digits, those converted to Chemkin units up to a relative error of 2^-51. *)
Theorem double_export_reads_back :
  forall repr pow1000, prints repr -> good_power pow1000 ->
  forall s b d st sp, directory d -> stem b -> usable_model s -> double_rates s ->
  exists text rest es,
    fst (write repr (double_arith pow1000) s (b ++ ".inp") d st sp) = (inside d b ++ ".inp", text) :: rest /\
    names_in "ELEMENTS" text = so_elements s /\ names_in "SPECIES" text = map cs_name (so_species s) /\
    read_reactions text = Some es /\ Forall2 (describes_by rounded (map cs_name (so_species s))) (so_reactions s) es.
Proof. exact double_export_reads. Qed.
Print Assumptions double_export_reads_back.

Example double_export_reads_back_case :
  prints show /\ good_power nearest_power /\ directory "out" /\ stem "gas" /\ usable_model even_kinds /\ double_rates even_kinds.
Proof. exact double_export_case. Qed.

(** The same of the transport data file. *)
Theorem double_transport_reads_back :
  forall repr pow1000 s b d st, directory d -> stem b ->
  Forall writable (so_reactions s) ->
  (st = false -> Forall (fun x => cs_coeffs x <> nil) (so_species s)) ->
  Forall (fits_by roomy) (so_species s) -> double_transport s ->
  exists text ts, In (inside d b ++ "_transport.dat", text) (fst (write repr (double_arith pow1000) s (b ++ ".inp") d st false)) /\
    read_transport text = Some ts /\ Forall2 (transport_by rounded) (so_species s) ts.
Proof. exact double_transport_file. Qed.
Print Assumptions double_transport_reads_back.

Example double_transport_reads_back_case :
  directory "out" /\ stem "gas" /\ Forall writable (so_reactions even_hydrogen) /\
  Forall (fun x => cs_coeffs x <> nil) (so_species even_hydrogen) /\ Forall (fits_by roomy) (so_species even_hydrogen) /\
  double_transport even_hydrogen.
Proof. exact double_transport_case. Qed.

(** The rounding can change the last printed digit. *)
Theorem double_export_digits_refuted :
  exists s t1 r1 t2 r2 e1 e2,
    usable_model s /\ double_rates s /\
    fst (write show (double_arith nearest_power) s "gas.inp" "" true true) = ("gas.inp", t1) :: r1 /\
    fst (write show no_rounding s "gas.inp" "" true true) = ("gas.inp", t2) :: r2 /\
    read_reactions t1 = Some [e1] /\ read_reactions t2 = Some [e2] /\
    Forall2 Qeq (e_rate e1) [10070 # 10; 0; 0] /\ Forall2 Qeq (e_rate e2) [10071 # 10; 0; 0].
Proof. exact digits_refuted. Qed.
Print Assumptions double_export_digits_refuted.
