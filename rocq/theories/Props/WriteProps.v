(** Properties of models written to files and read back (C104). *)
From Coq Require Import String List.
From Verif.Base Require Import Py.
From Verif.Model Require Import Mech World.
From Verif.Spec Require Import TrimSpec TextSpec ExportSpec WriteSpec Samples WriteSamples.
From Verif.Proofs Require Import PyFacts SampleFacts WriteFacts WriteEx.
Import ListNotations.
Local Open Scope string_scope.

(** C104: writing replaces one file, the one whose name is returned, and
    changes nothing else; without a file name it is called like the model. *)
Theorem write_replaces_one_file :
  forall w m name f d,
    directory d -> goes_to m name f -> relative f ->
    exists w', yaml_write m name d w = (Ok (inside d f), w') /\ replaced w (inside d f) m w'.
Proof. exact write_replaces. Qed.
Print Assumptions write_replaces_one_file.

Example write_replaces_one_file_case :
  directory "out" /\ goes_to toy "" "gas.yaml" /\ relative "gas.yaml" /\
  (exists w', yaml_write toy "" "out" disk = (Ok "out/gas.yaml", w') /\ w_fs w' "out/gas.yaml" = Some (FMech [toy])) /\
  w_fs disk "out/gas.yaml" = Some (FMech [toy2]).
Proof. exact toy_written. Qed.

(** C104: what was written is read back under no name and under its own, and
    under no other. *)
Theorem written_model_reads_back :
  forall w f m w' phase,
    replaced w f m w' ->
    (phase = "" \/ phase = m_name m -> load f phase w' = (Ok m, w')) /\
    (phase <> "" -> phase <> m_name m -> load f phase w' = (Raise CanteraError, w')).
Proof. exact written_found. Qed.
Print Assumptions written_model_reads_back.

Example written_model_reads_back_case :
  exists w', replaced disk "mechs/a.yaml" toy2 w' /\
    fst (load "mechs/a.yaml" "gas" w') = Ok toy2 /\ fst (load "mechs/a.yaml" "air" w') = Raise CanteraError.
Proof. exact toy2_read. Qed.

(** C104: the trimmed model has the phase name that was asked for, otherwise
    the name of the new file without extension; transport model, temperature
    and pressure are those of the original. *)
Theorem trim_names_model :
  forall sol excl d b e phase m,
    stem b -> extension e ->
    trim_mech sol excl (inside d b ++ e) phase = Ok m ->
    (phase = "" -> m_name m = inside d b) /\ (phase <> "" -> m_name m = phase) /\
    m_transport m = m_transport sol /\ m_TP m = m_TP sol.
Proof. exact trimmed_name. Qed.
Print Assumptions trim_names_model.

Example trim_names_model_case :
  stem "gas" /\ extension ".yaml" /\
  (exists m, trim_mech toy ["AR"] "new/gas.yaml" "" = Ok m /\ m_name m = "new/gas" /\ m_transport m = "mixture-averaged") /\
  (exists m, trim_mech toy ["AR"] "new/gas.yaml" "air" = Ok m /\ m_name m = "air").
Proof. exact toy_named. Qed.

(** C104: trimming the file that a trimmed model was written to is the same
    as trimming the original file at once. *)
Theorem trim_in_steps_through_files :
  forall w file phase sol A B f1 f2 name d m w1 g w2,
    model_in w file phase sol -> wf_mech sol -> no_multi_explicit sol ->
    trim file A f1 phase w = (Ok m, w1) -> yaml_write m name d w1 = (Ok g, w2) ->
    model_in w2 g phase m /\
    exists r, trim g B f2 phase w2 = (r, w2) /\ trim file (A ++ B) f2 phase w = (r, w).
Proof. exact trim_steps_files. Qed.
Print Assumptions trim_in_steps_through_files.

Example trim_in_steps_through_files_case :
  model_in disk "mechs/a.yaml" "gas" toy /\ wf_mech toy /\ no_multi_explicit toy /\
  exists m w1 w2 m2, trim "mechs/a.yaml" ["AR"] "b" "gas" disk = (Ok m, w1) /\
    yaml_write m "b.yaml" "mechs" w1 = (Ok "mechs/b.yaml", w2) /\
    trim "mechs/b.yaml" ["HO2"] "c" "gas" w2 = (Ok m2, w2) /\
    species_names m2 = ["H"; "O2"; "H2"; "N2"].
Proof. exact toy_steps. Qed.

(** C104: without a phase name the file written for a reduced model cannot be
    read under the phase name of the original. *)
Theorem reduced_file_loses_phase_name :
  forall w d b e sol A name dir m w1 g w2,
    stem b -> extension e ->
    model_in w (inside d b ++ e) "" sol ->
    trim (inside d b ++ e) A ("reduced_" ++ inside d b ++ e) "" w = (Ok m, w1) ->
    yaml_write m name dir w1 = (Ok g, w2) ->
    m_name sol <> "" -> m_name sol <> "reduced_" ++ inside d b ->
    load g "" w2 = (Ok m, w2) /\ load g (m_name sol) w2 = (Raise CanteraError, w2).
Proof. exact trim_loses_name. Qed.
Print Assumptions reduced_file_loses_phase_name.

Example reduced_file_loses_phase_name_case :
  model_in disk "mechs/a.yaml" "" toy /\
  exists m w1 w2, trim "mechs/a.yaml" ["AR"] "reduced_mechs/a.yaml" "" disk = (Ok m, w1) /\
    yaml_write m "reduced_5.yaml" "" w1 = (Ok "reduced_5.yaml", w2) /\
    m_name m = "reduced_mechs/a" /\ fst (load "mechs/a.yaml" "gas" w2) = Ok toy /\
    fst (load "reduced_5.yaml" "gas" w2) = Raise CanteraError.
Proof. exact toy_nameless. Qed.
