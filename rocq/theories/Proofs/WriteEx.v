(** Examples about writing and reading back. *)
From Coq Require Import String List.
From Verif.Base Require Import Py.
From Verif.Model Require Import Mech World.
From Verif.Spec Require Import TrimSpec TextSpec ExportSpec WriteSpec Samples WriteSamples.
From Verif.Proofs Require Import PyFacts SampleFacts StepFacts WriteFacts.
Import ListNotations.
Local Open Scope string_scope.

Lemma plain_directory : directory "out".
Proof. intros t. destruct t as [|a [|b [|c [|d t]]]]; cbn; congruence. Qed.

Lemma toy_written :
  directory "out" /\ goes_to toy "" "gas.yaml" /\ relative "gas.yaml" /\
  (exists w', yaml_write toy "" "out" disk = (Ok "out/gas.yaml", w') /\ w_fs w' "out/gas.yaml" = Some (FMech [toy])) /\
  w_fs disk "out/gas.yaml" = Some (FMech [toy2]).
Proof.
  split; [exact plain_directory|]. split; [exact (goes_default toy)|].
  split; [split; [discriminate|intros t; discriminate]|].
  split; [eexists; split; vm_compute; reflexivity|reflexivity].
Qed.

Lemma toy2_read :
  exists w', replaced disk "mechs/a.yaml" toy2 w' /\
    fst (load "mechs/a.yaml" "gas" w') = Ok toy2 /\ fst (load "mechs/a.yaml" "air" w') = Raise CanteraError.
Proof.
  exists (mkWorld (fs_set "mechs/a.yaml" (Some (FMech [toy2])) (w_fs disk)) nil).
  split; [|split; reflexivity]. split; [reflexivity|]. split; [|reflexivity].
  intros g N. cbn [w_fs]. unfold fs_set. apply String.eqb_neq in N. rewrite N. reflexivity.
Qed.

Lemma gas_stem : stem "gas".
Proof. split; [discriminate|]. split; cbn; auto 10. Qed.
Lemma yaml_extension : extension ".yaml".
Proof. exists "yaml". split; [reflexivity|]. split; cbn; auto 10. Qed.

Lemma toy_named :
  stem "gas" /\ extension ".yaml" /\
  (exists m, trim_mech toy ["AR"] "new/gas.yaml" "" = Ok m /\ m_name m = "new/gas" /\ m_transport m = "mixture-averaged") /\
  (exists m, trim_mech toy ["AR"] "new/gas.yaml" "air" = Ok m /\ m_name m = "air").
Proof.
  split; [exact gas_stem|]. split; [exact yaml_extension|].
  split; eexists; (split; [vm_compute; reflexivity|]); repeat split.
Qed.

Lemma toy_steps :
  model_in disk "mechs/a.yaml" "gas" toy /\ wf_mech toy /\ no_multi_explicit toy /\
  exists m w1 w2 m2, trim "mechs/a.yaml" ["AR"] "b" "gas" disk = (Ok m, w1) /\
    yaml_write m "b.yaml" "mechs" w1 = (Ok "mechs/b.yaml", w2) /\
    trim "mechs/b.yaml" ["HO2"] "c" "gas" w2 = (Ok m2, w2) /\
    species_names m2 = ["H"; "O2"; "H2"; "N2"].
Proof.
  split; [apply load_model_in; reflexivity|].
  split; [apply wf_mechb_sound; vm_compute; reflexivity|].
  split; [apply no_multi_explicitb_sound; vm_compute; reflexivity|].
  do 4 eexists. split; [vm_compute; reflexivity|]. split; [vm_compute; reflexivity|]. split; vm_compute; reflexivity.
Qed.

Lemma toy_nameless :
  model_in disk "mechs/a.yaml" "" toy /\
  exists m w1 w2, trim "mechs/a.yaml" ["AR"] "reduced_mechs/a.yaml" "" disk = (Ok m, w1) /\
    yaml_write m "reduced_5.yaml" "" w1 = (Ok "reduced_5.yaml", w2) /\
    m_name m = "reduced_mechs/a" /\ fst (load "mechs/a.yaml" "gas" w2) = Ok toy /\
    fst (load "reduced_5.yaml" "gas" w2) = Raise CanteraError.
Proof.
  split; [apply load_model_in; reflexivity|].
  do 3 eexists. split; [vm_compute; reflexivity|]. split; [vm_compute; reflexivity|]. repeat split; vm_compute; reflexivity.
Qed.
