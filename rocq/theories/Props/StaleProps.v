(** Saved samples that do not fit are replaced (C35). *)
From Coq Require Import String List ZArith QArith Bool Arith Lia.
From Verif.Base Require Import Py Num XNum Paths.
From Verif.Model Require Import Mech World Metrics Drivers Simulation Sampling.
From Verif.Spec Require Import Samples DriverSpec DriverSamples SimSpec SimSamples SamplingSpec SamplingSamples StaleSpec.
From Verif.Proofs Require Import SamplingTop StaleFacts StaleEx.
Import ListNotations.
Local Open Scope string_scope.

(** C35: if, for each kind of case in use, a file is missing or the saved
    numbers do not fit in count, lines or columns, the simulations are run as
    in a directory without samples and their results replace the files. *)
Theorem misfit_samples_replaced :
  forall torn fuel Ph floor model phase path C m w xi xp xf,
    model_apart path C model -> shaped Ph C m -> starts_right Ph C m ->
    holds w model phase m -> measured fuel Ph floor C m xi xp xf ->
    (ca_ign C <> nil -> does_not_fit w "ignition_data.dat" "ignition_output.txt"
                          (1 * length (ca_ign C)) (20 * length (ca_ign C)) (2 + length (m_species m))) ->
    (ca_psr C <> nil -> does_not_fit w "psr_data.dat" "psr_output.txt"
                          (3 * length (ca_psr C)) (3 * length (ca_psr C)) (2 + length (m_species m))) ->
    (ca_flame C <> nil -> does_not_fit w "laminarflame_data.dat" "laminarflame_output.txt"
                          (1 * length (ca_flame C)) (20 * length (ca_flame C)) (2 + length (m_species m))) ->
    exists w', exec (sample torn fuel Ph floor model phase path C) w = (Ok (together (xi ++ xp ++ xf)), w') /\
      (ca_ign C <> nil -> saved w' "ignition_data.dat" "ignition_output.txt" (together xi)) /\
      (ca_psr C <> nil -> saved w' "psr_data.dat" "psr_output.txt" (together xp)) /\
      (ca_flame C <> nil -> saved w' "laminarflame_data.dat" "laminarflame_output.txt" (together xf)) /\
      (forall f, ~ In f sample_files -> ~ scratch path (length (ca_ign C)) f -> w_fs w' f = w_fs w f).
Proof. intros * AP SH ST H ME. now apply sample_anew. Qed.
Print Assumptions misfit_samples_replaced.

(** Four numbers in two lines where there should be two, five PSR rows instead
    of three, and flame data without metrics. *)
Example misfit_samples_replaced_case :
  does_not_fit stale_world "ignition_data.dat" "ignition_output.txt" 2 40 8 /\
  does_not_fit stale_world "psr_data.dat" "psr_output.txt" 3 3 8 /\
  does_not_fit stale_world "laminarflame_data.dat" "laminarflame_output.txt" 1 20 8 /\
  holds stale_world "mech.yaml" "" toy /\
  (length (ca_ign full_cases), length (ca_psr full_cases), length (ca_flame full_cases), length (m_species toy)) = (2, 1, 1, 6)%nat /\
  exists r w', exec (sample whole 50 full_physics None "mech.yaml" "" "out" full_cases) stale_world = (Ok r, w') /\
    fst r = [Fin (3 # 10); Fin (3 # 10); Fin (1 # 100); Fin 1500; Fin 1800; Fin (2 # 5)] /\ length (snd r) = 63%nat /\
    w_fs w' "ignition_output.txt" = Some (FNums [Fin (3 # 10); Fin (3 # 10)]).
Proof.
  split; [exact stale_ign|]. split; [exact stale_psr|]. split; [exact stale_flame|]. split; [exists [toy]; split; reflexivity|].
  split; [reflexivity|]. eexists. eexists. split; [vm_compute; reflexivity|]. repeat split; reflexivity.
Qed.
