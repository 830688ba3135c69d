(** Properties of reading saved metrics: C90. *)
From Coq Require Import String List QArith ZArith Bool Arith.
From Verif.Base Require Import Py Num XNum.
From Verif.Model Require Import Mech World Metrics Simulation Sampling.
From Verif.Spec Require Import Samples DriverSpec DriverSamples SimSpec SimSamples SamplingSpec SamplingSamples ReadSpec.
From Verif.Proofs Require Import ReadFacts.
Import ListNotations.
Local Open Scope string_scope.

(** C90: after sampling, whatever files there were before, the saved metrics
    read as those that sampling returned, for any conditions as many of each
    kind; evaluating with reuse of saved metrics gives the same for any model. *)
Theorem saved_metrics_after_sample :
  forall torn fuel Ph floor model phase path C m w r w1 cs,
    model_apart path C model -> shaped Ph C m -> holds w model phase m ->
    exec (sample torn fuel Ph floor model phase path C) w = (Ok r, w1) ->
    length (c_ign cs) = length (ca_ign C) -> length (c_psr cs) = length (ca_psr C) ->
    length (c_flame cs) = length (ca_flame C) ->
    read_metrics cs w1 = (Ok (fst r), w1) /\
    forall model' phase', sample_metrics model' phase' cs true w1 = (Ok (fst r), w1).
Proof. exact read_after. Qed.
Print Assumptions saved_metrics_after_sample.

Example saved_metrics_after_sample_case :
  let w1 := snd (exec (sample whole 50 full_physics None "mech.yaml" "" "out" full_cases) toy_world) in
  fst (read_metrics (conds_of 50 full_physics None full_cases) w1) =
    Ok [Fin (3 # 10); Fin (3 # 10); Fin (1 # 100); Fin 1500; Fin 1800; Fin (2 # 5)] /\
  fst (sample_metrics "other.yaml" "" (conds_of 50 full_physics None full_cases) true w1) =
    Ok [Fin (3 # 10); Fin (3 # 10); Fin (1 # 100); Fin 1500; Fin 1800; Fin (2 # 5)].
Proof. vm_compute. split; reflexivity. Qed.

(** C90: the files of the kinds in use are put together in the order ignition,
    PSR, flame, without regard to the number of conditions. *)
Theorem saved_metrics_are_read :
  forall cs w i p f,
    kept_for (c_ign cs) w "ignition_output.txt" i -> kept_for (c_psr cs) w "psr_output.txt" p ->
    kept_for (c_flame cs) w "laminarflame_output.txt" f ->
    read_metrics cs w = (Ok (i ++ p ++ f)%list, w).
Proof. exact read_kept. Qed.
Print Assumptions saved_metrics_are_read.

(** C90: a kind in use without file is a SystemError, and only that. *)
Theorem missing_metrics_are_an_error :
  forall cs w,
    numbers w "ignition_output.txt" -> numbers w "psr_output.txt" -> numbers w "laminarflame_output.txt" ->
    (read_metrics cs w = (Raise SystemError, w) <->
     missing_for (c_ign cs) w "ignition_output.txt" \/ missing_for (c_psr cs) w "psr_output.txt" \/
     missing_for (c_flame cs) w "laminarflame_output.txt").
Proof. exact read_missing. Qed.
Print Assumptions missing_metrics_are_an_error.

(** C90: with as many numbers as the conditions give, reading is what
    evaluating with reuse does. *)
Theorem reading_is_reuse :
  forall cs model phase w i p f,
    kept_for (c_ign cs) w "ignition_output.txt" i -> kept_for (c_psr cs) w "psr_output.txt" p ->
    kept_for (c_flame cs) w "laminarflame_output.txt" f ->
    length i = length (c_ign cs) -> length p = (3 * length (c_psr cs))%nat -> length f = length (c_flame cs) ->
    sample_metrics model phase cs true w = read_metrics cs w.
Proof. exact read_reuse. Qed.
Print Assumptions reading_is_reuse.

(** One number saved for two conditions: read as it is, while evaluation with
    reuse runs the two simulations. *)
Example reading_is_reuse_case :
  kept_for (c_ign two_ones) short_world "ignition_output.txt" [Fin 7] /\
  read_metrics two_ones short_world = (Ok [Fin 7], short_world) /\
  sample_metrics "mech.yaml" "" two_ones true short_world = (Ok [Fin 1; Fin 2], short_world) /\
  fst (read_metrics (mkConds nil [fun _ => Ok [Fin 1; Fin 2; Fin 3]] nil) short_world) = Raise SystemError.
Proof. repeat split. Qed.
