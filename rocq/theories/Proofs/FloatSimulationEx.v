(** The samples of simulations with doubles. *)
From Coq Require Import String List ZArith QArith Bool Arith.
From Verif.Base Require Import Py Num XNum B64.
From Verif.Model Require Import Mech World Simulation SaveText FloatDrivers FloatSampling FloatSimulation.
From Verif.Spec Require Import Samples SimSpec SimSamples FloatMatrixSpec FloatProfiles FloatSimulationSpec FloatSimulationSamples.
Import ListNotations.
Local Open Scope string_scope.

Lemma double_by x T : b64_finite x -> Qeq_bool (b64_val x) T && Qle_bool 1 T && Qle_bool T 1048576 = true -> double_temperature T.
Proof.
  intros F H. apply andb_prop in H. destruct H as [H H3]. apply andb_prop in H. destruct H as [H1 H2].
  split; [exists x; split; [exact F|now apply Qeq_bool_iff]|split; now apply Qle_bool_iff].
Qed.

Lemma coarse_case :
  let c := mkIgn "constant volume" 1000 1 1 0 (mix "O2") in
  double_temperature (ig_T c) /\ coarse (ig_T c) /\
  ign_cond 50 (hair_physics double_calc) c toy = Ok [Fin (1 # 10)].
Proof.
  split; [apply (double_by (b64_of_Z 1000)); reflexivity|]. split; [exists (1000 * 2 ^ 32)%Z; reflexivity|].
  vm_compute. reflexivity.
Qed.

Lemma hair_differs : ph_calc (hair_physics exact_calc) = exact_calc /\ double_temperature (ig_T hair_case) /\
  ign_cond 50 (with_doubles (hair_physics exact_calc)) hair_case toy = Ok [Fin (1 # 10)] /\
  ign_cond 50 (hair_physics exact_calc) hair_case toy = Ok [Fin (2 # 10)].
Proof.
  split; [reflexivity|]. split; [|vm_compute; split; reflexivity].
  apply (double_by (b64_of_Q false just_above_1000)); vm_compute; reflexivity.
Qed.

Lemma flame_points :
  exists p0 rest rows rows', as_points flame_298_15 = p0 :: rest /\
    double_temperature (p_T p0) /\ double_temperature (p_T (last (as_points flame_298_15) p0)) /\
    sample_profile (A := double_calc) (as_points flame_298_15) = Ok rows /\
    sample_profile (A := exact_calc) (as_points flame_298_15) = Ok rows' /\
    firstn 7 rows = firstn 7 rows' /\ nth_error rows' 7 <> nth_error rows 7 /\
    nth_error rows 19 = Some (repeat 0%Q (2 + length (p_Y p0))) /\
    nth_error rows' 19 <> nth_error rows 19.
Proof.
  eexists _, _, _, _. split; [reflexivity|].
  split; [apply (double_by (fp_T (hd (mkFPoint (b64_of_Z 0) (b64_of_Z 0) nil) flame_298_15))); vm_compute; reflexivity|].
  split; [apply (double_by (fp_T (last flame_298_15 (mkFPoint (b64_of_Z 0) (b64_of_Z 0) nil)))); vm_compute; reflexivity|].
  split; [vm_compute; reflexivity|]. split; [vm_compute; reflexivity|]. split; [vm_compute; reflexivity|].
  split; [vm_compute; discriminate|]. split; [vm_compute; reflexivity|]. vm_compute. discriminate.
Qed.
