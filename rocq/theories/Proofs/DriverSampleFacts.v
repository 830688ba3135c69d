(** The sample jobs meet the hypotheses of the driver theorems. *)
From Coq Require Import String List QArith Bool.
From Verif.Base Require Import Py Num XNum Paths.
From Verif.Model Require Import Mech Matrices Graph World Metrics Drivers.
From Verif.Spec Require Import TrimSpec Samples GraphSpec DriverSpec DriverSamples.
From Verif.Proofs Require Import SampleFacts.
Import ListNotations.
Local Open Scope string_scope.

Lemma toy_started safe bad : started (toy_job safe bad) toy_sampler toy_world toy [Fin 2] toy_rops toy_world.
Proof.
  assert (holds toy_world "mech.yaml" "" toy) as H by (exists [toy]; split; reflexivity).
  constructor; auto.
  - apply wf_mechb_sound. vm_compute. reflexivity.
  - split; [discriminate|]. intros s [<- | []]. simpl. auto.
  - intros n. unfold out_file, path_join. simpl. discriminate.
Qed.

Lemma needs_blind s bad : name_blind (mkConds [needs s bad] nil nil).
Proof.
  intros c m m' [<- | []] (E & _). unfold needs, species_names. now rewrite E.
Qed.

Lemma zero_within l : xle (Fin 0) l = true -> xle (Fin (0 # 2)) l = true.
Proof.
  destruct l; simpl; auto. rewrite !Qle_bool_iff. intros H. apply Qle_trans with 0%Q; auto. discriminate.
Qed.

Lemma toy_fair safe bad l : xle (Fin 0) l = true -> fair (toy_job safe bad) toy [Fin 2] l.
Proof.
  intros H. constructor; auto.
  - apply needs_blind.
  - exists (Fin (0 # 2)). split; [reflexivity|]. now apply zero_within.
Qed.

Lemma fan_started file : (forall n, path_join "" (reduced_name n) <> file) ->
  started (fan_job file) fan_sampler (fan_world file) fan [Fin 2] fan_rops (fan_world file).
Proof.
  intros AP.
  assert (holds (fan_world file) file "" fan) as H.
  { exists [fan]. split; [|reflexivity]. simpl. now rewrite String.eqb_refl. }
  constructor; auto.
  - apply wf_mechb_sound. vm_compute. reflexivity.
  - split; [discriminate|]. intros s [<- | []]. simpl. auto.
Qed.

Lemma fan_fair file l : xle (Fin 0) l = true -> fair (fan_job file) fan [Fin 2] l.
Proof.
  intros H. constructor; auto.
  - apply needs_blind.
  - exists (Fin (0 # 2)). split; [reflexivity|]. now apply zero_within.
Qed.
