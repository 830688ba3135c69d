(** The sample runs meet the hypotheses of the theorems. *)
From Coq Require Import String Ascii List QArith Bool.
From Verif.Base Require Import Py Num XNum Paths.
From Verif.Model Require Import Mech World Metrics Drivers Sensitivity.
From Verif.Spec Require Import TrimSpec Samples DriverSpec DriverSamples SensitivitySpec SaSamples.
From Verif.Proofs Require Import SampleFacts SaFacts.
Import ListNotations.
Local Open Scope string_scope.

Lemma prefix_iff p f : prefix p f = true <-> exists r, f = p ++ r.
Proof.
  split.
  - revert f. induction p as [|c p IH]; intros f H; [exists f; reflexivity|].
    destruct f as [|d f]; [discriminate|]. simpl in H. destruct (ascii_dec c d); [|discriminate]. subst.
    destruct (IH f H) as (r & ->). exists r. reflexivity.
  - intros (r & ->). apply prefix_app.
Qed.

Lemma sample_temps w : w = sa_world \/ w = bare_world -> temps w "/tmp/a" "/tmp/b".
Proof.
  intros W. constructor.
  - exists "a"%char. split; [reflexivity|discriminate].
  - exists "b"%char. split; [reflexivity|discriminate].
  - intros f H. apply prefix_iff in H. destruct H as (r & ->). reflexivity.
  - intros f H. apply prefix_iff in H. destruct H as (r & ->). destruct W; subst; reflexivity.
  - intros f H. apply prefix_iff in H. destruct H as (r & ->). destruct W; subst; reflexivity.
Qed.

Lemma sample_started w path start limit alg lim pen : w = sa_world \/ w = bare_world ->
  sa_started (fan_sa path start limit alg lim pen) w "/tmp/a" "/tmp/b" fan.
Proof.
  intros W. constructor.
  - apply wf_mechb_sound. reflexivity.
  - exists [fan]. destruct W; subst; split; reflexivity.
  - now apply sample_temps.
Qed.

Lemma fan_candidates w path start limit alg pen :
  candidates (fan_sa path start limit alg nil pen) w fan ["B"; "C"; "D"].
Proof.
  right. split; [reflexivity|]. split; [apply sub_drop; repeat apply sub_keep; constructor|]. intros s. simpl. split.
  - intros [E|[E|[E|[]]]]; subst s; (split; [tauto|intros X; destruct X as [X|X]; [discriminate|exact X]]).
  - intros [[E|[E|[E|[E|[]]]]] N]; subst s; tauto.
Qed.
