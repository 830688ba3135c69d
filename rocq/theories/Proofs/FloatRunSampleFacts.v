(** Facts about the samples of Spec/FloatRunSamples.v. *)
From Coq Require Import String List ZArith QArith Qabs Bool Arith Lia.
From Verif.Base Require Import Py Num XNum Paths B64.
From Verif.Model Require Import Mech Matrices Graph World Metrics Drivers FloatDrivers FloatMatrix FloatPfa FloatRun.
From Verif.Spec Require Import TrimSpec Samples GraphSpec DriverSpec DriverSamples FloatSpec FloatMatrixSpec FloatSamples
  FloatRunSpec FloatRunSamples.
From Verif.Proofs Require Import DriverSampleFacts FloatDriverFacts FloatSampleFacts.
Import ListNotations.
Local Open Scope string_scope.

Lemma fork_fstarted J b c : j_file J = "mech.yaml" -> j_phase J = "" -> j_path J = "out" -> j_targets J = ["A"] ->
  fstarted J (fork_fsampler b c) fork_world fork [Fin 2] (fork_rates b c) fork_world.
Proof.
  intros E1 E2 E3 E4. pose proof fork_started as S. destruct S as [S1 S2 S3 S4 S5 S6].
  assert (holds fork_world (j_file J) (j_phase J) fork) as H by (rewrite E1, E2; exact S2).
  constructor; auto.
  - split; [rewrite E4; discriminate|]. rewrite E4. exact (proj2 S3).
  - intros n. unfold out_file, path_join. rewrite E1, E3. simpl. discriminate.
Qed.

Definition fork_ready (b c : Z) : bool := forallb (fun rop => moderateb (fkin_of fork rop)) (fork_rates b c).

Lemma fork_tame J b c : fork_ready b c = true -> j_upper J = None \/ j_upper J = Some (1 # 2)%Q ->
  tame J fork (fork_rates b c).
Proof.
  intros R U. constructor.
  - intros rop H. apply moderateb_ok. unfold fork_ready in R. rewrite forallb_forall in R. now apply R.
  - vm_compute. discriminate.
  - intros u E. exists (b64_of_frac 1 2). destruct U as [U|U]; rewrite U in E; [discriminate|].
    injection E as <-. split; vm_compute; reflexivity.
Qed.

Definition fork_seen (b c : Z) : bool :=
  forallb (fun rop => forallb (fun a => not_tinyb (drg_total (exact (fkin_of fork rop)) a) &&
                                        not_tinyb (drgep_total (exact (fkin_of fork rop)) a))%bool [0; 1; 2]%nat)
          (fork_rates b c).

Lemma fork_measured me b c : fork_seen b c = true -> measured me 2 fork (fork_rates b c).
Proof.
  intros R rop H. split.
  - destruct H as [<-|[]]. simpl. lia.
  - intros a Ha. unfold fork_seen in R. rewrite forallb_forall in R. specialize (R rop H). rewrite forallb_forall in R.
    assert (In a [0; 1; 2]%nat) as Ia.
    { change (a < 3)%nat in Ha. simpl. lia. }
    specialize (R a Ia).
    apply andb_true_iff in R. destruct R as [R1 R2]. destruct me; now apply not_tinyb_ok.
Qed.
