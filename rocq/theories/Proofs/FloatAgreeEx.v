(** The sample of Props/FloatAgreeProps.v. *)
From Coq Require Import String List ZArith QArith Qabs Bool Arith Lia.
From Verif.Base Require Import Py Num XNum Paths B64.
From Verif.Model Require Import Mech Matrices Graph World Metrics Drivers FloatDrivers FloatMatrix FloatPfa FloatRun.
From Verif.Spec Require Import TrimSpec GraphSpec DriverSpec FloatSpec FloatMatrixSpec FloatRunSpec FloatRunSamples FloatAgreeSpec FloatAgreeSamples.
From Verif.Proofs Require Import StepFacts StepInst DriverSampleFacts FloatRunSampleFacts.
Import ListNotations.
Local Open Scope string_scope.

Section Decide.
  Variables (J : job) (sol : mech) (rops : list (list b64)).
  Hypothesis T : incl (j_targets J) (species_names sol).
  Notation Ms := (xmatrices DRG sol rops).

  Definition keeps (t : Q) : list string :=
    match retained Ms (species_names sol) (j_targets J) t with Ok l => (l ++ j_safe J)%list | _ => nil end.
  Definition drops (t : Q) : list string := not_in (species_names sol) (keeps t).

  Lemma keeps_ok t s : In s (keeps t) <-> xkept DRG J sol rops t s.
  Proof.
    destruct (retained_spec Ms (species_names sol) (j_targets J) t T) as (keep & E & _ & K).
    unfold keeps, xkept. rewrite E, in_app_iff, K. tauto.
  Qed.

  Lemma drops_ok t m : trim_mech sol (drops t) ("reduced_" ++ j_file J) (j_phase J) = Ok m ->
    cut_to J sol (xkept DRG J sol rops t) m.
  Proof.
    intros E. exists (drops t). split; auto. intros s Hs. unfold drops. rewrite not_in_spec, <- keeps_ok. tauto.
  Qed.

  Definition apart (n i k : nat) : bool :=
    let q := times (S k) (start_at i) in
    let d := off_by k q (coefficient_bound DRG (n_species sol) n) in
    (negb (Qle_bool q d) && forallb (fun Mx => forallb (fun v => negb (Qle_bool (Qabs (v - q)) d)) (0%Q :: concat Mx)) Ms)%bool.

  Lemma lt_of a b : negb (Qle_bool b a) = true -> (a < b)%Q.
  Proof.
    intros H. destruct (Qlt_le_dec a b) as [|L]; auto. apply Qle_bool_iff in L. rewrite L in H. discriminate.
  Qed.

  Lemma mget_in Mx i j : In (mget Mx i j) (0%Q :: concat Mx).
  Proof.
    unfold mget. destruct (nth_in_or_default i Mx nil) as [H|H].
    - destruct (nth_in_or_default j (nth i Mx nil) 0%Q) as [G|G].
      + right. apply in_concat. eauto.
      + rewrite G. now left.
    - rewrite H. left. now destruct j.
  Qed.

  Lemma apart_ok n i k : apart n i k = true -> stays_off DRG J sol rops n i k.
  Proof.
    unfold apart, stays_off. intros H. apply andb_true_iff in H. destruct H as [H1 H2]. split; [now apply lt_of|].
    intros v (Mx & a & b & HM & ->). rewrite forallb_forall in H2. specialize (H2 Mx HM).
    rewrite forallb_forall in H2. apply lt_of, H2, mget_in.
  Qed.
End Decide.

(** B takes a quarter of a percent. *)
Lemma quarter_scanned :
  scanned fork_job fork [Fin 2] (Fin 10) (xkept DRG fork_job fork (fork_rates 25 9975)) 1 2.
Proof.
  assert (incl (j_targets fork_job) (species_names fork)) as T by (intros x [<-|[]]; now left).
  split; [|split; [lia|split]].
  - intros i Hi. assert (i = 0)%nat as -> by lia.
    eexists _, _. split; [apply (drops_ok _ _ _ T); vm_compute; reflexivity|]. split; vm_compute; reflexivity.
  - intros i Hi. assert (i = 1 \/ i = 2)%nat as [-> | ->] by lia;
      (eexists _, _; split; [apply (drops_ok _ _ _ T); vm_compute; reflexivity|]; split; vm_compute; reflexivity).
  - eexists _, _. split; [apply (drops_ok _ _ _ T); vm_compute; reflexivity|]. split; vm_compute; reflexivity.
Qed.

Lemma quarter_off : 
  stays_off DRG fork_job fork (fork_rates 25 9975) 2 0 0 /\
  forall i, (i <= 2)%nat -> stays_off DRG fork_job fork (fork_rates 25 9975) 2 1 i.
Proof.
  split; [apply apart_ok; vm_compute; reflexivity|].
  intros i Hi. assert (i = 0 \/ i = 1 \/ i = 2)%nat as [-> | [-> | ->]] by lia; apply apart_ok; vm_compute; reflexivity.
Qed.

(** B takes one part in ten million. *)
Lemma trace_all : forall i, (i < starts_f DRG)%nat ->
  stays_off DRG fork_job fork (fork_rates 1 9999999) 2 i 0 /\
  exceeds fork_job fork [Fin 2] (Fin 10) (xkept DRG fork_job fork (fork_rates 1 9999999) (start_at i)).
Proof.
  assert (incl (j_targets fork_job) (species_names fork)) as T by (intros x [<-|[]]; now left).
  intros i Hi. change (i < 3)%nat in Hi. assert (i = 0 \/ i = 1 \/ i = 2)%nat as [-> | [-> | ->]] by lia;
    (split; [apply apart_ok; vm_compute; reflexivity|];
     eexists _, _; split; [apply (drops_ok _ _ _ T); vm_compute; reflexivity|]; split; vm_compute; reflexivity).
Qed.

Lemma fork_back_fstarted b c :
  fstarted fork_back_job (fork_fsampler b c) fork_world fork [Fin 2] (fork_rates b c) fork_world.
Proof.
  pose proof (fork_fstarted fork_job b c eq_refl eq_refl eq_refl eq_refl) as S. destruct S as [S1 S2 S3 S4 S5 S6].
  constructor; auto.
  split; [discriminate|]. intros x [<-|[]]. right. now left.
Qed.

Lemma fork_back_fair : fair fork_back_job fork [Fin 2] (Fin 10).
Proof.
  constructor; [apply needs_blind|reflexivity|]. exists (Fin (0 # 2)). split; reflexivity.
Qed.

Lemma fork_tame_back : tame fork_back_job fork (fork_rates 5 995).
Proof. apply fork_tame; [vm_compute; reflexivity|now left]. Qed.
