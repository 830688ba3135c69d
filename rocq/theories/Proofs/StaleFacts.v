(** Sampling where samples that do not fit are saved. *)
From Coq Require Import String Ascii List QArith ZArith Bool Arith Lia.
From Verif.Base Require Import Py Num XNum Paths.
From Verif.Model Require Import Mech World Metrics Drivers Simulation Sampling.
From Verif.Spec Require Import MetricSpec DriverSpec SimSpec SamplingSpec StaleSpec.
From Verif.Proofs Require Import PyFacts ProgFacts SamplingFacts SamplingMore SamplingEnd SamplingWhole SamplingTop.
Import ListNotations.
Local Open Scope string_scope.

Lemma table_reads rows k : table_of rows k -> text_array (FTable rows) = Ok (Arr2 rows) /\ length (concat rows) = (length rows * k)%nat /\
  exists r t, rows = r :: t /\ length r = k.
Proof.
  intros (L & K & E). destruct rows as [|r1 [|r2 t]]; simpl in L; try lia. split; [|split].
  - cbv beta iota delta [text_array].
    assert (rect (r1 :: r2 :: t) = true) as ->.
    { unfold rect. apply forallb_forall. intros y Y. rewrite (E y) by (right; auto). rewrite (E r1) by (left; auto). apply Nat.eqb_refl. }
    rewrite (E r1) by (left; auto). cbv beta iota delta [negb]. destruct (Nat.leb_spec k 1); [lia|reflexivity].
  - revert E. generalize (r1 :: r2 :: t). clear. induction l as [|r l IH]; intros E; [reflexivity|].
    cbn [concat length]. rewrite app_length, (E r) by (left; auto). rewrite IH by (intros; apply E; now right). reflexivity.
  - exists r1, (r2 :: t). split; [reflexivity|]. apply E. now left.
Qed.

Section OnePart.
  Variables (torn : xnum -> list xnum) (model phase data output : string) (nm nc pc : nat) (jobs : prog case_result).
  Variable m : mech.

  Lemma misfit_exec w : holds w model phase m -> does_not_fit w data output nm (pc * nc) (2 + n_species m) ->
    exec (sample_part torn model phase data output nm nc pc jobs) w = exec (recompute torn data output jobs) w.
  Proof.
    intros H U. unfold sample_part, pis_file, genfromtxt, pload, pret.
    destruct U as [E|[E|(c & n & d & k & EO & HN & ED & TD & NE)]].
    - simpl. rewrite E. simpl. destruct (w_fs w output); reflexivity.
    - simpl. rewrite E, andb_false_r. reflexivity.
    - destruct (table_reads d k TD) as (RD & _ & r & t & Er & Lr).
      assert (exists o, text_array c = Ok o /\ arr_size o = n) as (o & RO & So).
      { destruct HN as [l|rows cols T]; [exists (Arr1 l); auto|]. destruct (table_reads rows cols T) as (R & S & _). exists (Arr2 rows). auto. }
      simpl. rewrite ED, EO. simpl. rewrite EO, RO. simpl. rewrite ED, RD. simpl. destruct H as (ph & -> & ->). simpl.
      assert ((Nat.eqb (arr_size o) nm && Nat.eqb (length d) (pc * nc) &&
               Nat.eqb (match d with nil => 0%nat | r :: _ => length r end) (S (S (n_species m))))%bool = false) as ->; [|reflexivity].
      rewrite So. rewrite Er at 2. rewrite Lr.
      destruct (Nat.eqb_spec n nm), (Nat.eqb_spec (length d) (pc * nc)), (Nat.eqb_spec k (S (S (n_species m)))); try reflexivity.
      exfalso. subst. simpl in NE. tauto.
  Qed.
End OnePart.

Section Anew.
  Variables (torn : xnum -> list xnum) (fuel : nat) (Ph : physics) (floor : option Q) (model phase path : string) (C : cases) (m : mech).
  Hypothesis AP : model_apart path C model.
  Hypothesis SH : shaped Ph C m.
  Let Sc := scratch path (length (ca_ign C)).

  Lemma part_anew {A} (cs : list A) data output a pc jobs xs w :
    In data sample_files -> In output sample_files -> data <> output ->
    within jobs (fun f => f = model) Sc ->
    (forall w, holds w model phase m -> exists w', exec jobs w = (Ok (together xs), w')) ->
    (cs = nil -> together xs = (nil, nil)) ->
    holds w model phase m -> (cs <> nil -> does_not_fit w data output (a * length cs) (pc * length cs) (2 + n_species m)) ->
    exists w1, exec (part_of torn model phase cs data output a pc jobs) w = (Ok (together xs), w1) /\
      (cs <> nil -> saved w1 data output (together xs)) /\
      (forall f, f <> data -> f <> output -> ~ Sc f -> w_fs w1 f = w_fs w f).
  Proof.
    intros ID IO NE W J N H U. unfold part_of. destruct cs as [|c cs'] eqn:EC.
    - exists w. rewrite N by reflexivity. split; [reflexivity|]. split; [congruence|auto].
    - rewrite <- EC in *. rewrite (if_any_ne _ _ _ _ EC). assert (cs <> nil) as NN by congruence.
      rewrite (misfit_exec torn model phase data output _ _ _ jobs m w H (U NN)).
      destruct (J w H) as (w2 & E2). destruct (recompute_exec torn data output jobs NE w _ _ E2) as (w3 & E3 & S3 & F3).
      exists w3. split; [exact E3|]. split; [auto|]. intros f N1 N2 N3. rewrite F3 by auto.
      pose proof (exec_frame _ _ _ W w f N3) as X. now rewrite E2 in X.
  Qed.

  Lemma fit_frame v w data output a b c : w_fs v data = w_fs w data -> w_fs v output = w_fs w output ->
    does_not_fit w data output a b c -> does_not_fit v data output a b c.
  Proof. unfold does_not_fit. intros -> ->. auto. Qed.

  Ltac inf := clear; unfold sample_files; simpl; tauto.
  Ltac elsewhere F := apply F; [discriminate|discriminate|apply not_scratch; inf].

  Lemma sample_anew w xi xp xf : starts_right Ph C m -> holds w model phase m -> measured fuel Ph floor C m xi xp xf ->
    (ca_ign C <> nil -> does_not_fit w data_ignition output_ignition (1 * length (ca_ign C)) (20 * length (ca_ign C)) (2 + n_species m)) ->
    (ca_psr C <> nil -> does_not_fit w data_psr output_psr (3 * length (ca_psr C)) (3 * length (ca_psr C)) (2 + n_species m)) ->
    (ca_flame C <> nil -> does_not_fit w data_flame output_flame (1 * length (ca_flame C)) (20 * length (ca_flame C)) (2 + n_species m)) ->
    exists w', exec (sample torn fuel Ph floor model phase path C) w = (Ok (together (xi ++ xp ++ xf)), w') /\
      (ca_ign C <> nil -> saved w' data_ignition output_ignition (together xi)) /\
      (ca_psr C <> nil -> saved w' data_psr output_psr (together xp)) /\
      (ca_flame C <> nil -> saved w' data_flame output_flame (together xf)) /\
      (forall f, ~ In f sample_files -> ~ Sc f -> w_fs w' f = w_fs w f).
  Proof.
    intros ST H ME UI UP UF. apply measured_iff in ME; [|exact ST]. destruct ME as (MI & MP & MF).
    destruct (part_anew (ca_ign C) data_ignition output_ignition 1 20 (ign_jobs fuel Ph model phase path (ca_ign C)) xi w ltac:(inf) ltac:(inf) ltac:(discriminate) (ign_jobs_within fuel Ph model phase path (ca_ign C)))
      as (w1 & E1 & S1 & F1).
    { intros v Hv. destruct (ign_run fuel Ph model phase path C m AP v Hv) as (v' & X). rewrite MI in X. eauto. }
    { intros N. rewrite N in MI. injection MI as <-. reflexivity. }
    { exact H. }
    { exact UI. }
    assert (holds w1 model phase m) as H1.
    { destruct H as (ph & X & Y). exists ph. split; [|exact Y]. rewrite <- X.
      apply F1; [apply (off _ _ _ AP); inf|apply (off _ _ _ AP); inf|apply (proj1 AP)]. }
    destruct (part_anew (ca_psr C) data_psr output_psr 3 3 (psr_jobs Ph model phase (ca_psr C)) xp w1 ltac:(inf) ltac:(inf) ltac:(discriminate) (psr_jobs_within Ph model phase (ca_psr C) Sc))
      as (w2 & E2 & S2 & F2).
    { intros v Hv. destruct (psr_run Ph model phase C m v Hv) as (v' & X). rewrite MP in X. eauto. }
    { intros N. rewrite N in MP. injection MP as <-. reflexivity. }
    { exact H1. }
    { intros N. eapply fit_frame; [| |apply UP, N]; elsewhere F1. }
    assert (holds w2 model phase m) as H2.
    { destruct H1 as (ph & X & Y). exists ph. split; [|exact Y]. rewrite <- X.
      apply F2; [apply (off _ _ _ AP); inf|apply (off _ _ _ AP); inf|apply (proj1 AP)]. }
    destruct (part_anew (ca_flame C) data_flame output_flame 1 20 (flame_jobs Ph floor model phase (ca_flame C)) xf w2 ltac:(inf) ltac:(inf) ltac:(discriminate) (flame_jobs_within Ph floor model phase (ca_flame C) Sc))
      as (w3 & E3 & S3 & F3).
    { intros v Hv. destruct (flame_run Ph floor model phase C m v Hv) as (v' & X). rewrite MF in X. eauto. }
    { intros N. rewrite N in MF. injection MF as <-. reflexivity. }
    { exact H2. }
    { intros N. eapply fit_frame; [| |apply UF, N].
      - transitivity (w_fs w1 data_flame); [elsewhere F2|elsewhere F1].
      - transitivity (w_fs w1 output_flame); [elsewhere F2|elsewhere F1]. }
    exists w3. split; [|split; [|split; [|split]]].
    - rewrite sample_parts, exec_bind. unfold pI, pP, pF. rewrite E1, exec_bind, E2, exec_bind, E3.
      simpl. rewrite <- !together_app. reflexivity.
    - intros N. destruct (S1 N) as [A B]. split.
      + transitivity (w_fs w2 data_ignition); [elsewhere F3|]. transitivity (w_fs w1 data_ignition); [elsewhere F2|exact A].
      + transitivity (w_fs w2 output_ignition); [elsewhere F3|]. transitivity (w_fs w1 output_ignition); [elsewhere F2|exact B].
    - intros N. destruct (S2 N) as [A B]. split.
      + transitivity (w_fs w2 data_psr); [elsewhere F3|exact A].
      + transitivity (w_fs w2 output_psr); [elsewhere F3|exact B].
    - exact S3.
    - intros f I NS.
      assert (forall g, In g sample_files -> f <> g) as D by (intros g G ->; contradiction).
      clear - F1 F2 F3 D NS. rewrite F3, F2, F1; try exact NS; try reflexivity; apply D; inf.
  Qed.
End Anew.
