(** The checkers in Spec/InputSamples.v are right. *)
From Coq Require Import String List QArith ZArith Bool.
From Verif.Base Require Import Py Num XNum Paths.
From Verif.Model Require Import Mech World Metrics Drivers Simulation Inputs.
From Verif.Spec Require Import TrimSpec Samples DriverSpec DriverSamples SimSamples InputSpec InputSamples.
From Verif.Proofs Require Import PyFacts SampleFacts InputFacts InputMore.
Import ListNotations.
Local Open Scope string_scope.

Lemma nodupb_ok l : nodupb l = true -> NoDup l.
Proof.
  induction l as [|x t IH]; simpl; intro E; [constructor|]. apply andb_true_iff in E as (N & E).
  constructor; [|auto]. apply negb_true_iff in N. now apply str_in_false in N.
Qed.

Lemma all_some_str l ss : all_some ystr l = Some ss -> l = map YStr ss.
Proof.
  revert ss. induction l as [|x t IH]; simpl; intros ss E; [injection E as <-; reflexivity|].
  destruct x; simpl in E; try discriminate. destruct (all_some ystr t) as [r|]; [|discriminate].
  injection E as <-. simpl. now rewrite (IH r).
Qed.

Lemma keysb_ok d : keysb d = true -> dict_ok d.
Proof.
  unfold keysb, dict_ok. destruct (all_some ystr (map fst d)) as [l|] eqn:E; [|discriminate].
  intro N. apply nodupb_ok in N. rewrite (all_some_str _ _ E). clear E. split.
  - induction N as [|x t I N IH]; [constructor|]. simpl. constructor; [|exact IH].
    rewrite in_map_iff. intros (y & Q & J). congruence.
  - apply Forall_forall. intros v I. apply in_map_iff in I as (s & <- & _). exact Logic.I.
Qed.

Lemma casesb_ok v : casesb v = true -> yaml_cases v.
Proof.
  destruct v as [| | | | |l|d]; simpl; intro E; split; try exact I; simpl.
  - apply Forall_forall. intros c J. rewrite forallb_forall in E. specialize (E c J). destruct c; try exact I. now apply keysb_ok.
  - now apply keysb_ok.
Qed.

Lemma inputb_ok d : inputb d = true -> yaml_input d /\ lists_given d.
Proof.
  unfold inputb. rewrite !andb_true_iff, !forallb_forall. intros ((K & C) & L). split; [split|].
  - now apply keysb_ok.
  - intros key v IK J. specialize (C _ J). simpl in C. apply str_in_iff in IK. 
    change (key =? "autoignition-conditions")%string with (String.eqb key "autoignition-conditions") in C.
    unfold str_in in IK. simpl in IK. rewrite IK in C. simpl in C. now apply casesb_ok.
  - intros key v IK J. specialize (L _ J). simpl in L. apply str_in_iff in IK. unfold str_in in IK. simpl in IK.
    rewrite IK in L. simpl in L. destruct v; try discriminate. eauto.
Qed.

Lemma o2_started : started o2_job o2_sampler toy_world toy [Fin (3 # 10)] toy_rops toy_world.
Proof.
  assert (holds toy_world "mech.yaml" "" toy) as H by (exists [toy]; split; reflexivity).
  constructor; auto.
  - apply wf_mechb_sound. vm_compute. reflexivity.
  - split; [discriminate|]. intros s [<- | []]. simpl. auto.
  - intros n. unfold out_file, path_join. simpl. discriminate.
Qed.

Lemma toy_blind fuel floor C : name_blind (conds_of fuel toy_physics floor C).
Proof.
  intros c m m' Ic (E & _). assert (N : species_names m = species_names m') by (unfold species_names; now rewrite E).
  unfold conds_of in Ic. simpl in Ic. rewrite !in_app_iff, !in_map_iff in Ic.
  destruct Ic as [(x & <- & _)|[(x & <- & _)|(x & <- & _)]].
  - unfold ign_cond, setup_gas. simpl. now rewrite N.
  - unfold psr_cond, setup_gas. simpl. now rewrite N.
  - unfold flame_cond, setup_gas. simpl. now rewrite N.
Qed.

Lemma o2_fair : fair o2_job toy [Fin (3 # 10)] (Fin 200).
Proof.
  constructor.
  - apply toy_blind.
  - reflexivity.
  - eexists. split; [vm_compute; reflexivity|reflexivity].
Qed.
