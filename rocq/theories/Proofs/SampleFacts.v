(** The checkers of [Samples] are sound. *)
From Coq Require Import String List QArith Bool Arith.
From Verif.Base Require Import Py.
From Verif.Model Require Import Mech.
From Verif.Spec Require Import TrimSpec Samples.
From Verif.Proofs Require Import PyFacts TrimFacts.
Import ListNotations.

Lemma forallb_str_in (l names : list string) :
  forallb (fun s => str_in s names) l = true -> forall s, In s l -> In s names.
Proof.
  rewrite forallb_forall. intros H s Hs. apply str_in_iff. auto.
Qed.

Lemma nodupb_sound l : nodupb l = true -> NoDup l.
Proof.
  induction l; simpl; [constructor|]. rewrite andb_true_iff, negb_true_iff, str_in_false.
  intros [? ?]. constructor; auto.
Qed.

Lemma wf_mechb_sound m : wf_mechb m = true -> wf_mech m.
Proof.
  unfold wf_mechb, wf_mech. rewrite andb_true_iff. intros [H1 H2]. split.
  - now apply nodupb_sound.
  - rewrite forallb_forall in H2. intros r Hr. specialize (H2 r Hr).
    rewrite !andb_true_iff in H2. destruct H2 as [[A B] C]. split; intros s.
    + intros [[v Hv]|[v Hv]].
      * eapply forallb_str_in; [exact A|]. apply dkeys_in. eauto.
      * eapply forallb_str_in; [exact B|]. apply dkeys_in. eauto.
    + intros (tb & v & E & Hv). rewrite E in C.
      eapply forallb_str_in; [exact C|]. apply dkeys_in. eauto.
Qed.

Lemma no_multi_explicitb_sound m : no_multi_explicitb m = true -> no_multi_explicit m.
Proof.
  unfold no_multi_explicitb, no_multi_explicit. rewrite forallb_forall.
  intros H r tb Hr E Z. specialize (H r Hr). rewrite E in H.
  apply orb_true_iff in H. destruct H as [H|H].
  - apply Qeq_bool_iff in Z. rewrite Z in H. discriminate.
  - now apply Nat.leb_le.
Qed.
