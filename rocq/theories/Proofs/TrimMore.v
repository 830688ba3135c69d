(** Further lemmas about [trim]. *)
From Coq Require Import String List Bool QArith Lia.
From Verif.Base Require Import Py.
From Verif.Model Require Import Mech.
From Verif.Spec Require Import TrimSpec Samples.
From Verif.Proofs Require Import PyFacts TrimFacts SampleFacts.
Import ListNotations.
Local Open Scope string_scope.

Lemma trim_fails_iff sol excl f ph :
  trim_mech sol excl f ph = Raise ValueError <->
  (forall sp, In sp (m_species sol) -> In (sp_name sp) excl).
Proof.
  rewrite <- (trim_raises_iff sol excl f ph).
  destruct (trim_raises_valueerror sol excl f ph) as [[m E]|E]; rewrite E; split; intros H.
  - discriminate.
  - exfalso. eapply H. reflexivity.
  - discriminate.
  - reflexivity.
Qed.

Lemma trim_antitone_lemma sol A B f ph mA mB :
  wf_mech sol -> incl A B ->
  trim_mech sol A f ph = Ok mA -> trim_mech sol B f ph = Ok mB ->
  incl (m_species mB) (m_species mA) /\
  incl (map rx_info (m_reactions mB)) (map rx_info (m_reactions mA)).
Proof.
  intros W I HA HB.
  pose proof (trim_species_spec _ _ _ _ _ HA) as [_ SA].
  pose proof (trim_species_spec _ _ _ _ _ HB) as [_ SB]. split.
  - intros x Hx. apply SA. apply SB in Hx. destruct Hx. split; auto.
  - intros i Hi. apply in_map_iff in Hi. destruct Hi as (r' & E & Hr').
    pose proof (trim_reactions_ok _ _ _ _ _ W HA) as TA.
    pose proof (trim_reactions_ok _ _ _ _ _ W HB) as TB.
    destruct (reactions_trimmed_in _ _ _ _ TB Hr') as (r & H1 & [S1 S2] & R).
    assert (survives A r) as S.
    { split; intros s Hs K; [eapply S1|eapply S2]; eauto. }
    destruct (reactions_trimmed_in2 _ _ _ _ TA H1 S) as (r2 & H2 & R2).
    apply in_map_iff. exists r2. split; auto.
    destruct R as (_ & _ & R & _), R2 as (_ & _ & R2 & _). congruence.
Qed.

Lemma trim_compose_fails :
  exists sol A B f ph m1,
    wf_mech sol /\ trim_mech sol A f ph = Ok m1 /\
    trim_mech m1 B f ph <> trim_mech sol (A ++ B) f ph /\
    exists m r tb, trim_mech sol (A ++ B) f ph = Ok m /\ In r (m_reactions m) /\
      rx_third r = Some tb /\ (tb_default tb == 0)%Q /\ tb_effs tb = nil.
Proof.
  exists toy2, ["AR"], ["HE"], "f", "gas". eexists.
  split; [apply wf_mechb_sound; vm_compute; reflexivity|].
  split; [vm_compute; reflexivity|]. split; [vm_compute; discriminate|].
  do 3 eexists. split; [vm_compute; reflexivity|]. simpl. split; [left; reflexivity|].
  simpl. repeat split.
Qed.

Lemma toy_pair :
  exists r1 r2, nth_error (m_reactions toy) 2 = Some r1 /\ nth_error (m_reactions toy) 3 = Some r2 /\
    same_participants r1 r2 /\ NoDup (map rx_info (m_reactions toy)) /\
    exists m', trim_mech toy ["N2"] "f" "" = Ok m'.
Proof.
  do 2 eexists. split; [reflexivity|]. split; [reflexivity|]. split; [split|split].
  - intros s. unfold participates. simpl.
    assert (K : forall (P Q : Prop), (P <-> Q) -> P <-> Q) by auto. apply K.
    split; (intros [[v H]|[v H]];
      [left|right]; exists v; intuition congruence).
  - intros s. unfold explicit_collider. simpl. split; intros (tb & v & E & _); discriminate.
  - repeat constructor; simpl; intuition congruence.
  - eexists. vm_compute. reflexivity.
Qed.
