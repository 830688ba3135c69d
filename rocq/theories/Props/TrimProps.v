(** Properties of [trim] (C01-C04). *)
From Coq Require Import String List QArith.
From Verif.Base Require Import Py.
From Verif.Model Require Import Mech.
From Verif.Spec Require Import TrimSpec Samples.
From Verif.Proofs Require Import PyFacts TrimFacts SampleFacts TrimMore.
Import ListNotations.
Local Open Scope string_scope.

(** C01: the result holds exactly the species that were not excluded, in
    their original order. *)
Theorem trim_keeps_exactly_requested_species :
  forall sol excl f ph m',
    trim_mech sol excl f ph = Ok m' ->
    sublist (m_species m') (m_species sol) /\
    (forall sp, In sp (m_species m') <-> In sp (m_species sol) /\ ~ In (sp_name sp) excl).
Proof. exact trim_species_spec. Qed.
Print Assumptions trim_keeps_exactly_requested_species.

Example trim_keeps_exactly_requested_species_case :
  exists m', trim_mech toy ["AR"; "XX"; "AR"] "reduced_a.yaml" "" = Ok m' /\
             species_names m' = ["H"; "O2"; "HO2"; "H2"; "N2"] /\ m_name m' = "reduced_a".
Proof. eexists. split; [vm_compute; reflexivity|]. split; reflexivity. Qed.

(** C01: the call fails exactly when nothing would be left, and then with ValueError. *)
Theorem trim_fails_iff_nothing_left :
  forall sol excl f ph,
    trim_mech sol excl f ph = Raise ValueError <->
    (forall sp, In sp (m_species sol) -> In (sp_name sp) excl).
Proof. exact trim_fails_iff. Qed.
Print Assumptions trim_fails_iff_nothing_left.

Example trim_fails_iff_nothing_left_case :
  trim_mech toy2 ["HE"; "H"; "AR"; "H2"] "f" "gas" = Raise ValueError /\
  trim_mech toy2 ["HE"; "H"; "AR"] "f" "gas" <> Raise ValueError.
Proof. split; [reflexivity|discriminate]. Qed.

(** C01: only the set of excluded names that occur in the model matters. *)
Theorem trim_depends_on_known_names_only :
  forall sol A B f ph,
    wf_mech sol ->
    (forall s, In s (species_names sol) -> (In s A <-> In s B)) ->
    trim_mech sol A f ph = trim_mech sol B f ph.
Proof. exact trim_set_only. Qed.
Print Assumptions trim_depends_on_known_names_only.

Example trim_depends_on_known_names_only_case :
  wf_mech toy /\
  trim_mech toy ["AR"; "H2"] "f" "" = trim_mech toy ["H2"; "QQ"; "AR"; "H2"] "f" "".
Proof. split; [apply wf_mechb_sound|]; vm_compute; reflexivity. Qed.

(** C02: reactions: exactly the surviving ones, in order, changed only by
    dropping excluded colliders. *)
Theorem trim_keeps_exactly_surviving_reactions :
  forall sol excl f ph m',
    wf_mech sol -> trim_mech sol excl f ph = Ok m' ->
    reactions_trimmed excl (m_reactions sol) (m_reactions m').
Proof. exact trim_reactions_ok. Qed.
Print Assumptions trim_keeps_exactly_surviving_reactions.

Example trim_keeps_exactly_surviving_reactions_case :
  wf_mech toy /\
  exists m', trim_mech toy ["AR"] "f" "" = Ok m' /\
             map rx_info (m_reactions m') = [0; 2; 3; 4]%nat.
Proof.
  split; [apply wf_mechb_sound; vm_compute; reflexivity|].
  eexists. split; [vm_compute; reflexivity|reflexivity].
Qed.

(** C02: the result is again a well-formed mechanism: no reactant, product or
    collider names a species that is not in it. *)
Theorem trim_leaves_no_dangling_reference :
  forall sol excl f ph m',
    wf_mech sol -> trim_mech sol excl f ph = Ok m' -> wf_mech m'.
Proof. exact trim_no_dangling. Qed.
Print Assumptions trim_leaves_no_dangling_reference.

Example trim_leaves_no_dangling_reference_case :
  exists m', trim_mech toy ["H2"; "N2"] "f" "gas" = Ok m' /\ wf_mech m' /\
             map rx_third (m_reactions m') =
             [Some (mkTB 1 [("AR", 7#10)]); Some (mkTB 0 [("AR", 1)])].
Proof.
  eexists. split; [vm_compute; reflexivity|]. split; [|reflexivity].
  apply wf_mechb_sound; vm_compute; reflexivity.
Qed.

(** C02: excluding more never keeps more. *)
Theorem trim_antitone :
  forall sol A B f ph mA mB,
    wf_mech sol -> incl A B ->
    trim_mech sol A f ph = Ok mA -> trim_mech sol B f ph = Ok mB ->
    incl (m_species mB) (m_species mA) /\
    incl (map rx_info (m_reactions mB)) (map rx_info (m_reactions mA)).
Proof. exact trim_antitone_lemma. Qed.
Print Assumptions trim_antitone.

Example trim_antitone_case :
  exists mA mB, trim_mech toy ["AR"] "f" "" = Ok mA /\ trim_mech toy ["AR"; "O2"] "f" "" = Ok mB /\
    map rx_info (m_reactions mA) = [0; 2; 3; 4]%nat /\ map rx_info (m_reactions mB) = [4]%nat.
Proof. do 2 eexists. repeat split; vm_compute; reflexivity. Qed.

(** C03: trimming in two steps equals trimming at once, if no third body has
    zero default efficiency and several named colliders. *)
Theorem trim_in_steps :
  forall sol A B f1 f2 ph m1,
    wf_mech sol -> no_multi_explicit sol ->
    trim_mech sol A f1 ph = Ok m1 ->
    trim_mech m1 B f2 ph = trim_mech sol (A ++ B) f2 ph.
Proof. exact trim_compose. Qed.
Print Assumptions trim_in_steps.

Example trim_in_steps_case :
  wf_mech toy /\ no_multi_explicit toy /\
  exists m1, trim_mech toy ["AR"] "f" "" = Ok m1 /\
             exists m2, trim_mech m1 ["HO2"] "g" "" = Ok m2 /\ map rx_info (m_reactions m2) = [4]%nat.
Proof.
  split; [apply wf_mechb_sound; vm_compute; reflexivity|].
  split; [apply no_multi_explicitb_sound; vm_compute; reflexivity|].
  eexists. split; [vm_compute; reflexivity|]. eexists. split; vm_compute; reflexivity.
Qed.

(** C03: without that restriction the law is false: at once, the reaction is
    kept although no collider is left and its rate is identically zero; in
    steps it is removed. *)
Theorem trim_in_steps_refuted :
  exists sol A B f ph m1,
    wf_mech sol /\ trim_mech sol A f ph = Ok m1 /\
    trim_mech m1 B f ph <> trim_mech sol (A ++ B) f ph /\
    exists m r tb, trim_mech sol (A ++ B) f ph = Ok m /\ In r (m_reactions m) /\
      rx_third r = Some tb /\ (tb_default tb == 0)%Q /\ tb_effs tb = nil.
Proof. exact trim_compose_fails. Qed.
Print Assumptions trim_in_steps_refuted.

(** C04: duplicate pairs survive together or vanish together. *)
Theorem trim_keeps_duplicates_together :
  forall sol excl f ph m' r1 r2,
    wf_mech sol -> trim_mech sol excl f ph = Ok m' ->
    In r1 (m_reactions sol) -> In r2 (m_reactions sol) ->
    NoDup (map rx_info (m_reactions sol)) ->
    same_participants r1 r2 ->
    (exists r1', In r1' (m_reactions m') /\ rx_info r1' = rx_info r1) <->
    (exists r2', In r2' (m_reactions m') /\ rx_info r2' = rx_info r2).
Proof. exact trim_pairs. Qed.
Print Assumptions trim_keeps_duplicates_together.

Example trim_keeps_duplicates_together_case :
  exists r1 r2, nth_error (m_reactions toy) 2 = Some r1 /\ nth_error (m_reactions toy) 3 = Some r2 /\
    same_participants r1 r2 /\ NoDup (map rx_info (m_reactions toy)) /\
    exists m', trim_mech toy ["N2"] "f" "" = Ok m'.
Proof. exact toy_pair. Qed.
