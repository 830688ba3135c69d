(** The statements about the Jacobian in the terms of the standard library. *)
From Coq Require Import Reals Arith Lra Lia.
From Coquelicot Require Import Coquelicot.
From Verif.Model Require Import PsrJac.
From Verif.Spec Require Import PsrJacSpec PsrJacSamples.
From Verif.Proofs Require Import PsrJacFacts.
Local Open Scope R_scope.

Lemma jacobian_entries_final :
  forall g P Rgas rate dC dT H Cp Yin h_in h_scale,
  ideal_gas g P Rgas rate dC dT H Cp -> rates_differentiable (j_n g) rate dC dT ->
  (forall k T, (k < j_n g)%nat -> 0 < T -> derivable_pt_lim (H k) T (Cp k T)) ->
  (forall k, (k < j_n g)%nat -> j_W g k <> 0) -> P <> 0 -> Rgas <> 0 ->
  forall Y T tau i, 0 < T -> sum_to (j_n g) (fun k => Y k / j_W g k) <> 0 ->
  (forall j, (j < j_n g)%nat ->
     derivable_pt_lim (fun s => residual g Yin h_in h_scale (put Y j s) T tau i) (Y j) (core_jacobian g h_scale Y T tau i j)) /\
  derivable_pt_lim (fun s => residual g Yin h_in h_scale Y s tau i) T (core_jacobian g h_scale Y T tau i (j_n g)) /\
  derivable_pt_lim (fun s => residual g Yin h_in h_scale Y T s i) tau (core_jacobian g h_scale Y T tau i (j_n g + 1)).
Proof.
  intros g P Rgas rate dC dT H Cp Yin h_in h_scale IG RD HD WP PP RP Y T tau i T0 M0.
  destruct (core_entries g P Rgas rate dC dT H Cp Yin h_in h_scale IG RD HD WP PP RP Y T tau i T0 M0) as (A & B & C).
  split; [|split].
  - intros j J. apply is_derive_Reals. apply A. assumption.
  - apply is_derive_Reals. exact B.
  - apply is_derive_Reals. exact C.
Qed.

Lemma augmented_entries_final :
  forall g P Rgas rate dC dT H Cp Yin h_in h_scale,
  ideal_gas g P Rgas rate dC dT H Cp -> rates_differentiable (j_n g) rate dC dT ->
  (forall k T, (k < j_n g)%nat -> 0 < T -> derivable_pt_lim (H k) T (Cp k T)) ->
  (forall k, (k < j_n g)%nat -> j_W g k <> 0) -> P <> 0 -> Rgas <> 0 ->
  forall t up ds u i j, (j < j_n g + 2)%nat -> 0 < u (j_n g) -> sum_to (j_n g) (fun k => u k / j_W g k) <> 0 ->
  derivable_pt_lim (fun s => aug_residual g Yin h_in h_scale t up ds (put u j s) i) (u j) (aug_jacobian g h_scale t u i j).
Proof. intros. apply is_derive_Reals. eapply augmented_entry; eassumption. Qed.

Lemma augmented_paths_final :
  forall g P Rgas rate dC dT H Cp Yin h_in h_scale,
  ideal_gas g P Rgas rate dC dT H Cp -> rates_differentiable (j_n g) rate dC dT ->
  (forall k T, (k < j_n g)%nat -> 0 < T -> derivable_pt_lim (H k) T (Cp k T)) ->
  (forall k, (k < j_n g)%nat -> j_W g k <> 0) -> P <> 0 -> Rgas <> 0 ->
  forall t up ds (u : R -> rvec) (u' : rvec) x i,
  (forall j, (j < j_n g + 2)%nat -> derivable_pt_lim (fun s => u s j) x (u' j)) ->
  0 < u x (j_n g) -> sum_to (j_n g) (fun k => u x k / j_W g k) <> 0 ->
  derivable_pt_lim (fun s => aug_residual g Yin h_in h_scale t up ds (u s) i) x
    (sum_to (j_n g + 2) (fun j => aug_jacobian g h_scale t (u x) i j * u' j)).
Proof.
  intros. apply is_derive_Reals. eapply augmented_path; try eassumption.
  intros j J. apply is_derive_Reals. auto.
Qed.

Lemma two_case :
  ideal_gas two_gas 100 8 two_rate two_dC two_dT two_H two_Cp /\
  rates_differentiable (j_n two_gas) two_rate two_dC two_dT /\
  (forall k T, (k < j_n two_gas)%nat -> 0 < T -> derivable_pt_lim (two_H k) T (two_Cp k T)) /\
  (forall k, (k < j_n two_gas)%nat -> j_W two_gas k <> 0) /\
  sum_to (j_n two_gas) (fun k => two_Y k / j_W two_gas k) = 3 / 8 /\
  core_jacobian two_gas 1 two_Y 1 1 0 0 = 1 + exp (-1) /\
  core_jacobian two_gas 1 two_Y 1 1 1 2 = - exp (-1).
Proof.
  split; [exact two_ideal|]. split; [exact two_differentiable|]. split; [exact two_heat|].
  split; [exact two_weights|]. split; [exact two_moles|].
  assert (sum_to 2 (fun k => two_Y k / two_W k) = 3 / 8) as M by exact two_moles.
  assert (two_rho two_Y 1 = 100 / 3) as RH by (unfold two_rho, two_mw; rewrite M; lra).
  split.
  - unfold core_jacobian, ds_dY, dCdY, drho_dY, yow. simpl j_n. simpl Nat.ltb. simpl Nat.eqb.
    unfold two_gas; simpl. unfold two_conc. rewrite RH. unfold two_mw. rewrite M. unfold two_Y, two_W; simpl.
    replace (1 / 1) with 1 by lra. replace (- (1)) with (-1) by lra. set (e := exp (-1)).
    field.
  - unfold core_jacobian, ds_dT, drho_dT, yow. simpl j_n. simpl Nat.ltb. simpl Nat.eqb.
    unfold two_gas; simpl. unfold two_conc. rewrite RH. unfold two_Y, two_W; simpl.
    replace (1 / 1) with 1 by lra. replace (- (1)) with (-1) by lra. set (e := exp (-1)).
    field.
Qed.
