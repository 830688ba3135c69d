(** Property theorems about the analytic Jacobian of the stirred reactor: C47. *)
From Coq Require Import Reals Arith.
From Verif.Model Require Import PsrJac.
From Verif.Spec Require Import PsrJacSpec PsrJacSamples.
From Verif.Proofs Require Import PsrJacFacts PsrJacFinal.
Local Open Scope R_scope.

(** C47: every entry is the partial derivative of the residual. *)
Theorem psr_jacobian_entries :
  forall g P Rgas rate dC dT H Cp Yin h_in h_scale,
  ideal_gas g P Rgas rate dC dT H Cp -> rates_differentiable (j_n g) rate dC dT ->
  (forall k T, (k < j_n g)%nat -> 0 < T -> derivable_pt_lim (H k) T (Cp k T)) ->
  (forall k, (k < j_n g)%nat -> j_W g k <> 0) -> P <> 0 -> Rgas <> 0 ->
  forall Y T tau i, 0 < T -> sum_to (j_n g) (fun k => Y k / j_W g k) <> 0 ->
  (forall j, (j < j_n g)%nat ->
     derivable_pt_lim (fun s => residual g Yin h_in h_scale (put Y j s) T tau i) (Y j) (core_jacobian g h_scale Y T tau i j)) /\
  derivable_pt_lim (fun s => residual g Yin h_in h_scale Y s tau i) T (core_jacobian g h_scale Y T tau i (j_n g)) /\
  derivable_pt_lim (fun s => residual g Yin h_in h_scale Y T s i) tau (core_jacobian g h_scale Y T tau i (j_n g + 1)).
Proof. exact jacobian_entries_final. Qed.
Print Assumptions psr_jacobian_entries.

(** C47: the same in the scaled unknowns and for the row of the arclength. *)
Theorem psr_augmented_jacobian_entries :
  forall g P Rgas rate dC dT H Cp Yin h_in h_scale,
  ideal_gas g P Rgas rate dC dT H Cp -> rates_differentiable (j_n g) rate dC dT ->
  (forall k T, (k < j_n g)%nat -> 0 < T -> derivable_pt_lim (H k) T (Cp k T)) ->
  (forall k, (k < j_n g)%nat -> j_W g k <> 0) -> P <> 0 -> Rgas <> 0 ->
  forall t up ds u i j, (j < j_n g + 2)%nat -> 0 < u (j_n g) -> sum_to (j_n g) (fun k => u k / j_W g k) <> 0 ->
  derivable_pt_lim (fun s => aug_residual g Yin h_in h_scale t up ds (put u j s) i) (u j) (aug_jacobian g h_scale t u i j).
Proof. exact augmented_entries_final. Qed.
Print Assumptions psr_augmented_jacobian_entries.

(** C47: and along every differentiable path of the unknowns. *)
Theorem psr_augmented_jacobian_paths :
  forall g P Rgas rate dC dT H Cp Yin h_in h_scale,
  ideal_gas g P Rgas rate dC dT H Cp -> rates_differentiable (j_n g) rate dC dT ->
  (forall k T, (k < j_n g)%nat -> 0 < T -> derivable_pt_lim (H k) T (Cp k T)) ->
  (forall k, (k < j_n g)%nat -> j_W g k <> 0) -> P <> 0 -> Rgas <> 0 ->
  forall t up ds (u : R -> rvec) (u' : rvec) x i,
  (forall j, (j < j_n g + 2)%nat -> derivable_pt_lim (fun s => u s j) x (u' j)) ->
  0 < u x (j_n g) -> sum_to (j_n g) (fun k => u x k / j_W g k) <> 0 ->
  derivable_pt_lim (fun s => aug_residual g Yin h_in h_scale t up ds (u s) i) x
    (sum_to (j_n g + 2) (fun j => aug_jacobian g h_scale t (u x) i j * u' j)).
Proof. exact augmented_paths_final. Qed.
Print Assumptions psr_augmented_jacobian_paths.

(** Two species and one Arrhenius reaction, at equal mass fractions. *)
Example psr_jacobian_case :
  ideal_gas two_gas 100 8 two_rate two_dC two_dT two_H two_Cp /\
  rates_differentiable (j_n two_gas) two_rate two_dC two_dT /\
  (forall k T, (k < j_n two_gas)%nat -> 0 < T -> derivable_pt_lim (two_H k) T (two_Cp k T)) /\
  (forall k, (k < j_n two_gas)%nat -> j_W two_gas k <> 0) /\
  sum_to (j_n two_gas) (fun k => two_Y k / j_W two_gas k) = 3 / 8 /\
  core_jacobian two_gas 1 two_Y 1 1 0 0 = 1 + exp (-1) /\
  core_jacobian two_gas 1 two_Y 1 1 1 2 = - exp (-1).
Proof. exact two_case. Qed.
