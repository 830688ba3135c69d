(** Properties of the adjacency matrices (C05-C07). *)
From Coq Require Import String List QArith Qabs Arith.
From Verif.Base Require Import Py Num.
From Verif.Model Require Import Mech Matrices.
From Verif.Spec Require Import MatrixSpec Samples.
From Verif.Proofs Require Import NumFacts MatrixFacts MatrixMore.
Import ListNotations.
Local Open Scope Q_scope.

(** C05: entry (A,B) is sum_i |nu_Ai w_i d_Bi| / sum_i |nu_Ai w_i| over all
    reactions, or 0 if the denominator vanishes. *)
Theorem drg_matrix_matches_definition :
  forall K d, indicator K d ->
    adjacency_shape (k_nsp K) (create_drg_matrix K) /\
    is_drg K d (mget (create_drg_matrix K)).
Proof. exact drg_full. Qed.
Print Assumptions drg_matrix_matches_definition.

Example drg_matrix_matches_definition_case :
  exists d, indicator toy_kin d /\
    map Qred (nth 0 (create_drg_matrix toy_kin) []) = [0; 7#15; 7#15; 0; 13#15; 0].
Proof. exact toy_drg. Qed.

(** C05: every entry is in [0,1]. *)
Theorem drg_matrix_bounds :
  forall K a b, (a < k_nsp K)%nat -> (b < k_nsp K)%nat ->
    0 <= mget (create_drg_matrix K) a b <= 1.
Proof. exact drg_bounds. Qed.
Print Assumptions drg_matrix_bounds.

(** C05: a common factor of all rates, of either sign, cancels. *)
Theorem drg_matrix_scale_invariant :
  forall c K a b, ~ c == 0 -> (a < k_nsp K)%nat -> (b < k_nsp K)%nat ->
    mget (create_drg_matrix K) a b == mget (create_drg_matrix (scale_rates c K)) a b.
Proof. exact drg_scale. Qed.
Print Assumptions drg_matrix_scale_invariant.

Example drg_matrix_scale_invariant_case :
  map (map Qred) (create_drg_matrix (scale_rates (- 5 # 3) toy_kin)) =
  map (map Qred) (create_drg_matrix toy_kin) /\
  mget (create_drg_matrix toy_kin) 0 1 == 7 # 15.
Proof. split; vm_compute; reflexivity. Qed.

(** C06: entry (A,B) is |sum_i nu_Ai w_i d_Bi| / max(P_A, C_A), or 0 if the
    denominator vanishes. *)
Theorem drgep_matrix_matches_definition :
  forall K d, indicator K d ->
    adjacency_shape (k_nsp K) (create_drgep_matrix K) /\
    is_drgep K d (mget (create_drgep_matrix K)).
Proof. exact drgep_full. Qed.
Print Assumptions drgep_matrix_matches_definition.

Example drgep_matrix_matches_definition_case :
  exists d, indicator toy_kin d /\
    map Qred (nth 0 (create_drgep_matrix toy_kin) []) = [0; 3#13; 3#13; 0; 9#13; 0].
Proof. exact toy_drgep. Qed.

(** C06: every entry is in [0,1], which the path search relies on. *)
Theorem drgep_matrix_bounds :
  forall K a b, (a < k_nsp K)%nat -> (b < k_nsp K)%nat ->
    0 <= mget (create_drgep_matrix K) a b <= 1.
Proof. exact drgep_bounds. Qed.
Print Assumptions drgep_matrix_bounds.

(** C06: a common factor of all rates, of either sign, cancels. *)
Theorem drgep_matrix_scale_invariant :
  forall c K a b, ~ c == 0 -> (a < k_nsp K)%nat -> (b < k_nsp K)%nat ->
    mget (create_drgep_matrix K) a b == mget (create_drgep_matrix (scale_rates c K)) a b.
Proof. exact drgep_scale. Qed.
Print Assumptions drgep_matrix_scale_invariant.

Example drgep_matrix_scale_invariant_case :
  map (map Qred) (create_drgep_matrix (scale_rates (- 5 # 3) toy_kin)) =
  map (map Qred) (create_drgep_matrix toy_kin) /\
  mget (create_drgep_matrix toy_kin) 0 1 == 3 # 13.
Proof. split; vm_compute; reflexivity. Qed.

(** C07: the array that the loop with in-place updates produces is the one of
    the definition: both first generations plus both sums over intermediates
    different from A and B. *)
Theorem pfa_matrix_matches_definition :
  forall K d, indicator K d ->
    adjacency_shape (k_nsp K) (create_pfa_matrix K) /\
    is_pfa K d (mget (create_pfa_matrix K)).
Proof. exact pfa_full. Qed.
Print Assumptions pfa_matrix_matches_definition.

Example pfa_matrix_matches_definition_case :
  exists d, indicator toy_kin d /\
    map Qred (nth 0 (create_pfa_matrix toy_kin) []) = [0; 67#52; 35#26; 0; 87#52; 0].
Proof. exact toy_pfa. Qed.

(** C07: the entries are never negative; they are bounded, but not by 1. *)
Theorem pfa_matrix_bounds :
  forall K a b, (a < k_nsp K)%nat -> (b < k_nsp K)%nat ->
    0 <= mget (create_pfa_matrix K) a b <= 2 + 2 * inject_Z (Z.of_nat (k_nsp K)).
Proof. exact pfa_bounds. Qed.
Print Assumptions pfa_matrix_bounds.

Example pfa_matrix_bounds_case : 1 < mget (create_pfa_matrix toy_kin) 0 1.
Proof. vm_compute. reflexivity. Qed.
