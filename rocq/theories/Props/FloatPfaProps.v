(** Properties of the coefficients and decisions of PFA with doubles (C81, C82). *)
From Coq Require Import String List ZArith QArith Qabs Bool Arith.
From Verif.Base Require Import Py Num B64.
From Verif.Model Require Import Matrices Graph FloatDrivers FloatMatrix FloatPfa.
From Verif.Spec Require Import MatrixSpec GraphSpec FloatMatrixSpec FloatSamples.
From Verif.Proofs Require Import FloatPfaFinal FloatSampleFacts.
Import ListNotations.
Local Open Scope string_scope.
Local Open Scope Q_scope.

(** C81: every PFA coefficient is finite, between 0 and twice the number of
    species plus 2, and 0 for a species and itself. *)
Theorem binary64_pfa_range :
  forall K, moderate K -> (Z.of_nat (fk_nsp K) <= 2 ^ 40)%Z ->
    (forall a b, (a < fk_nsp K)%nat -> (b < fk_nsp K)%nat ->
       b64_finite (fget (f_pfa_matrix K) a b) /\
       0 <= b64_val (fget (f_pfa_matrix K) a b) <= 2 * inject_Z (Z.of_nat (fk_nsp K)) + 2) /\
    forall a, (a < fk_nsp K)%nat -> fget (f_pfa_matrix K) a a = fzero.
Proof. exact pfa_range. Qed.
Print Assumptions binary64_pfa_range.

(** A coefficient above 1. *)
Example binary64_pfa_range_case :
  moderate swap /\ b64_lt (b64_of_frac 11 10) (fget (f_pfa_matrix swap) 0 1) = true /\
  b64_lt (fget (f_pfa_matrix swap) 0 1) (b64_of_frac 12 10) = true.
Proof. split; [exact swap_moderate|]. split; vm_compute; reflexivity. Qed.

(** C81: the error of a PFA coefficient against its defining formula. *)
Theorem binary64_pfa_accuracy :
  forall K d r a b,
    moderate K -> (Z.of_nat (fk_nsp K) <= 2 ^ 40)%Z ->
    indicator (exact K) d -> is_pfa (exact K) d r ->
    (forall x, (x < fk_nsp K)%nat -> not_tiny (drgep_total (exact K) x)) ->
    (a < fk_nsp K)%nat -> (b < fk_nsp K)%nat -> a <> b ->
    Qabs (b64_val (fget (f_pfa_matrix K) a b) - r a b) <= pfa_error (fk_nsp K) (nrx (exact K)).
Proof. exact pfa_accuracy. Qed.
Print Assumptions binary64_pfa_accuracy.

(** The coefficient of A and C has a part that comes by way of B, and is not
    exact. *)
Example binary64_pfa_accuracy_case :
  moderate burn /\ (forall a, (a < 3)%nat -> not_tiny (drgep_total (exact burn) a)) /\
  Qeq_bool (b64_val (fget (f_pfa_matrix burn) 0 2)) (mget (create_pfa_matrix (exact burn)) 0 2) = false /\
  b64_lt (fget (f_drg_matrix burn) 0 2) (fget (f_pfa_matrix burn) 0 2) = true.
Proof.
  split; [exact burn_moderate|]. split; [intros a H; now apply burn_visible|].
  split; vm_compute; reflexivity.
Qed.

(** C82: PFA with doubles keeps what the exact coefficients keep at a
    threshold larger by the error, and nothing that they drop at a threshold
    smaller by the error. *)
Theorem binary64_pfa_keeps :
  forall K names targets thr,
    moderate K -> fk_nsp K = length names -> (Z.of_nat (length names) <= 2 ^ 40)%Z ->
    (forall a, (a < length names)%nat -> not_tiny (drgep_total (exact K) a)) ->
    incl targets names -> b64_finite thr ->
    let e := pfa_error (length names) (length (fk_rop K)) in
    e < b64_val thr ->
    exists r, f_trim_pfa (f_pfa_matrix K) names targets thr = Ok r /\ NoDup r /\
      (forall x, In x r <-> exists t, In t targets /\ freach names (f_pfa_matrix K) thr t x) /\
      (forall t x, In t targets -> reach names (create_pfa_matrix (exact K)) (b64_val thr + e) t x -> In x r) /\
      (forall x, In x r -> exists t, In t targets /\
         reach names (create_pfa_matrix (exact K)) (b64_val thr - e) t x).
Proof. exact pfa_sandwich. Qed.
Print Assumptions binary64_pfa_keeps.

Example binary64_pfa_keeps_case :
  moderate burn /\ pfa_error 3 (length (fk_rop burn)) < b64_val (b64_of_frac 1 100) /\
  f_trim_pfa (f_pfa_matrix burn) abc ["A"] (b64_of_frac 1 100) = Ok ["A"; "B"; "C"] /\
  f_trim_pfa (f_pfa_matrix burn2) abc ["A"] (b64_of_frac 9 10) = Ok ["A"; "C"].
Proof. split; [exact burn_moderate|]. split; [vm_compute; reflexivity|]. split; vm_compute; reflexivity. Qed.
