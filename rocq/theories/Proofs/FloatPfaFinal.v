(** Doubles and exact numbers for PFA: range, accuracy, trimming. *)
From Coq Require Import String List ZArith QArith Qabs Qminmax Qreals Reals Bool Arith Lia Lra Psatz.
From Flocq Require Import Core.
From Verif.Base Require Import Py Num B64.
From Verif.Model Require Import Matrices FloatDrivers FloatMatrix FloatPfa Graph.
From Verif.Spec Require Import MatrixSpec GraphSpec FloatMatrixSpec.
From Verif.Proofs Require Import NumFacts MatrixFacts FloatFacts FloatArith FloatSums FloatMatrixFacts FloatMatrixTop.
From Verif.Proofs Require Import FloatMatrixFinal FloatPfaFacts.
Import ListNotations.
Local Open Scope R_scope.

Lemma Q2R_nat s : Q2R (inject_Z (Z.of_nat s)) = INR s.
Proof. rewrite INR_IZR_INZ. unfold Q2R, inject_Z. simpl. lra. Qed.

Lemma pfa_range K : moderate K -> (Z.of_nat (fk_nsp K) <= 2 ^ 40)%Z ->
  (forall a b, (a < fk_nsp K)%nat -> (b < fk_nsp K)%nat ->
     b64_finite (fget (f_pfa_matrix K) a b) /\
     (0 <= b64_val (fget (f_pfa_matrix K) a b) <= 2 * inject_Z (Z.of_nat (fk_nsp K)) + 2)%Q) /\
  forall a, (a < fk_nsp K)%nat -> fget (f_pfa_matrix K) a a = fzero.
Proof.
  intros HM HS. split.
  - intros a b Ha Hb. destruct (pfa_within K HM HS a b Ha Hb) as [F B]. split; auto.
    rewrite plus_IZR, mult_IZR, <- INR_IZR_INZ in B. unfold rv in B.
    split; apply Rle_Qle; [rewrite Q2R_0; lra|].
    rewrite Q2R_plus, Q2R_mult, Q2R_nat. replace (Q2R 2) with 2 by (unfold Q2R; simpl; lra). lra.
  - intros a Ha. rewrite pfa_get by auto. rewrite Nat.eqb_refl. now destruct (fvalid K).
Qed.

Lemma pfa_error_R s n : Q2R (pfa_error s n) =
  (4 * INR s + 2) * ((9 * INR n + 20) * u) + (4 * INR s * INR s + 5 * INR s + 6) * u.
Proof.
  unfold pfa_error. cbv zeta. rewrite !Q2R_plus, !Q2R_mult, !Q2R_plus, !Q2R_mult, Q2R_nat, roundoff_u, coefficient_error_R.
  replace (Q2R 4) with 4 by (unfold Q2R; simpl; lra). replace (Q2R 2) with 2 by (unfold Q2R; simpl; lra).
  replace (Q2R 5) with 5 by (unfold Q2R; simpl; lra). replace (Q2R 6) with 6 by (unfold Q2R; simpl; lra). ring.
Qed.

Lemma pfa_accuracy K d r a b : moderate K -> (Z.of_nat (fk_nsp K) <= 2 ^ 40)%Z ->
  indicator (exact K) d -> is_pfa (exact K) d r ->
  (forall x, (x < fk_nsp K)%nat -> not_tiny (drgep_total (exact K) x)) ->
  (a < fk_nsp K)%nat -> (b < fk_nsp K)%nat -> a <> b ->
  (Qabs (b64_val (fget (f_pfa_matrix K) a b) - r a b) <= pfa_error (fk_nsp K) (nrx (exact K)))%Q.
Proof.
  intros HM HS HI HR NT Ha Hb Hab. apply Rabs_Qabs. rewrite pfa_error_R.
  eapply pfa_err; eauto. intros x Hx. apply not_tiny_R. now apply NT.
Qed.

Lemma pfa_error_nn s n : (0 <= pfa_error s n)%Q.
Proof.
  apply Rle_Qle. rewrite Q2R_0, pfa_error_R. pose proof (pos_INR n). pose proof (pos_INR s). pose proof u_pos.
  assert (0 <= INR s * INR s) by (apply Rmult_le_pos; lra).
  apply Rplus_le_le_0_compat; apply Rmult_le_pos; try lra. apply Rmult_le_pos; lra.
Qed.

Lemma pfa_close K : moderate K -> (Z.of_nat (fk_nsp K) <= 2 ^ 40)%Z ->
  (forall a, (a < fk_nsp K)%nat -> not_tiny (drgep_total (exact K) a)) ->
  close_to (fk_nsp K) (pfa_error (fk_nsp K) (length (fk_rop K))) (f_pfa_matrix K) (create_pfa_matrix (exact K)).
Proof.
  intros HM HS NT a b Ha Hb. destruct (Nat.eq_dec a b) as [->|N].
  - rewrite (proj2 (pfa_range K HM HS) b Hb). destruct (pfa_shape (exact K)) as [_ Z]. simpl in Z. rewrite (Z b Hb).
    assert (b64_val fzero - 0 == 0)%Q as -> by reflexivity. simpl Qabs. apply pfa_error_nn.
  - assert (length (fk_rop K) = nrx (exact K)) as -> by (unfold nrx; simpl; now rewrite map_length).
    eapply pfa_accuracy; eauto; [apply flag_indicator|]. apply pfa_correct. apply flag_indicator.
Qed.

Lemma pfa_sandwich K names targets thr :
  moderate K -> fk_nsp K = length names -> (Z.of_nat (length names) <= 2 ^ 40)%Z ->
  (forall a, (a < length names)%nat -> not_tiny (drgep_total (exact K) a)) ->
  incl targets names -> b64_finite thr ->
  let e := pfa_error (length names) (length (fk_rop K)) in (e < b64_val thr)%Q ->
  exists r, f_trim_pfa (f_pfa_matrix K) names targets thr = Ok r /\ NoDup r /\
    (forall x, In x r <-> exists t, In t targets /\ freach names (f_pfa_matrix K) thr t x) /\
    (forall t x, In t targets -> reach names (create_pfa_matrix (exact K)) (b64_val thr + e) t x -> In x r) /\
    (forall x, In x r -> exists t, In t targets /\ reach names (create_pfa_matrix (exact K)) (b64_val thr - e) t x).
Proof.
  intros HM EN HS NT IT FT e L. rewrite <- EN in HS, NT. pose proof (pfa_close K HM HS NT) as C.
  rewrite EN in C. fold e in C.
  pose proof (pfa_error_nn (length names) (length (fk_rop K))) as E0. fold e in E0.
  assert (fin_fmatrix (length names) (f_pfa_matrix K)) as UM.
  { rewrite <- EN. intros i j Hi Hj. apply (proj1 (pfa_range K HM HS)); auto. }
  destruct (f_trim_spec (f_pfa_matrix K) names targets thr UM FT IT) as (r & R1 & R2 & R3).
  exists r. split; auto. split; auto. split; auto. split.
  - intros t x Ht H. apply R3. exists t. split; auto. eapply exact_freach; eauto. lra.
  - intros x Hx. apply R3 in Hx. destruct Hx as (t & Ht & H). exists t. split; auto. eapply freach_exact; eauto.
Qed.
