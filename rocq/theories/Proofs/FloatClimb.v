(** How far the sums of the threshold in doubles are from the exact ones. *)
From Coq Require Import ZArith QArith Qabs Reals Qreals Lia Lra Psatz.
From Coq Require Import Floats.SpecFloat.
From Flocq Require Import Core BinarySingleNaN.
From Verif.Base Require Import B64.
From Verif.Model Require Import Drivers FloatDrivers.
From Verif.Spec Require Import DriverSpec FloatSpec.
From Verif.Proofs Require Import LoopForward FloatFacts FloatDriverFacts.
Local Open Scope R_scope.

Lemma start_close j : (j < 5)%nat -> (Qabs (start_v j - start_at j) <= 4 * (2 # 1) ^ (-53) * start_at j)%Q.
Proof. intros H. do 5 (destruct j as [|j]; [apply Qle_bool_iff; vm_compute; reflexivity|]). lia. Qed.

Lemma start_positive j : (j < 5)%nat -> (0 < start_at j)%Q.
Proof. intros H. do 5 (destruct j as [|j]; [reflexivity|]). lia. Qed.

Lemma Q2R_abs_le a b c : (Qabs (a - b) <= c)%Q -> Rabs (Q2R a - Q2R b) <= Q2R c.
Proof.
  intros H. apply Qabs_Qle_condition in H. destruct H as [H1 H2]. apply Qle_Rle in H1, H2.
  rewrite Q2R_minus in H1, H2. rewrite Q2R_opp in H1. apply Rabs_le. lra.
Qed.

Lemma step_bound K u : 0 <= K -> 0 <= u -> u * (K + 1) <= 1 / 4 -> u <= 1 / 4 ->
  2 * ((K + 2) * (K + 1)) + 4 + (K + 2) + u * (2 * ((K + 2) * (K + 1)) + 4) <= 2 * ((K + 3) * (K + 2)).
Proof.
  intros HK Hu H1 H2. assert (u * ((K + 2) * (K + 1)) <= (1 / 4) * (K + 2)) as X.
  { replace (u * ((K + 2) * (K + 1))) with ((u * (K + 1)) * (K + 2)) by ring. apply Rmult_le_compat_r; lra. }
  nra.
Qed.

Lemma climb_err j k : (j < 5)%nat -> INR k <= bpow radix2 31 -> exists v,
  is_b (climb_at floatA j k) v /\
  Rabs (v - (INR k + 1) * Q2R (start_at j)) <= 2 * ((INR k + 2) * (INR k + 1)) * (ulp53 * Q2R (start_at j)).
Proof.
  intros Hj. destruct (sd_b j) as (i & Bi & Vi). set (s := Q2R (start_at j)).
  assert (0 < s) as Hs by (replace 0 with (Q2R 0) by (unfold Q2R; simpl; lra); apply Qlt_Rlt, start_positive, Hj).
  assert (Rabs (i - s) <= 4 * (ulp53 * s)) as Ei.
  { pose proof (Q2R_abs_le _ _ _ (start_close j Hj)) as X. unfold start_v in X.
    rewrite <- sd_f, (is_b_val _ _ Bi), !Q2R_mult, Q2R_pow2 in X. fold s in X. unfold ulp53.
    replace (Q2R 4) with 4 in X by (unfold Q2R; simpl; lra). lra. }
  assert (0 < ulp53) as U0 by apply bpow_gt_0.
  assert (ulp53 <= 1 / 4) as U1.
  { unfold ulp53. change (1 / 4) with (1 / 4). apply Rle_trans with (bpow radix2 (-2)); [apply bpow_le; lia|simpl; lra]. }
  assert (0 < ulp53 * s) as US by (apply Rmult_lt_0_compat; auto).
  apply Rabs_le_inv in Ei.
  induction k as [|k IH]; intros Hk.
  - exists i. split; [exact Bi|]. simpl INR. apply Rabs_le. nra.
  - rewrite S_INR in Hk. destruct IH as (v & Bv & Ev); [lra|].
    assert (0 <= v <= bpow radix2 60) as V.
    { destruct (climb_b j k) as (v' & B' & V'). rewrite <- (is_b_val _ _ Bv), (is_b_val _ _ B'). exact V'. }
    destruct (add_step _ _ _ _ Bv Bi V Vi) as (B' & V' & I'). exists (rnd (v + i)). split; [exact B'|].
    destruct (plus_err v i) as [_ E]; try (eapply is_b_format; eauto).
    rewrite (Rabs_pos_eq (v + i)) in E by lra. apply Rabs_le_inv in E. apply Rabs_le_inv in Ev.
    rewrite S_INR. set (K := INR k) in *. assert (0 <= K) as HK by apply pos_INR.
    assert (ulp53 * (K + 1) <= 1 / 4) as UK.
    { apply Rle_trans with (ulp53 * bpow radix2 31); [apply Rmult_le_compat_l; lra|].
      unfold ulp53. rewrite <- bpow_plus. apply Rle_trans with (bpow radix2 (-2)); [apply bpow_le; lia|simpl; lra]. }
    pose proof (step_bound K ulp53 HK (Rlt_le _ _ U0) UK U1) as SB.
    apply (Rmult_le_compat_r (ulp53 * s) _ _ (Rlt_le _ _ US)) in SB.
    assert (v + i <= (K + 2) * s + (2 * ((K + 2) * (K + 1)) + 4) * (ulp53 * s)) as VI by nra.
    assert (ulp53 * (v + i) <= ulp53 * ((K + 2) * s + (2 * ((K + 2) * (K + 1)) + 4) * (ulp53 * s))) as UVI
      by (apply Rmult_le_compat_l; lra).
    replace (K + 1 + 2) with (K + 3) by ring. replace (K + 1 + 1) with (K + 2) by ring.
    apply Rabs_le.
    replace (ulp53 * ((K + 2) * s + (2 * ((K + 2) * (K + 1)) + 4) * (ulp53 * s)))
      with ((K + 2) * (ulp53 * s) + ulp53 * (2 * ((K + 2) * (K + 1)) + 4) * (ulp53 * s)) in UVI by ring.
    replace ((2 * ((K + 2) * (K + 1)) + 4 + (K + 2) + ulp53 * (2 * ((K + 2) * (K + 1)) + 4)) * (ulp53 * s))
      with (2 * ((K + 2) * (K + 1)) * (ulp53 * s) + 4 * (ulp53 * s) + (K + 2) * (ulp53 * s)
            + ulp53 * (2 * ((K + 2) * (K + 1)) + 4) * (ulp53 * s)) in SB by ring.
    split; lra.
Qed.

Lemma Q2R_whole n : Q2R (inject_Z (Z.of_nat n)) = INR n.
Proof. unfold Q2R, inject_Z. cbn [Qnum Qden]. rewrite Rinv_1, Rmult_1_r, <- INR_IZR_INZ. reflexivity. Qed.

Lemma climb_near j k : (j < 5)%nat -> (Z.of_nat k < 2 ^ 31)%Z ->
  (Qabs (climb_v j k - times (S k) (start_at j)) <= inject_Z (Z.of_nat (k + 2)) * (2 # 1) ^ (-52) * times (S k) (start_at j))%Q.
Proof.
  intros Hj Hk. destruct (climb_err j k Hj) as (v & B & E).
  { rewrite INR_IZR_INZ. change (bpow radix2 31) with (IZR (2 ^ 31)). apply IZR_le. lia. }
  set (q := times (S k) (start_at j)).
  assert (Q2R q = (INR k + 1) * Q2R (start_at j)) as Eq.
  { unfold q, times. rewrite Q2R_mult, Q2R_whole, S_INR. reflexivity. }
  assert (Q2R (inject_Z (Z.of_nat (k + 2)) * (2 # 1) ^ (-52) * q) = 2 * ((INR k + 2) * (INR k + 1)) * (ulp53 * Q2R (start_at j))) as Em.
  { rewrite !Q2R_mult, Q2R_pow2, Eq.
    rewrite Q2R_whole, plus_INR. replace (INR 2) with 2 by (simpl; lra).
    change (bpow radix2 (-52)) with (bpow radix2 (1 + -53)). rewrite bpow_plus. fold ulp53. change (bpow radix2 1) with 2. ring. }
  assert (Q2R (climb_v j k) = v) as Ev by (unfold climb_v; rewrite <- climb_at_f; exact (is_b_val _ _ B)).
  apply Rabs_le_inv in E. apply Qabs_Qle_condition.
  split; apply Rle_Qle; rewrite ?Q2R_opp, Q2R_minus, Em, Ev, Eq; lra.
Qed.
