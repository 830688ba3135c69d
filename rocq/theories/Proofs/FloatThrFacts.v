(** Thresholds stay finite. *)
From Coq Require Import ZArith Reals Lra Lia.
From Flocq Require Import Core.
From Verif.Base Require Import B64.
From Verif.Model Require Import Drivers FloatDrivers.
From Verif.Spec Require Import FloatMatrixSpec.
From Verif.Proofs Require Import LoopFacts LoopForward FloatFacts FloatArith.
Local Open Scope R_scope.

Lemma climb_fin j k : b64_finite (climb_at floatA j k).
Proof. destruct (climb_b j k) as (v & B & _). exact (proj1 (is_b_fin _ _ B)). Qed.

Lemma back_fin j k : b64_finite (b64_sub (climb_at floatA j k) (b64_mul (b64_of_Z 2) (sd floatA j))).
Proof.
  destruct (climb_b j k) as (c & Bc & Vc). destruct (sd_b j) as (i & Bi & Vi).
  assert (bpow radix2 60 <= bpow radix2 1000) as P1 by (apply bpow_le; lia).
  assert (bpow radix2 (-6) <= 1) as P2 by (apply (bpow_le radix2 (-6) 0); lia).
  assert (4 <= bpow radix2 1000) as P3 by (apply (bpow_le radix2 2 1000); lia).
  pose proof (is_b_mul _ _ _ _ two_b Bi ltac:(lra)) as Bm.
  rewrite (rnd_id (2 * i)) in Bm by (apply double_format; eapply is_b_format; eauto).
  pose proof (is_b_sub _ _ _ _ Bc Bm ltac:(lra) ltac:(lra)) as Bd. exact (proj1 (is_b_fin _ _ Bd)).
Qed.
