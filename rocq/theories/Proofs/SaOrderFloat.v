(** The distance of errors with doubles. *)
From Coq Require Import String List ZArith QArith Qabs Qreals Reals Bool Arith Lia Lra Psatz.
From Flocq Require Import Core.
From Verif.Base Require Import Py Num XNum B64.
From Verif.Model Require Import Mech World Metrics Drivers Sensitivity FloatDrivers FloatMatrix DoubleError.
From Verif.Spec Require Import FloatMatrixSpec SensitivitySpec SaOrderSpec.
From Verif.Proofs Require Import FloatFacts FloatArith FloatRunFacts FloatErrorFacts DoubleErrorFacts.
Import ListNotations.
Local Open Scope R_scope.

Lemma Q2R_abs_sub a b : Q2R (Qabs (a - b)) = Rabs (Q2R a - Q2R b).
Proof.
  rewrite <- Q2R_minus. apply Qabs_case; intros H; apply Qle_Rle in H; replace (Q2R 0) with 0 in H by (unfold Q2R; simpl; lra).
  - now rewrite Rabs_pos_eq.
  - rewrite Q2R_opp. now rewrite Rabs_left1.
Qed.

Lemma double_val x q : double_value x q -> x = Fin q /\ fin (b64_of_x x) /\ rv (b64_of_x x) = Q2R q /\
  Rabs (Q2R q) <= bpow radix2 900.
Proof.
  intros (d & -> & F & E & B). destruct (of_Q_val q d F E) as (F' & E'). split; auto. split; auto.
  split; [apply Qeq_eqR; exact E'|].
  apply Qle_Rle in B. rewrite Q2R_pow2 in B. replace (Rabs (Q2R q)) with (Q2R (Qabs q)); auto.
  assert (q == q - 0)%Q as Z by ring. rewrite (Qeq_eqR _ _ (Qabs_wd _ _ Z)), Q2R_abs_sub.
  replace (Q2R 0) with 0 by (unfold Q2R; simpl; lra). now rewrite Rminus_0_r.
Qed.

Lemma distance_R x y a b : double_value x a -> double_value y b ->
  exists d, double_distance x y = Fin d /\
    Rabs (Q2R a - Q2R b) <= (1 + ulp53) * Q2R d /\ Q2R d <= (1 + ulp53) * Rabs (Q2R a - Q2R b).
Proof.
  intros Hx Hy. destruct (double_val _ _ Hx) as (-> & Fx & Vx & Bx). destruct (double_val _ _ Hy) as (-> & Fy & Vy & By).
  assert (Rabs (Q2R a - Q2R b) <= bpow radix2 1000) as BB.
  { apply Rle_trans with (bpow radix2 900 + bpow radix2 900).
    - apply Rabs_le_inv in Bx. apply Rabs_le_inv in By. apply Rabs_le. lra.
    - replace (bpow radix2 900 + bpow radix2 900) with (2 * bpow radix2 900) by ring.
      change 2 with (bpow radix2 1) at 1. rewrite <- bpow_plus. apply bpow_le. lia. }
  destruct (fin_sub _ _ Fx Fy) as [Fd Vd]; [now rewrite Vx, Vy|]. rewrite Vx, Vy in Vd.
  destruct (fin_abs _ Fd) as [Fa Va]. rewrite Vd in Va.
  unfold double_distance. rewrite (x_of_fin _ Fa). eexists. split; [reflexivity|].
  fold (rv (b64_abs (b64_sub (b64_of_x (Fin a)) (b64_of_x (Fin b))))). rewrite Va.
  pose proof (fin_format _ Fx) as Gx. pose proof (generic_format_opp _ _ _ (fin_format _ Fy)) as Gy. rewrite Vx in Gx. rewrite Vy in Gy.
  destruct (plus_err _ _ Gx Gy) as [E1 E2]. change (Q2R a + - Q2R b) with (Q2R a - Q2R b) in *.
  set (X := Q2R a - Q2R b) in *. set (R := rnd X) in *.
  pose proof (Rabs_triang_inv2 R X) as T. apply Rabs_le_inv in T.
  split; lra.
Qed.

(** With doubles, no other candidate is nearer than the one tried by more than
    the rounding of two subtractions. *)
Lemma next_double K now nowq sc s others : s_far K = double_distance -> double_value now nowq ->
  (forall x, In x sc -> exists q, double_value (snd x) q) -> next_tried K now sc s others ->
  exists q, In (s, Fin q) sc /\
    forall s' q', In (s', Fin q') sc -> (Qabs (q - nowq) <= (1 + (2 # 1) ^ (-51)) * Qabs (q' - nowq))%Q.
Proof.
  intros FA DN DS (before & e & after & E & _ & _ & C).
  assert (In (s, e) sc) as I by (rewrite E; apply in_or_app; simpl; auto).
  destruct (DS _ I) as (q & Dq). simpl in Dq. pose proof Dq as (d0 & -> & _).
  exists q. split; auto. intros s' q' I'. destruct (DS _ I') as (q'' & Dq'). simpl in Dq'. pose proof Dq' as (d1 & X & _). injection X as <-.
  destruct (distance_R _ _ _ _ Dq DN) as (d & Ed & A1 & A2). destruct (distance_R _ _ _ _ Dq' DN) as (d' & Ed' & A1' & A2').
  assert (Q2R d <= Q2R d') as LE.
  { unfold away in C. rewrite FA in C. simpl snd in C. rewrite Ed in C. destruct C as [C|(_ & C1 & C2)]; [discriminate|].
    rewrite E in I'. apply in_app_or in I'. destruct I' as [I'|[I'|I']].
    - specialize (C1 _ I'). simpl snd in C1. rewrite Ed' in C1. simpl in C1. apply Qle_Rle.
      apply NumFacts.Qlt_bool_iff in C1. now apply Qlt_le_weak.
    - injection I' as _ <-. rewrite Ed in Ed'. injection Ed' as ->. lra.
    - specialize (C2 _ I'). simpl snd in C2. rewrite Ed' in C2. simpl in C2. apply Qle_Rle. now apply Qle_bool_iff. }
  apply Rle_Qle. rewrite Q2R_mult, !Q2R_abs_sub, Q2R_plus, Q2R_pow2. replace (Q2R 1) with 1 by (unfold Q2R; simpl; lra).
  set (t := Rabs (Q2R q - Q2R nowq)) in *. set (o := Rabs (Q2R q' - Q2R nowq)) in *.
  assert (0 <= o) by apply Rabs_pos. assert (0 < ulp53) as U by apply bpow_gt_0.
  assert (bpow radix2 (-51) = 4 * ulp53) as -> by (unfold ulp53; change (-51)%Z with (2 + -53)%Z; rewrite bpow_plus; f_equal; simpl; lra).
  assert (ulp53 <= / 2) by (unfold ulp53; apply Rle_trans with (bpow radix2 (-1)); [apply bpow_le; lia|simpl; lra]).
  assert (0 <= o * (ulp53 * (2 - ulp53))) by (apply Rmult_le_pos; [auto|apply Rmult_le_pos; lra]).
  apply Rle_trans with ((1 + ulp53) * ((1 + ulp53) * o)); [|lra].
  eapply Rle_trans; [exact A1|]. apply Rmult_le_compat_l; lra.
Qed.
