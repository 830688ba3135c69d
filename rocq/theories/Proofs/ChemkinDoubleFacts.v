(** Conversions of units with doubles. *)
From Coq Require Import String List ZArith QArith Qabs Qpower Qreals Reals Bool Arith Lia Lra Psatz.
From Flocq Require Import Core.
From Coq Require Import Floats.SpecFloat.
From Verif.Base Require Import Py Num XNum B64.
From Verif.Model Require Import Chem Compare Chemkin FloatDrivers FloatMatrix DoubleError ChemkinDouble SaveText.
From Verif.Spec Require Import FloatMatrixSpec TextSpec ChemkinSpec CardSpec CompareSpec CompareDoubleSpec ChemkinDoubleSpec ExportSpec.
From Verif.Proofs Require Import FloatFacts FloatArith FloatRunFacts FloatErrorFacts FloatMatrixFacts SaOrderFloat DoubleErrorFacts ChemkinFacts CardFacts ExportMain.
Import ListNotations.
Local Open Scope R_scope.
Local Notation u := ulp53.

Lemma u_tiny : 0 < u <= / 1000.
Proof. unfold ulp53. split; [apply bpow_gt_0|]. simpl. lra. Qed.

Definition mid (x : R) : Prop := x = 0 \/ bpow radix2 (-800) <= Rabs x <= bpow radix2 800.
Definition near_const (y B : R) : Prop :=
  bpow radix2 (-190) <= B <= bpow radix2 190 /\ Rabs (y - B) <= 2 * u * B.

Lemma const_range y B : near_const y B -> 0 < B /\ / 2 * B <= y <= 2 * B /\ bpow radix2 (-191) <= y <= bpow radix2 191 /\ B * (1 - 2 * u) <= y <= B * (1 + 2 * u).
Proof.
  intros [[L U] E]. pose proof u_tiny. assert (0 < B) by (pose proof (bpow_gt_0 radix2 (-190)); lra).
  apply Rabs_le_inv in E. assert (0 <= u * B <= / 1000 * B) by (split; [apply Rmult_le_pos; lra|apply Rmult_le_compat_r; lra]).
  replace (bpow radix2 191) with (2 * bpow radix2 190) by (change 191%Z with (1 + 190)%Z; rewrite bpow_plus; reflexivity).
  assert (bpow radix2 (-190) = 2 * bpow radix2 (-191)) as X by (change (-190)%Z with (1 + -191)%Z; rewrite bpow_plus; reflexivity).
  assert (bpow radix2 191 = 2 * bpow radix2 190) as Y by (change 191%Z with (1 + 190)%Z; rewrite bpow_plus; reflexivity).
  repeat split; lra.
Qed.

Lemma mul_near x y B : fin x -> fin y -> mid (rv x) -> near_const (rv y) B ->
  fin (b64_mul x y) /\ Rabs (rv (b64_mul x y) - rv x * B) <= 4 * u * Rabs (rv x * B).
Proof.
  intros Fx Fy M N. destruct (const_range _ _ N) as (PB & _ & (YL & YU) & YB). destruct N as (_ & NE). pose proof u_tiny as U.
  assert (0 < rv y) as Py by (pose proof (bpow_gt_0 radix2 (-191)); lra).
  assert (Rabs (rv x * rv y) = Rabs (rv x) * rv y) as AX by (rewrite Rabs_mult, (Rabs_pos_eq (rv y)); lra).
  assert (rv x * rv y = 0 \/ bpow radix2 (-1022) <= Rabs (rv x * rv y)) as R1.
  { destruct M as [->|[M _]]; [left; lra|right]. rewrite AX. apply Rle_trans with (bpow radix2 (-800 + -191)); [apply bpow_le; lia|].
    rewrite bpow_plus. apply Rmult_le_compat; auto; apply bpow_ge_0. }
  assert (Rabs (rv x * rv y) <= big) as R2.
  { rewrite AX. destruct M as [->|[_ M]]; [rewrite Rabs_R0, Rmult_0_l; apply bpow_ge_0|]. apply Rle_trans with (bpow radix2 (800 + 191)); [|apply bpow_le; lia].
    rewrite bpow_plus. apply Rmult_le_compat; auto; [apply Rabs_pos|lra]. }
  destruct (fin_mul x y Fx Fy R2) as (F & V). split; auto. rewrite V. pose proof (rel_err _ R1) as E. rewrite AX in E.
  rewrite Rabs_mult, (Rabs_pos_eq B) by lra. set (a := Rabs (rv x)) in *. assert (0 <= a) by apply Rabs_pos.
  replace (rnd (rv x * rv y) - rv x * B) with ((rnd (rv x * rv y) - rv x * rv y) + rv x * (rv y - B)) by ring.
  eapply Rle_trans; [apply Rabs_triang|]. rewrite Rabs_mult. fold a.
  assert (a * Rabs (rv y - B) <= a * (2 * u * B)) as T1 by (apply Rmult_le_compat_l; auto).
  assert (u * (a * rv y) <= u * (a * (B * (1 + 2 * u)))) as T2 by (apply Rmult_le_compat_l; [lra|]; apply Rmult_le_compat_l; lra).
  assert (0 <= a * B) as T3 by (apply Rmult_le_pos; lra). set (q := a * B) in *.
  assert (0 <= u * q) as T4 by (apply Rmult_le_pos; lra). assert (u * (u * q) <= / 1000 * (u * q)) as T5 by (apply Rmult_le_compat_r; lra).
  replace (u * (a * (B * (1 + 2 * u)))) with (u * q + 2 * (u * (u * q))) in T2 by (unfold q; ring).
  replace (a * (2 * u * B)) with (2 * (u * q)) in T1 by (unfold q; ring). lra.
Qed.

Lemma div_near x y B : fin x -> fin y -> mid (rv x) -> near_const (rv y) B ->
  fin (b64_div x y) /\ Rabs (rv (b64_div x y) - rv x / B) <= 4 * u * Rabs (rv x / B).
Proof.
  intros Fx Fy M N. destruct (const_range _ _ N) as (PB & _ & (YL & YU) & YB). destruct N as (_ & NE). pose proof u_tiny as U.
  assert (0 < rv y) as Py by (pose proof (bpow_gt_0 radix2 (-191)); lra).
  assert (Rabs (rv x / rv y) = Rabs (rv x) * / rv y) as AX.
  { unfold Rdiv. rewrite Rabs_mult. f_equal. apply Rabs_pos_eq, Rlt_le, Rinv_0_lt_compat. auto. }
  assert (bpow radix2 (-191) <= / rv y <= bpow radix2 191) as IY.
  { change (-191)%Z with (- (191))%Z. rewrite bpow_opp. split; [apply Rinv_le; auto|].
    replace (bpow radix2 191) with (/ bpow radix2 (-191)) by (change (-191)%Z with (- (191))%Z; rewrite bpow_opp; apply Rinv_inv).
    apply Rinv_le; auto. apply bpow_gt_0. }
  assert (rv x / rv y = 0 \/ bpow radix2 (-1022) <= Rabs (rv x / rv y)) as R1.
  { destruct M as [->|[M _]]; [left; unfold Rdiv; ring|right]. rewrite AX. apply Rle_trans with (bpow radix2 (-800 + -191)); [apply bpow_le; lia|].
    rewrite bpow_plus. apply Rmult_le_compat; try apply bpow_ge_0; tauto. }
  assert (Rabs (rv x / rv y) <= big) as R2.
  { rewrite AX. destruct M as [->|[_ M]]; [rewrite Rabs_R0, Rmult_0_l; apply bpow_ge_0|]. apply Rle_trans with (bpow radix2 (800 + 191)); [|apply bpow_le; lia].
    rewrite bpow_plus. apply Rmult_le_compat; auto; try apply Rabs_pos; try tauto. pose proof (bpow_gt_0 radix2 (-191)). lra. }
  destruct (fin_div x y Fx Fy ltac:(lra) R2) as (F & V). split; auto. rewrite V. pose proof (rel_err _ R1) as E. rewrite AX in E.
  assert (Rabs (rv x / B) = Rabs (rv x) * / B) as AB.
  { unfold Rdiv. rewrite Rabs_mult. f_equal. apply Rabs_pos_eq, Rlt_le, Rinv_0_lt_compat. auto. }
  rewrite AB. set (a := Rabs (rv x)) in *. assert (0 <= a) by apply Rabs_pos.
  assert (/ rv y <= (1 + / 100) * / B) as IB.
  { apply Rmult_le_reg_r with (rv y); auto. rewrite Rinv_l by lra. replace ((1 + / 100) * / B * rv y) with ((1 + / 100) * (rv y * / B)) by ring.
    assert (1 - 2 * u <= rv y * / B) as W.
    { apply Rmult_le_reg_r with B; auto. rewrite Rmult_assoc, Rinv_l by lra. lra. }
    lra. }
  assert (rv x / rv y - rv x / B = rv x * ((B - rv y) * / B) * / rv y) as D by (field; split; lra).
  replace (rnd (rv x / rv y) - rv x / B) with ((rnd (rv x / rv y) - rv x / rv y) + (rv x / rv y - rv x / B)) by ring.
  eapply Rle_trans; [apply Rabs_triang|]. rewrite D, !Rabs_mult. fold a.
  assert (0 < / B) as PiB by (apply Rinv_0_lt_compat; auto). assert (0 < / rv y) as Piy by (apply Rinv_0_lt_compat; auto).
  rewrite (Rabs_pos_eq (/ B)), (Rabs_pos_eq (/ rv y)) by lra. rewrite Rabs_minus_sym in NE.
  assert (Rabs (B - rv y) * / B <= 2 * u) as T1.
  { apply Rmult_le_reg_r with B; auto. rewrite Rmult_assoc, Rinv_l by lra. lra. }
  assert (0 <= a * / rv y) as T3 by (apply Rmult_le_pos; lra).
  assert (a * (Rabs (B - rv y) * / B) * / rv y <= 2 * u * (a * / rv y)) as T2.
  { replace (a * (Rabs (B - rv y) * / B) * / rv y) with ((Rabs (B - rv y) * / B) * (a * / rv y)) by ring. apply Rmult_le_compat_r; auto. }
  assert (a * / rv y <= (1 + / 100) * (a * / B)) as T4.
  { replace ((1 + / 100) * (a * / B)) with (a * ((1 + / 100) * / B)) by ring. apply Rmult_le_compat_l; auto. }
  assert (u * (a * / rv y) <= u * ((1 + / 100) * (a * / B))) as T5 by (apply Rmult_le_compat_l; lra).
  assert (0 <= u * (a * / B)) as T6 by (apply Rmult_le_pos; [lra|apply Rmult_le_pos; lra]). lra.
Qed.

Lemma mid_of q : moderate_number (Fin q) -> fin (b64_of_x (Fin q)) /\ rv (b64_of_x (Fin q)) = Q2R q /\ mid (Q2R q).
Proof.
  intros ((d & F & E) & R). destruct (of_Q_val q d F E) as (F' & E'). split; auto. split; [apply Qeq_eqR; exact E'|].
  destruct R as [Z|[L U]]; [left; rewrite (Qeq_eqR _ _ Z); apply Q2R_0|right].
  apply Qle_Rle in L. apply Qle_Rle in U. rewrite Q2R_pow2, Q2R_abs in L, U. auto.
Qed.

Lemma four_u : Q2R ((2 # 1) ^ (-51)) = 4 * u.
Proof. rewrite Q2R_pow2. unfold ulp53. change (-51)%Z with (2 + -53)%Z. rewrite bpow_plus. reflexivity. Qed.
Lemma rounded_R x y : Rabs (Q2R y - Q2R x) <= 4 * u * Rabs (Q2R x) -> rounded x y.
Proof. intros H. apply Rle_Qle. rewrite Q2R_abs_sub, Q2R_mult, four_u, Q2R_abs. exact H. Qed.

Lemma times_rounded q c C : moderate_number (Fin q) -> fin (b64_of_x c) -> near_const (rv (b64_of_x c)) (Q2R C) ->
  exists x, double_times (Fin q) c = Fin x /\ rounded (q * C) x.
Proof.
  intros M F N. destruct (mid_of q M) as (Fq & Vq & Mq). rewrite <- Vq in Mq. destruct (mul_near _ _ _ Fq F Mq N) as (Fm & E).
  unfold double_times. rewrite (x_of_fin _ Fm). eexists. split; [reflexivity|]. apply rounded_R. rewrite Q2R_mult. rewrite Vq in E. exact E.
Qed.
Lemma over_rounded q c C : moderate_number (Fin q) -> fin (b64_of_x c) -> near_const (rv (b64_of_x c)) (Q2R C) ->
  exists x, double_over (Fin q) c = Fin x /\ rounded (q / C) x.
Proof.
  intros M F N. destruct (mid_of q M) as (Fq & Vq & Mq). rewrite <- Vq in Mq. destruct (div_near _ _ _ Fq F Mq N) as (Fm & E).
  unfold double_over. rewrite (x_of_fin _ Fm). eexists. split; [reflexivity|]. apply rounded_R.
  assert (~ C == 0)%Q as NZ. { intros Z. destruct N as ((L & _) & _). rewrite (Qeq_eqR _ _ Z), Q2R_0 in L. pose proof (bpow_gt_0 radix2 (-190)). lra. }
  rewrite Q2R_div by exact NZ. rewrite Vq in E. exact E.
Qed.

(** Constants. *)
Definition const_check (c C : Q) : bool :=
  Qle_bool ((2 # 1) ^ (-190)) C && Qle_bool C ((2 # 1) ^ 190) &&
  Qle_bool (Qabs (b64_val (b64_of_x (Fin c)) - C)) ((2 # 1) ^ (-52) * C).
Lemma two_u : Q2R ((2 # 1) ^ (-52)) = 2 * u.
Proof. rewrite Q2R_pow2. unfold ulp53. change (-52)%Z with (1 + -53)%Z. rewrite bpow_plus. reflexivity. Qed.
Lemma const_near c C : const_check c C = true -> near_const (rv (b64_of_x (Fin c))) (Q2R C).
Proof.
  intros H. apply andb_prop in H. destruct H as [H E]. apply andb_prop in H. destruct H as [L U].
  apply Qle_bool_iff, Qle_Rle in L. apply Qle_bool_iff, Qle_Rle in U. apply Qle_bool_iff, Qle_Rle in E.
  rewrite Q2R_pow2 in L, U. rewrite Q2R_abs_sub, Q2R_mult, two_u in E. split; auto.
Qed.

Lemma rounded_eq x x' y : (x == x')%Q -> rounded x y -> rounded x' y.
Proof. unfold rounded. intros E. rewrite E. auto. Qed.

Lemma thousand_range z : (-15 <= z <= 15)%Z -> bpow radix2 (-190) <= Q2R (1000 ^ z) <= bpow radix2 190.
Proof.
  intros H. rewrite <- !Q2R_pow2. assert (Qle_bool ((2 # 1) ^ (-190)) (1000 ^ z) && Qle_bool (1000 ^ z) ((2 # 1) ^ 190) = true)%Q as C.
  { assert (z = -15 \/ z = -14 \/ z = -13 \/ z = -12 \/ z = -11 \/ z = -10 \/ z = -9 \/ z = -8 \/ z = -7 \/ z = -6 \/ z = -5 \/ z = -4 \/
            z = -3 \/ z = -2 \/ z = -1 \/ z = 0 \/ z = 1 \/ z = 2 \/ z = 3 \/ z = 4 \/ z = 5 \/ z = 6 \/ z = 7 \/ z = 8 \/ z = 9 \/ z = 10 \/
            z = 11 \/ z = 12 \/ z = 13 \/ z = 14 \/ z = 15)%Z as D by lia.
    repeat destruct D as [->|D]; try subst z; vm_compute; reflexivity. }
  apply andb_prop in C. destruct C as [L U]. split; apply Qle_Rle, Qle_bool_iff; assumption.
Qed.

Lemma double_converts pow1000 : good_power pow1000 ->
  converts (double_arith pow1000) rounded moderate_number (fun n => (0 <= n <= 15)%Z).
Proof.
  intros P. split; cbn [times over kilo double_arith].
  - intros n m A k OK S Hm Hk. destruct (P k (m - 1)%Z Hk ltac:(lia)) as (F & E).
    rewrite (x_of_fin _ F). destruct (of_Q_val (b64_val (pow1000 k)) (pow1000 k) F (Qeq_refl _)) as (F' & E').
    destruct (times_rounded A (Fin (b64_val (pow1000 k))) (1000 ^ (m - 1)) OK F') as (x & X & R).
    + split; [apply thousand_range; lia|]. cbn [b64_of_x]. unfold rv. rewrite (Qeq_eqR _ _ E').
      apply Qle_Rle in E. rewrite Q2R_abs_sub, Q2R_mult, two_u in E. exact E.
    + exists x. split; auto. revert R. apply rounded_eq. unfold cgs. setoid_replace (1000000 / 1000)%Q with 1000%Q by reflexivity. reflexivity.
  - intros E OK. destruct (over_rounded E (Fin calories) calories OK) as (x & X & R); [vm_compute; reflexivity|apply const_near; vm_compute; reflexivity|].
    exists x. split; auto. revert R. apply rounded_eq, calories_eq.
  - intros p OK. destruct (over_rounded p (Fin one_atm) one_atm OK) as (x & X & R); [vm_compute; reflexivity|apply const_near; vm_compute; reflexivity|].
    exists x. split; auto.
Qed.

Lemma rounded_room x y : roomy x -> rounded x y -> narrow y.
Proof.
  unfold roomy, rounded, narrow. intros [L U] E.
  assert (Qabs (y - x) <= 1)%Q as D.
  { apply Qle_trans with ((2 # 1) ^ (-51) * 100000)%Q; [|vm_compute; discriminate]. eapply Qle_trans; [exact E|].
    apply Qmult_le_l; [vm_compute; reflexivity|]. apply Qabs_Qle_condition. split; apply Qle_trans with (2 := U) || idtac.
    - apply Qle_trans with (-(9998))%Q; [discriminate|exact L].
    - apply Qle_trans with 99998%Q; [exact U|discriminate]. }
  apply Qabs_Qle_condition in D. destruct D as [D1 D2].
  split; apply Rle_Qle; apply Qle_Rle in L, U, D1, D2; rewrite Q2R_minus, ?Q2R_opp in *;
    replace (Q2R 1) with 1 in * by (unfold Q2R; simpl; lra).
  - replace (Q2R 9998) with 9998 in L by (unfold Q2R; simpl; lra). replace (Q2R 9999) with 9999 by (unfold Q2R; simpl; lra). lra.
  - replace (Q2R 99998) with 99998 in U by (unfold Q2R; simpl; lra). replace (Q2R 99999) with 99999 by (unfold Q2R; simpl; lra). lra.
Qed.

Lemma double_converts_t pow1000 : converts_t (double_arith pow1000) rounded moderate_number roomy.
Proof.
  split; cbn [times over kilo double_arith].
  - intros e OK. destruct (over_rounded e (Fin boltzmann) boltzmann OK) as (x & X & R); [vm_compute; reflexivity|apply const_near; vm_compute; reflexivity|].
    exists x. split; auto.
  - intros e OK. destruct (times_rounded e (Fin (inject_Z (10 ^ 10))) (inject_Z (10 ^ 10)) OK) as (x & X & R); [vm_compute; reflexivity|apply const_near; vm_compute; reflexivity|].
    exists x. split; auto.
  - intros e OK. destruct (over_rounded e (Fin debye) debye OK) as (x & X & R); [vm_compute; reflexivity|apply const_near; vm_compute; reflexivity|].
    exists x. split; auto.
  - intros e OK. destruct (times_rounded e (Fin (inject_Z (10 ^ 30))) (inject_Z (10 ^ 30)) OK) as (x & X & R); [vm_compute; reflexivity|apply const_near; vm_compute; reflexivity|].
    exists x. split; auto.
  - apply rounded_room.
  - unfold roomy, narrow. intros x [L U]. split; eapply Qle_trans; eauto; discriminate.
Qed.

Lemma double_export_reads repr pow1000 : prints repr -> good_power pow1000 ->
  forall s b d st sp, directory d -> stem b -> usable_model s -> double_rates s ->
  exists text rest es,
    fst (write repr (double_arith pow1000) s (b ++ ".inp") d st sp) = ((inside d b ++ ".inp")%string, text) :: rest /\
    names_in "ELEMENTS" text = so_elements s /\ names_in "SPECIES" text = map cs_name (so_species s) /\
    read_reactions text = Some es /\ Forall2 (describes_by rounded (map cs_name (so_species s))) (so_reactions s) es.
Proof.
  intros REPR P s b d st sp D S U R. apply (export_reads_by _ _ _ _ _ (double_converts pow1000 P)); auto.
  apply Forall_forall. intros r I. exact (R r I).
Qed.
Lemma double_transport_file repr pow1000 s b d st : directory d -> stem b -> Forall writable (so_reactions s) ->
  (st = false -> Forall (fun x => cs_coeffs x <> nil) (so_species s)) ->
  Forall (fits_by roomy) (so_species s) -> double_transport s ->
  exists text ts, In ((inside d b ++ "_transport.dat")%string, text) (fst (write repr (double_arith pow1000) s (b ++ ".inp") d st false)) /\
    read_transport text = Some ts /\ Forall2 (transport_by rounded) (so_species s) ts.
Proof.
  intros D S W C F T. apply (transport_file_by _ _ _ _ _ (double_converts_t pow1000)); auto.
  apply Forall_forall. intros x I t a v. exact (T x t a v I).
Qed.
