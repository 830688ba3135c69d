(** Closeness with doubles. *)
From Coq Require Import String List ZArith QArith Qabs Qreals Reals Bool Arith Lia Lra Psatz Sorting.Permutation.
From Flocq Require Import Core.
From Coq Require Import Floats.SpecFloat.
From Verif.Base Require Import Py Num XNum B64.
From Verif.Model Require Import Chem Metrics Compare FloatDrivers FloatMatrix DoubleError CompareDouble.
From Verif.Spec Require Import FloatMatrixSpec CompareSpec CompareDoubleSpec.
From Verif.Proofs Require Import FloatFacts FloatArith FloatRunFacts FloatErrorFacts SaOrderFloat CompareFacts CompareSelf CompareMono.
Import ListNotations.
Local Open Scope R_scope.
Local Notation u := ulp53.

Definition fatol : b64 := b64_of_frac 1 100000000.
Definition frtol : b64 := b64_of_frac 1 100000.
Definition A : R := / 100000000.
Definition B : R := / 100000.

Lemma u_eq : u = Q2R (1 # 9007199254740992).
Proof. unfold ulp53, Q2R. simpl. lra. Qed.

Lemma tol_near d n : b64_finite d -> Qle_bool (Qabs (b64_val d - (1 # n))) ((1 # 9007199254740992) * (1 # n)) = true ->
  fin d /\ Rabs (rv d - / IZR (Zpos n)) <= u * / IZR (Zpos n).
Proof.
  intros F H. split; auto. apply Qle_bool_iff, Qle_Rle in H. rewrite Q2R_mult, Q2R_abs_sub, <- u_eq in H. fold (rv d) in H.
  replace (Q2R (1 # n)) with (/ IZR (Zpos n)) in H; auto. unfold Q2R. simpl. lra.
Qed.
Lemma fatol_near : fin fatol /\ Rabs (rv fatol - A) <= u * A.
Proof. apply (tol_near fatol 100000000); vm_compute; reflexivity. Qed.
Lemma frtol_near : fin frtol /\ Rabs (rv frtol - B) <= u * B.
Proof. apply (tol_near frtol 100000); vm_compute; reflexivity. Qed.

Lemma u_small : 0 < u <= / 1000.
Proof. unfold ulp53. split; [apply bpow_gt_0|]. simpl. lra. Qed.

Lemma rnd_mix z : Rabs (rnd z - z) <= u * Rabs z + bpow radix2 (-1021).
Proof.
  pose proof (bpow_gt_0 radix2 (-1021)). destruct (Rle_or_lt (bpow radix2 (-1022)) (Rabs z)) as [L|L].
  - pose proof (rel_err z (or_intror L)). lra.
  - assert (Rabs (rnd z) <= bpow radix2 (-1022)) as E by (apply rnd_abs_bound; [lia|lra]).
    assert (bpow radix2 (-1021) = 2 * bpow radix2 (-1022)) as -> by (change (-1021)%Z with (1 + -1022)%Z; rewrite bpow_plus; f_equal).
    assert (0 <= u * Rabs z) by (apply Rmult_le_pos; [apply Rlt_le, u_small|apply Rabs_pos]).
    apply Rabs_le_inv in E. apply Rabs_lt_inv in L. apply Rabs_le. lra.
Qed.

Lemma tiny : bpow radix2 (-1021) <= u * A.
Proof.
  apply Rle_trans with (bpow radix2 (-80)); [apply bpow_le; lia|]. unfold A, ulp53.
  change (-80)%Z with (-27 + -53)%Z. rewrite bpow_plus, Rmult_comm. apply Rmult_le_compat_l; [apply bpow_ge_0|]. simpl. lra.
Qed.

(** The computed tolerance. *)
Lemma tolerance y : fin y -> Rabs (rv y) <= bpow radix2 900 ->
  let s := b64_add fatol (b64_mul frtol (b64_abs y)) in
  fin s /\ (1 - 4 * u) * (A + B * Rabs (rv y)) <= rv s <= (1 + 4 * u) * (A + B * Rabs (rv y)).
Proof.
  intros F Y s. destruct fatol_near as (FA & EA). destruct frtol_near as (FB & EB). destruct (fin_abs y F) as (Fa & Va).
  pose proof u_small as U. pose proof tiny as W. pose proof (bpow_gt_0 radix2 (-1021)) as W0. pose proof (Rabs_pos (rv y)) as P.
  set (Yv := Rabs (rv y)) in *. assert (0 < A < 1) as HA by (unfold A; lra). assert (0 < B < 1) as HB by (unfold B; lra).
  apply Rabs_le_inv in EA. apply Rabs_le_inv in EB.
  set (a := rv fatol) in *. set (b := rv frtol) in *.
  assert (bpow radix2 900 <= big / 4) as G.
  { apply Rle_trans with (bpow radix2 910); [apply bpow_le; lia|]. assert (4 * bpow radix2 910 <= big); [|lra].
    replace 4 with (bpow radix2 2) by (simpl; lra). rewrite <- bpow_plus. apply bpow_le. lia. }
  assert (0 <= B * Yv) as Q0 by (apply Rmult_le_pos; lra). assert (B * Yv <= Yv) as Q1 by nra.
  assert ((1 - u) * (B * Yv) <= b * Yv <= (1 + u) * (B * Yv)) as PR.
  { split; [replace ((1 - u) * (B * Yv)) with ((B - u * B) * Yv) by ring|replace ((1 + u) * (B * Yv)) with ((B + u * B) * Yv) by ring];
      apply Rmult_le_compat_r; lra. }
  set (q := B * Yv) in *. assert (0 <= u * q <= / 1000 * q) as Uq by (split; [apply Rmult_le_pos; lra|apply Rmult_le_compat_r; lra]).
  assert (0 <= b * Yv <= 2 * Yv) as Bd by lra.
  destruct (fin_mul frtol (b64_abs y) FB Fa) as (Fm & Vm).
  { rewrite Va. fold Yv. fold b. rewrite Rabs_pos_eq by lra. pose proof (bpow_ge_0 radix2 1000). lra. }
  rewrite Va in Vm. fold Yv b in Vm. pose proof (rnd_mix (b * Yv)) as M. rewrite (Rabs_pos_eq (b * Yv)) in M by lra.
  rewrite <- Vm in M. apply Rabs_le_inv in M. set (p := rv (b64_mul frtol (b64_abs y))) in *.
  assert (0 <= u * (b * Yv) <= u * ((1 + u) * q)) as UB by (split; [apply Rmult_le_pos; lra|apply Rmult_le_compat_l; lra]).
  assert (u * ((1 + u) * q) = u * q + u * (u * q)) as X1 by ring.
  assert (0 <= u * (u * q) <= / 1000 * (u * q)) as X2 by (split; [apply Rmult_le_pos; lra|apply Rmult_le_compat_r; lra]).
  assert (0 < u * A <= / 1000 * A) as UA by (split; [apply Rmult_lt_0_compat; lra|apply Rmult_le_compat_r; lra]).
  assert (A + q - (2 * (u * A) + (2 + / 500) * (u * q)) <= a + p <= A + q + (2 * (u * A) + (2 + / 500) * (u * q))) as S1 by lra.
  assert (0 < a + p) as S0 by lra.
  destruct (fin_add fatol (b64_mul frtol (b64_abs y)) FA Fm) as (Fs & Vs).
  { fold a p. rewrite Rabs_pos_eq by lra. assert (1 <= bpow radix2 900) by (change 1 with (bpow radix2 0); apply bpow_le; lia). lra. }
  fold s a p in Fs, Vs. split; auto.
  destruct (plus_err a p) as (_ & E); [now apply fin_format|now apply fin_format|].
  rewrite <- Vs, (Rabs_pos_eq (a + p)) in E by lra. apply Rabs_le_inv in E.
  assert (u * (a + p) <= u * ((1 + / 100) * (A + q))) as E2 by (apply Rmult_le_compat_l; lra).
  replace (u * ((1 + / 100) * (A + q))) with ((1 + / 100) * (u * A + u * q)) in E2 by ring.
  replace ((1 - 4 * u) * (A + q)) with (A + q - 4 * (u * A + u * q)) by ring.
  replace ((1 + 4 * u) * (A + q)) with (A + q + 4 * (u * A + u * q)) by ring. lra.
Qed.

Lemma number_val q : double_number (Fin q) -> fin (b64_of_x (Fin q)) /\ rv (b64_of_x (Fin q)) = Q2R q /\ Rabs (Q2R q) <= bpow radix2 900.
Proof.
  intros (d & F & E & Bq). destruct (of_Q_val q d F E) as (F' & E'). split; auto.
  split; [apply Qeq_eqR; exact E'|]. apply Qle_Rle in Bq. rewrite Q2R_pow2 in Bq.
  replace (Rabs (Q2R q)) with (Q2R (Qabs q)); auto.
  assert (q == q - 0)%Q as Z by ring. rewrite (Qeq_eqR _ _ (Qabs_wd _ _ Z)), Q2R_abs_sub.
  replace (Q2R 0) with 0 by (unfold Q2R; simpl; lra). now rewrite Rminus_0_r.
Qed.

Lemma isfinite_fin x : fin x -> b64_isfinite x = true.
Proof. destruct x; simpl; intros; try contradiction; reflexivity. Qed.

Lemma tol_Q k q : Q2R (k * ((1 # 100000000) + (1 # 100000) * Qabs q)) = Q2R k * (A + B * Rabs (Q2R q)).
Proof.
  rewrite Q2R_mult, Q2R_plus, Q2R_mult. assert (Q2R (Qabs q) = Rabs (Q2R q)) as ->.
  { assert (q == q - 0)%Q as Z by ring. rewrite (Qeq_eqR _ _ (Qabs_wd _ _ Z)), Q2R_abs_sub.
    replace (Q2R 0) with 0 by (unfold Q2R; simpl; lra). now rewrite Rminus_0_r. }
  unfold A, B. f_equal. unfold Q2R. simpl. lra.
Qed.

Lemma close_facts p q : double_number (Fin p) -> double_number (Fin q) ->
  (double_close (Fin p) (Fin q) = true -> near_by (1 + (2 # 1) ^ (-50)) (Fin p) (Fin q)) /\
  (near_by (1 - (2 # 1) ^ (-50)) (Fin p) (Fin q) -> double_close (Fin p) (Fin q) = true).
Proof.
  intros Hp Hq. destruct (number_val p Hp) as (Fp & Vp & Bp). destruct (number_val q Hq) as (Fq & Vq & Bq).
  unfold double_close. rewrite !isfinite_fin by auto. cbn [andb]. fold fatol frtol.
  destruct (tolerance (b64_of_x (Fin q)) Fq) as (Fs & S); [now rewrite Vq|]. rewrite Vq in S.
  destruct (fin_sub (b64_of_x (Fin p)) (b64_of_x (Fin q)) Fp Fq) as (Fd & Vd).
  { rewrite Vp, Vq. apply Rle_trans with (bpow radix2 900 + bpow radix2 900).
    - apply Rabs_le_inv in Bp. apply Rabs_le_inv in Bq. apply Rabs_le. lra.
    - replace (bpow radix2 900 + bpow radix2 900) with (2 * bpow radix2 900) by ring.
      replace 2 with (bpow radix2 1) at 1 by reflexivity. rewrite <- bpow_plus. apply bpow_le. lia. }
  rewrite Vp, Vq in Vd. destruct (fin_abs _ Fd) as (Fa & Va). rewrite Vd in Va.
  pose proof (fin_format _ Fp) as Gp. pose proof (generic_format_opp _ _ _ (fin_format _ Fq)) as Gq. rewrite Vp in Gp. rewrite Vq in Gq.
  destruct (plus_err _ _ Gp Gq) as (_ & E). change (Q2R p + - Q2R q) with (Q2R p - Q2R q) in E.
  pose proof (Rabs_triang_inv2 (rnd (Q2R p - Q2R q)) (Q2R p - Q2R q)) as T. apply Rabs_le_inv in T. rewrite <- Va in T.
  rewrite (le_iff _ _ Fa Fs). pose proof (Rabs_pos (Q2R p - Q2R q)) as DP.
  set (d := rv (b64_abs (b64_sub (b64_of_x (Fin p)) (b64_of_x (Fin q))))) in *.
  set (s := rv (b64_add fatol (b64_mul frtol (b64_abs (b64_of_x (Fin q)))))) in *.
  set (Dx := Rabs (Q2R p - Q2R q)) in *. set (t := A + B * Rabs (Q2R q)) in *.
  assert (0 <= t) as TP by (unfold t, A, B; pose proof (Rabs_pos (Q2R q)); lra).
  pose proof u_small as U. assert (Q2R ((2 # 1) ^ (-50)) = 8 * u) as K.
  { rewrite Q2R_pow2. unfold ulp53. change (-50)%Z with (3 + -53)%Z. rewrite bpow_plus. f_equal. }
  assert (0 <= u * t <= / 1000 * t) as Ut by (split; [apply Rmult_le_pos; lra|apply Rmult_le_compat_r; lra]).
  assert (0 <= u * Dx) as UD by (apply Rmult_le_pos; lra).
  split.
  - intros L. cbn [near_by]. apply Rle_Qle. rewrite tol_Q, Q2R_abs_sub, Q2R_plus, K. fold Dx t.
    replace (Q2R 1) with 1 by (unfold Q2R; simpl; lra). assert ((1 - u) * Dx <= (1 + 4 * u) * t) as L1 by lra.
    destruct (Rle_or_lt Dx ((1 + 8 * u) * t)) as [|C]; auto. exfalso.
    assert ((1 - u) * ((1 + 8 * u) * t) <= (1 - u) * Dx) as L2 by (apply Rmult_le_compat_l; lra).
    assert (0 <= u * (u * t) <= / 1000 * (u * t)) by (split; [apply Rmult_le_pos; lra|apply Rmult_le_compat_r; lra]).
    replace ((1 - u) * ((1 + 8 * u) * t)) with (t + 7 * (u * t) - 8 * (u * (u * t))) in L2 by ring.
    replace ((1 + 4 * u) * t) with (t + 4 * (u * t)) in L1 by ring.
    replace ((1 + 8 * u) * t) with (t + 8 * (u * t)) in C by ring.
    assert (u * t = 0) as Z by lra. rewrite Z in *. assert (t = 0 \/ t <> 0) as [Z0|Z0] by lra.
    + unfold t, A, B in Z0. pose proof (Rabs_pos (Q2R q)). lra.
    + apply Rmult_integral in Z. lra.
  - cbn [near_by]. intros L. apply Qle_Rle in L. rewrite tol_Q, Q2R_abs_sub, Q2R_minus, K in L. fold Dx t in L.
    replace (Q2R 1) with 1 in L by (unfold Q2R; simpl; lra).
    assert ((1 + u) * Dx <= (1 + u) * ((1 - 8 * u) * t)) as L2 by (apply Rmult_le_compat_l; lra).
    assert (0 <= u * (u * t)) by (apply Rmult_le_pos; lra).
    replace ((1 + u) * ((1 - 8 * u) * t)) with (t - 7 * (u * t) - 8 * (u * (u * t))) in L2 by ring.
    replace ((1 - 4 * u) * t) with (t - 4 * (u * t)) in S by ring. lra.
Qed.

Lemma close_upper x y : double_number x -> double_number y ->
  double_close x y = true -> isclose_by (1 + (2 # 1) ^ (-50)) x y = true.
Proof.
  intros Hx Hy. rewrite isclose_by_iff. destruct x as [p| | |], y as [q| | |]; try (apply close_facts; assumption);
    try (vm_compute; intuition discriminate).
  all: try (unfold double_close; rewrite (isfinite_fin _ (proj1 (number_val _ Hx))); destruct (number_val _ Hx) as (F & _)).
  all: try (unfold double_close; rewrite (isfinite_fin _ (proj1 (number_val _ Hy))); destruct (number_val _ Hy) as (F & _)).
  all: match goal with F : fin ?d |- _ => destruct d as [s|s| |[] m e]; try contradiction; cbn; try destruct s; intros; discriminate end.
Qed.

Lemma close_lower x y : double_number x -> double_number y ->
  isclose_by (1 - (2 # 1) ^ (-50)) x y = true -> double_close x y = true.
Proof.
  intros Hx Hy. rewrite isclose_by_iff. destruct x as [p| | |], y as [q| | |]; try (apply close_facts; assumption);
    try (intros []); vm_compute; reflexivity.
Qed.

Lemma zero_number : double_number (Fin 0).
Proof. exists (S754_zero false). split; [exact Logic.I|]. split; [reflexivity|]. apply Qle_bool_iff. vm_compute. reflexivity. Qed.

Lemma double_accepts m1 m2 : well_formed m1 -> well_formed m2 ->
  NoDup (map cr_equation (so_reactions m1)) -> NoDup (map cr_equation (so_reactions m2)) ->
  double_values m1 -> double_values m2 ->
  (double_compare m1 m2 = Ok true -> equivalent_by (1 + (2 # 1) ^ (-50)) m1 m2) /\
  (equivalent_by (1 - (2 # 1) ^ (-50)) m1 m2 -> double_compare m1 m2 = Ok true).
Proof.
  intros W1 W2 N1 N2 (D1 & E1) (D2 & E2).
  assert (forall m s x, m = m1 \/ m = m2 -> In s (so_species m) -> In x (thermo_values s) -> double_number x) as DS by (intros m s x [->| ->]; eauto).
  assert (forall m r x, m = m1 \/ m = m2 -> In r (so_reactions m) -> In x (rate_values (cr_rate r)) -> double_number x) as DR by (intros m s x [->| ->]; eauto).
  split; intros H.
  - apply (compare_by_iff _ _ (isclose_by_iff _)); auto. revert H. apply compare_mono with double_number; auto using zero_number, close_upper.
  - apply (compare_by_iff _ _ (isclose_by_iff _)) in H; auto. revert H. apply compare_mono with double_number; auto using zero_number, close_lower.
Qed.

Lemma double_self m : well_formed m -> double_values m -> double_compare m m = Ok true <-> no_nan m.
Proof.
  intros W (D & E).
  assert (forall m' s x, m' = m \/ m' = m -> In s (so_species m') -> In x (thermo_values s) -> double_number x) as DS by (intros m' s x [->| ->]; eauto).
  assert (forall m' r x, m' = m \/ m' = m -> In r (so_reactions m') -> In x (rate_values (cr_rate r)) -> double_number x) as DR by (intros m' s x [->| ->]; eauto).
  split; intros H.
  - rewrite <- (compare_with_self (isclose_by (1 + (2 # 1) ^ (-50)))); auto; [|intros x; apply isclose_by_self; discriminate].
    revert H. apply compare_mono with double_number; auto using zero_number, close_upper.
  - rewrite <- (compare_with_self (isclose_by (1 - (2 # 1) ^ (-50)))) in H; auto; [|intros x; apply isclose_by_self; discriminate].
    revert H. apply compare_mono with double_number; auto using zero_number, close_lower.
Qed.
