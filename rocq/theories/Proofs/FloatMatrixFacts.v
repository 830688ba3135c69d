(** The DRG and DRGEP arrays in binary64: range and distance from the
    documented coefficients. *)
From Coq Require Import ZArith QArith Qpower Qreals Qabs Qminmax Reals Lia Lra Psatz List Bool.
From Coq Require Floats.SpecFloat.
From Flocq Require Import Core BinarySingleNaN Relative Plus_error.
From Verif.Base Require Import B64 Num.
From Verif.Model Require Import Matrices FloatDrivers FloatMatrix.
From Verif.Spec Require Import MatrixSpec FloatMatrixSpec.
From Verif.Proofs Require Import NumFacts MatrixFacts FloatFacts FloatArith FloatSums.
Import ListNotations.
Local Open Scope R_scope.

Lemma fget_ftab n m f i j : (i < n)%nat -> (j < m)%nat -> fget (ftab n m f) i j = f i j.
Proof.
  intros Hi Hj. unfold fget, ftab. rewrite nth_map_seq by auto. now rewrite nth_map_seq.
Qed.

Lemma fget_ftab0 n f i j : (i < n)%nat -> (j < n)%nat ->
  fget (ftab0 n f) i j = if Nat.eqb i j then fzero else f i j.
Proof. intros. unfold ftab0. now rewrite fget_ftab. Qed.

Lemma mget_exact M i j : mget (map (map b64_val) M) i j = b64_val (fget M i j).
Proof.
  unfold mget, fget. rewrite <- (map_nth b64_val). f_equal.
  change (@nil Q) with (map b64_val nil). now rewrite map_nth.
Qed.

Lemma rop_exact K i : rop (exact K) i = b64_val (frop K i).
Proof. unfold rop, frop, exact. simpl. rewrite <- (map_nth b64_val). reflexivity. Qed.

Lemma Qnz_rv x : fin x -> Qnz (b64_val x) = b64_nz x.
Proof.
  intros F. destruct (b64_nz x) eqn:E.
  - apply nz_iff in E; auto. apply Qnz_iff. intros C. apply E. unfold rv. rewrite (Qeq_eqR _ _ C).
    unfold Q2R. simpl. lra.
  - apply nz_false in E; auto. apply Qnz_false. apply eqR_Qeq. unfold rv in E. rewrite E. unfold Q2R. simpl. lra.
Qed.

Lemma rsum_le {A} (f g : A -> R) l : (forall i, In i l -> f i <= g i) -> rsum (map f l) <= rsum (map g l).
Proof.
  induction l as [|a l IH]; intros H; simpl; [lra|]. pose proof (H a (or_introl eq_refl)).
  assert (rsum (map f l) <= rsum (map g l)) by (apply IH; intros; apply H; simpl; auto). unfold rsum in *. lra.
Qed.

Lemma rsum_filter_le {A} (f : A -> R) p l : (forall i, In i l -> 0 <= f i) ->
  rsum (map f (filter p l)) <= rsum (map f l).
Proof.
  induction l as [|a l IH]; intros H; simpl; [lra|]. pose proof (H a (or_introl eq_refl)).
  assert (rsum (map f (filter p l)) <= rsum (map f l)) by (apply IH; intros; apply H; simpl; auto).
  destruct (p a); simpl; unfold rsum in *; lra.
Qed.

Lemma rsum_abs {A} (f : A -> R) l : Rabs (rsum (map f l)) <= rsum (map (fun i => Rabs (f i)) l).
Proof.
  induction l as [|a l IH]; simpl; [rewrite Rabs_R0; lra|]. 
  pose proof (Rabs_triang (f a) (rsum (map f l))). unfold rsum in *. lra.
Qed.

Lemma rsum_minus {A} (f g : A -> R) l : rsum (map f l) - rsum (map g l) = rsum (map (fun i => f i - g i) l).
Proof. induction l as [|a l IH]; simpl; [lra|]. unfold rsum in *. lra. Qed.

Lemma rsum_plus {A} (f g : A -> R) l : rsum (map (fun i => f i + g i) l) = rsum (map f l) + rsum (map g l).
Proof. induction l as [|a l IH]; simpl; [lra|]. unfold rsum in *. lra. Qed.

Lemma rsum_lin {A} (f : A -> R) c d l :
  rsum (map (fun i => c * f i + d) l) = c * rsum (map f l) + INR (length l) * d.
Proof.
  induction l as [|a l IH]; [simpl; lra|]. cbn [map length rsum fold_right]. fold (rsum (map (fun i => c * f i + d) l)).
  fold (rsum (map f l)). rewrite S_INR, IH. lra.
Qed.

Lemma rsum_zero {A} (f : A -> R) l : (forall i, In i l -> f i = 0) -> rsum (map f l) = 0.
Proof.
  induction l as [|a l IH]; intros H; [reflexivity|]. change (f a + rsum (map f l) = 0).
  rewrite (H a), IH; [lra| |simpl; auto]. intros; apply H; simpl; auto.
Qed.

Lemma rsum_ge_one {A} (f : A -> R) l i : (forall j, In j l -> 0 <= f j) -> In i l -> f i <= rsum (map f l).
Proof.
  induction l as [|a l IH]; intros H Hi; [destruct Hi|]. destruct Hi as [->|Hi]; simpl.
  - assert (0 <= rsum (map f l)). { rewrite <- (rsum_zero (fun _ => 0) l) by auto. apply rsum_le. intros; apply H; simpl; auto. }
    unfold rsum in *. lra.
  - pose proof (H a (or_introl eq_refl)). assert (f i <= rsum (map f l)) by (apply IH; auto; intros; apply H; simpl; auto).
    unfold rsum in *. lra.
Qed.

Lemma Q2R_sumQ {A} (f : A -> Q) l : Q2R (sumQ (map f l)) = rsum (map (fun i => Q2R (f i)) l).
Proof.
  induction l as [|a l IH]; simpl; [unfold Q2R; simpl; lra|]. rewrite Q2R_plus. unfold sumQ, rsum in *. now rewrite IH.
Qed.

Lemma Q2R_0 : Q2R 0 = 0. Proof. unfold Q2R. simpl. lra. Qed.

Lemma Q2R_max a b : Q2R (Qmax a b) = Rmax (Q2R a) (Q2R b).
Proof.
  destruct (Qlt_le_dec a b) as [H|H].
  - rewrite (Qeq_eqR _ _ (Q.max_r a b (Qlt_le_weak _ _ H))). apply Qlt_Rlt in H. rewrite Rmax_right; lra.
  - rewrite (Qeq_eqR _ _ (Q.max_l a b H)). apply Qle_Rle in H. rewrite Rmax_left; lra.
Qed.

Lemma Q2R_abs a : Q2R (Qabs a) = Rabs (Q2R a).
Proof.
  apply Qabs_case; intros H; apply Qle_Rle in H; rewrite ?Q2R_opp, Q2R_0 in *.
  - rewrite Rabs_pos_eq; lra.
  - rewrite Rabs_left1; lra.
Qed.

(** ** Quotients *)

Lemma ratio_unit num den : fin num -> fin den -> 0 <= rv num <= rv den -> unit_b64 (fsafe_div num den).
Proof.
  intros Fn Fd H. assert (fin (fsafe_div num den) /\ 0 <= rv (fsafe_div num den) <= 1) as [F R].
  { unfold fsafe_div. destruct (b64_nz den) eqn:E.
    - apply nz_iff in E; auto. assert (0 < rv den) as P by lra.
      assert (0 <= rv num / rv den <= 1) as B.
      { split; [apply Rle_mult_inv_pos; lra|]. apply Rmult_le_reg_r with (rv den); auto.
        unfold Rdiv. rewrite Rmult_assoc, Rinv_l, Rmult_1_r; lra. }
      destruct (fin_div num den Fn Fd E) as [F V].
      { rewrite Rabs_pos_eq by lra. apply Rle_trans with 1; [lra|]. change 1 with (bpow radix2 0). apply bpow_le. lia. }
      split; auto. rewrite V. apply (rnd_bounds _ 0); [lia|]. simpl. lra.
    - split; [exact I|]. rewrite fzero_rv. lra. }
  split; auto. unfold rv in R. split; apply Rle_Qle; [rewrite Q2R_0; lra|].
  replace (Q2R 1) with 1 by (unfold Q2R; simpl; lra). lra.
Qed.

Lemma ratio_err num den N D r e : fin num -> fin den -> 0 <= rv num <= rv den ->
  0 < D -> 0 <= N <= D -> r * D = N -> 0 <= e <= / 100 ->
  Rabs (rv num - N) <= e * D -> Rabs (rv den - D) <= e * D ->
  Rabs (rv (fsafe_div num den) - r) <= (203 / 100) * e + u.
Proof.
  intros Fn Fd H HD HN HR He EN ED. apply Rabs_le_inv in EN. apply Rabs_le_inv in ED.
  assert (e * D <= / 100 * D) as X by (apply Rmult_le_compat_r; lra).
  assert (99 / 100 * D <= rv den) as Dd by lra.
  assert (0 < rv den) as P by lra. assert (rv den <> 0) as NZ by lra.
  unfold fsafe_div. rewrite (proj2 (nz_iff den Fd) NZ).
  assert (0 <= rv num / rv den <= 1) as B.
  { split; [apply Rle_mult_inv_pos; lra|]. apply Rmult_le_reg_r with (rv den); auto.
    unfold Rdiv. rewrite Rmult_assoc, Rinv_l, Rmult_1_r; lra. }
  destruct (fin_div num den Fn Fd NZ) as [F V].
  { rewrite Rabs_pos_eq by lra. apply Rle_trans with 1; [lra|]. change 1 with (bpow radix2 0). apply bpow_le. lia. }
  rewrite V. pose proof (unit_err (rv num / rv den)) as UE. rewrite Rabs_pos_eq in UE by lra. specialize (UE ltac:(lra)).
  assert (0 <= r <= 1) as Rr. { split; nra. }
  assert (Rabs (rv num / rv den - r) <= 203 / 100 * e) as Q.
  { apply Rabs_le. set (q := rv num / rv den) in *. assert (q * rv den = rv num) as Hq.
    { unfold q, Rdiv. rewrite Rmult_assoc, Rinv_l; lra. }
    assert ((q - r) * rv den = (rv num - N) - r * (rv den - D)) as Z by (rewrite Rmult_minus_distr_r, Hq; nra).
    assert (- (e * D) <= r * (rv den - D) <= e * D) as Y by (split; nra).
    assert (- (2 * e * D) <= (q - r) * rv den <= 2 * e * D) as W by lra.
    assert (2 * e * D <= 203 / 100 * e * rv den) as V1.
    { apply Rle_trans with (203 / 100 * e * (99 / 100 * D)).
      - assert (0 <= e * D) by (apply Rmult_le_pos; lra). lra.
      - apply Rmult_le_compat_l; [lra|auto]. }
    split; apply Rmult_le_reg_r with (rv den); auto; lra. }
  replace (rnd (rv num / rv den) - r) with ((rnd (rv num / rv den) - rv num / rv den) + (rv num / rv den - r)) by ring.
  pose proof (Rabs_triang (rnd (rv num / rv den) - rv num / rv den) (rv num / rv den - r)). lra.
Qed.

Section Mod.
Variable K : fkinetics.
Hypothesis HM : moderate K.
Let n := nrx (exact K).

Lemma n_len : n = length (fk_rop K).
Proof. unfold n, nrx, exact. simpl. now rewrite map_length. Qed.

Lemma n_small : (Z.of_nat n <= 2 ^ 40)%Z.
Proof. rewrite n_len. apply HM. Qed.

Lemma prod_fin k i : fin (fget (fk_prod K) k i) /\ Rabs (rv (fget (fk_prod K) k i)) <= bpow radix2 100.
Proof. destruct HM as (H & _). rewrite <- Q2R_pow2. apply sized_rv, H. Qed.

Lemma reac_fin k i : fin (fget (fk_reac K) k i) /\ Rabs (rv (fget (fk_reac K) k i)) <= bpow radix2 100.
Proof. destruct HM as (_ & H & _). rewrite <- Q2R_pow2. apply sized_rv, H. Qed.

Lemma rop_fin i : fin (frop K i) /\ Rabs (rv (frop K i)) <= bpow radix2 700.
Proof. destruct HM as (_ & _ & H & _). rewrite <- Q2R_pow2. apply sized_rv, H. Qed.

Lemma valid_same : valid_reactions (exact K) = fvalid K.
Proof.
  unfold valid_reactions, fvalid. simpl k_rop. rewrite map_length. apply filter_ext. intros i.
  rewrite rop_exact. apply Qnz_rv. apply rop_fin.
Qed.

Lemma flag_same b i : flag (exact K) b i = fflag K b i.
Proof.
  unfold flag, fflag. simpl k_prod. simpl k_reac. rewrite !mget_exact, !Qnz_rv; auto; [apply reac_fin|apply prod_fin].
Qed.

Lemma valid_with_same b : valid_with (exact K) b = fvalid_with K b.
Proof.
  unfold valid_with, fvalid_with. rewrite valid_same. apply filter_ext. intros i. apply flag_same.
Qed.

Definition beta (k i : nat) : R := Q2R (rate (exact K) k i).

Lemma beta_eq k i : beta k i = (rv (fget (fk_prod K) k i) - rv (fget (fk_reac K) k i)) * rv (frop K i).
Proof.
  unfold beta, rate. fold (rop (exact K) i). simpl k_prod. simpl k_reac. rewrite rop_exact, !mget_exact.
  now rewrite Q2R_mult, Q2R_minus.
Qed.

Lemma net_fin k i : fin (fnet K k i) /\
  rv (fnet K k i) = rnd (rv (fget (fk_prod K) k i) - rv (fget (fk_reac K) k i)) /\
  Rabs (rv (fnet K k i)) <= bpow radix2 101.
Proof.
  destruct (prod_fin k i) as [F1 B1]. destruct (reac_fin k i) as [F2 B2].
  set (p := rv (fget (fk_prod K) k i)) in *. set (q := rv (fget (fk_reac K) k i)) in *.
  assert (Rabs (p - q) <= bpow radix2 101) as B.
  { replace (bpow radix2 101) with (2 * bpow radix2 100) by (change 101%Z with (1 + 100)%Z; rewrite bpow_plus; simpl; lra).
    pose proof (Rabs_triang p (- q)) as T. rewrite Rabs_Ropp in T. unfold Rminus. lra. }
  destruct (fin_sub _ _ F1 F2) as [F V].
  { fold p q. eapply Rle_trans; [exact B|]. apply bpow_le. lia. }
  split; [exact F|]. split; [exact V|]. unfold fnet. rewrite V. apply rnd_abs_bound; [lia|auto].
Qed.

Lemma base_fin k i : fin (fbase K k i) /\ Rabs (rv (fbase K k i)) <= limb /\
  rv (fbase K k i) = rnd (rv (fnet K k i) * rv (frop K i)).
Proof.
  destruct (net_fin k i) as (F1 & _ & B1). destruct (rop_fin i) as [F2 B2].
  assert (Rabs (rv (fnet K k i) * rv (frop K i)) <= bpow radix2 801) as B.
  { rewrite Rabs_mult. change 801%Z with (101 + 700)%Z. rewrite bpow_plus.
    apply Rmult_le_compat; auto; apply Rabs_pos. }
  destruct (fin_mul _ _ F1 F2) as [F V].
  { eapply Rle_trans; [exact B|]. apply bpow_le. lia. }
  split; [exact F|]. split; [|exact V]. unfold fbase. rewrite V.
  apply Rle_trans with (bpow radix2 801); [apply rnd_abs_bound; [lia|auto]|apply bpow_le; lia].
Qed.

Lemma base_err k i : Rabs (rv (fbase K k i) - beta k i) <= 3 * u * Rabs (beta k i) + eta.
Proof.
  destruct (base_fin k i) as (_ & _ & V). destruct (net_fin k i) as (_ & VN & _).
  rewrite V, VN, beta_eq.
  set (p := rv (fget (fk_prod K) k i)). set (q := rv (fget (fk_reac K) k i)). set (w := rv (frop K i)).
  destruct (plus_err p (- q)) as [_ E].
  { apply fin_format, prod_fin. } { apply generic_format_opp, fin_format, reac_fin. }
  change (p + - q) with (p - q) in E. set (d := p - q) in *. set (d' := rnd d) in *.
  pose proof (mul_err (d' * w)) as M.
  assert (Rabs (d' * w - d * w) <= u * Rabs (d * w)) as X.
  { replace (d' * w - d * w) with ((d' - d) * w) by ring. rewrite !Rabs_mult, <- Rmult_assoc.
    apply Rmult_le_compat_r; [apply Rabs_pos|auto]. }
  assert (Rabs (d' * w) <= Rabs (d * w) + u * Rabs (d * w)) as Y.
  { replace (d' * w) with (d * w + (d' * w - d * w)) at 1 by ring.
    pose proof (Rabs_triang (d * w) (d' * w - d * w)). lra. }
  replace (rnd (d' * w) - d * w) with ((rnd (d' * w) - d' * w) + (d' * w - d * w)) by ring.
  pose proof (Rabs_triang (rnd (d' * w) - d' * w) (d' * w - d * w)) as T.
  pose proof u_pos as U. assert (u <= / 2) as U2 by (rewrite u_val; lra).
  pose proof (Rabs_pos (d * w)) as P. set (B := Rabs (d * w)) in *.
  assert (u * Rabs (d' * w) <= u * (B + u * B)) as Z by (apply Rmult_le_compat_l; lra).
  assert (u * (u * B) <= / 2 * (u * B)) as Z2 by (apply Rmult_le_compat_r; [apply Rmult_le_pos; lra|auto]).
  assert (0 <= u * B) by (apply Rmult_le_pos; lra). lra.
Qed.

Lemma base_zero k i : beta k i = 0 -> rv (fbase K k i) = 0.
Proof.
  intros H. destruct (base_fin k i) as (_ & _ & V). destruct (net_fin k i) as (_ & VN & _).
  rewrite beta_eq in H. apply Rmult_integral in H.
  assert (rv (fnet K k i) * rv (frop K i) = 0) as Z.
  { destruct H as [H|H]; [|rewrite H; ring]. rewrite VN, H.
    rewrite (rnd_id 0) by apply generic_format_0. ring. }
  rewrite V, Z. apply rnd_id, generic_format_0.
Qed.

Lemma valid_le : (length (fvalid K) <= n)%nat.
Proof.
  rewrite n_len. unfold fvalid.
  assert (forall (p : nat -> bool) l, length (filter p l) <= length l)%nat as F.
  { intros p l. induction l; simpl; auto. destruct (p a); simpl; lia. }
  eapply Nat.le_trans; [apply F|]. now rewrite seq_length.
Qed.

(** ** Sums of transformed rates *)

Section Phi.
Variable phi : R -> R.
Variable fphi : b64 -> b64.
Hypothesis phi_spec : forall x, fin x -> fin (fphi x) /\ rv (fphi x) = phi (rv x).
Hypothesis phi_abs : forall x, Rabs (phi x) <= Rabs x.
Hypothesis phi_lip : forall x y, Rabs (phi x - phi y) <= Rabs (x - y).

Lemma phi_ok k l : okl (map (fun i => fphi (fbase K k i)) l).
Proof.
  intros x Hx. apply in_map_iff in Hx. destruct Hx as (i & <- & _).
  destruct (base_fin k i) as (F & B & _). destruct (phi_spec _ F) as [F' V]. split; auto.
  rewrite V. eapply Rle_trans; [apply phi_abs|auto].
Qed.

Lemma phi_sum k l : (length l <= n)%nat ->
  Rabs (rv (b64_sum (map (fun i => fphi (fbase K k i)) l)) - rsum (map (fun i => phi (beta k i)) l)) <=
  (2 * INR n + 4) * u * rsum (map (fun i => Rabs (beta k i)) l) + 2 * INR n * eta.
Proof.
  intros L. pose proof n_small as NS. pose proof u_pos as U.
  assert (0 <= eta) as E0 by apply bpow_ge_0.
  set (T := rsum (map (fun i => Rabs (beta k i)) l)).
  assert (0 <= T) as T0.
  { unfold T. rewrite <- (rsum_zero (fun _ => 0) l) by auto. apply rsum_le. intros; apply Rabs_pos. }
  assert (INR (length l) <= INR n) as L' by now apply le_INR.
  pose proof (pos_INR (length l)) as L0.
  pose proof (sum_err _ (phi_ok k l)) as S. rewrite map_length in S. specialize (S ltac:(lia)).
  rewrite !map_map in S.
  set (s := rv (b64_sum (map (fun i => fphi (fbase K k i)) l))) in *.
  set (m := rsum (map (fun i => rv (fphi (fbase K k i))) l)) in *.
  set (Tb := rsum (map (fun i => Rabs (rv (fphi (fbase K k i)))) l)) in *.
  assert (Tb <= (1 + 3 * u) * T + INR n * eta) as HTb.
  { apply Rle_trans with (rsum (map (fun i => (1 + 3 * u) * Rabs (beta k i) + eta) l)).
    - apply rsum_le. intros i _. destruct (base_fin k i) as (F & _ & _). destruct (phi_spec _ F) as [_ V]. rewrite V.
      eapply Rle_trans; [apply phi_abs|]. pose proof (base_err k i) as BE.
      replace (rv (fbase K k i)) with (beta k i + (rv (fbase K k i) - beta k i)) at 1 by ring.
      pose proof (Rabs_triang (beta k i) (rv (fbase K k i) - beta k i)). lra.
    - rewrite rsum_lin. fold T. assert (INR (length l) * eta <= INR n * eta) by (apply Rmult_le_compat_r; auto). lra. }
  assert (Rabs (m - rsum (map (fun i => phi (beta k i)) l)) <= 3 * u * T + INR n * eta) as Hm.
  { unfold m. rewrite rsum_minus. eapply Rle_trans; [apply rsum_abs|].
    apply Rle_trans with (rsum (map (fun i => 3 * u * Rabs (beta k i) + eta) l)).
    - apply rsum_le. intros i _. destruct (base_fin k i) as (F & _ & _). destruct (phi_spec _ F) as [_ V]. rewrite V.
      eapply Rle_trans; [apply phi_lip|]. apply base_err.
    - rewrite rsum_lin. fold T. assert (INR (length l) * eta <= INR n * eta) by (apply Rmult_le_compat_r; auto). lra. }
  rewrite <- INR_IZR_INZ in S.
  assert (INR n * u <= / 8192) as NU.
  { rewrite u_val, INR_IZR_INZ. apply Rle_trans with (IZR (2 ^ 40) * / 9007199254740992).
    - apply Rmult_le_compat_r; [lra|]. now apply IZR_le.
    - simpl. lra. }
  assert (0 <= Tb) as Tb0.
  { unfold Tb. rewrite <- (rsum_zero (fun _ => 0) l) by auto. apply rsum_le. intros; apply Rabs_pos. }
  assert (2 * INR (length l) * u * Tb <= 2 * INR n * u * Tb) as S1.
  { apply Rmult_le_compat_r; auto. apply Rmult_le_compat_r; lra. }
  assert (0 <= INR n * u) as NU0 by (apply Rmult_le_pos; [apply pos_INR|lra]).
  assert (2 * INR n * u * Tb <= 2 * INR n * u * ((1 + 3 * u) * T + INR n * eta)) as S2.
  { apply Rmult_le_compat_l; lra. }
  assert (INR n * u * (u * T) <= / 8192 * (u * T)) as S3.
  { apply Rmult_le_compat_r; [apply Rmult_le_pos; lra|auto]. }
  assert (0 <= u * T) as UT by (apply Rmult_le_pos; lra).
  assert (0 <= INR n * eta) as NE by (apply Rmult_le_pos; [apply pos_INR|auto]).
  assert (INR n * u * (INR n * eta) <= / 8192 * (INR n * eta)) as S4 by (apply Rmult_le_compat_r; auto).
  replace (s - rsum (map (fun i => phi (beta k i)) l)) with ((s - m) + (m - rsum (map (fun i => phi (beta k i)) l))) by ring.
  pose proof (Rabs_triang (s - m) (m - rsum (map (fun i => phi (beta k i)) l))) as Tr.
  replace (2 * INR n * u * ((1 + 3 * u) * T + INR n * eta))
    with (2 * (INR n * u * T) + 6 * (INR n * u * (u * T)) + 2 * (INR n * u * (INR n * eta))) in S2 by ring.
  replace ((2 * INR n + 4) * u * T + 2 * INR n * eta) with (2 * (INR n * u * T) + 4 * (u * T) + 2 * (INR n * eta)) by ring.
  lra.
Qed.

Lemma phi_sum_zero k l : (length l <= n)%nat -> (forall i, In i l -> beta k i = 0) -> 
  rv (b64_sum (map (fun i => fphi (fbase K k i)) l)) = 0.
Proof.
  intros L Z. pose proof n_small as NS.
  pose proof (sum_err _ (phi_ok k l)) as S. rewrite map_length in S. specialize (S ltac:(lia)).
  rewrite !map_map in S.
  assert (forall i, In i l -> rv (fphi (fbase K k i)) = 0) as Z'.
  { intros i Hi. destruct (base_fin k i) as (F & _ & _). destruct (phi_spec _ F) as [_ V]. rewrite V.
    pose proof (phi_abs (rv (fbase K k i))) as A. rewrite (base_zero k i) in A |- * by auto.
    rewrite Rabs_R0 in A. pose proof (Rabs_pos (phi 0)). destruct (Req_dec (phi 0) 0) as [|N]; auto.
    apply Rabs_pos_lt in N. lra. }
  rewrite (rsum_zero _ l Z') in S.
  rewrite (rsum_zero (fun i => Rabs (rv (fphi (fbase K k i)))) l) in S
    by (intros i Hi; rewrite Z' by auto; apply Rabs_R0).
  rewrite Rmult_0_r, Rminus_0_r in S.
  destruct (Req_dec (rv (b64_sum (map (fun i => fphi (fbase K k i)) l))) 0) as [|N]; auto.
  apply Rabs_pos_lt in N. lra.
Qed.
End Phi.
End Mod.
