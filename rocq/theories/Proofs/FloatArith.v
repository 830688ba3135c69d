(** Binary64 operations on finite numbers of either sign. *)
From Coq Require Import ZArith QArith Qpower Qreals Qabs Reals Lia Lra List Bool.
From Coq Require Floats.SpecFloat.
From Flocq Require Import Core BinarySingleNaN Relative Plus_error.
From Verif.Base Require Import B64 Num.
From Verif.Model Require Import FloatDrivers FloatMatrix.
From Verif.Spec Require Import FloatMatrixSpec.
From Verif.Proofs Require Import FloatFacts.
Import ListNotations.
Local Open Scope R_scope.
Local Existing Instance prec53.
Local Existing Instance emax1024.

Definition rv (x : b64) : R := Q2R (b64_val x).
Notation fin := b64_finite.
Notation big := (bpow radix2 1000).

Lemma fin_is_b x : fin x -> is_b x (rv x).
Proof.
  intros F. assert (exists b : bin, B2SF b = x /\ is_finite b = true) as (b & Hb & Fb).
  { destruct x as [s|s| |s m e]; simpl in F; try contradiction.
    - exists (B754_zero s). auto.
    - exists (B754_finite s m e F). auto. }
  assert (is_b x (B2R b)) as I by (exists b; auto).
  unfold rv. now rewrite (is_b_val _ _ I).
Qed.

Lemma is_b_fin x v : is_b x v -> fin x /\ rv x = v.
Proof.
  intros I. split; [|exact (is_b_val _ _ I)]. destruct I as (b & <- & F & _).
  destruct b as [s|s| |s m e H]; try discriminate; simpl; auto.
Qed.

Lemma fin_format x : fin x -> generic_format radix2 fx (rv x).
Proof. intros F. eapply is_b_format. now apply fin_is_b. Qed.

Lemma rnd_abs_bound a e : (-1074 <= e)%Z -> Rabs a <= bpow radix2 e -> Rabs (rnd a) <= bpow radix2 e.
Proof.
  intros He H. apply Rabs_le_inv in H. apply Rabs_le. split.
  - rewrite <- (rnd_id (- bpow radix2 e)); [apply rnd_le; lra|].
    apply generic_format_opp. now apply pow2_format.
  - rewrite <- (rnd_id (bpow radix2 e)); [apply rnd_le; lra|now apply pow2_format].
Qed.

Lemma rnd_small a : Rabs a <= big -> Rlt_bool (Rabs (rnd a)) (bpow radix2 1024) = true.
Proof.
  intros H. apply Rlt_bool_true. apply Rle_lt_trans with big; [|apply bpow_lt; lia].
  apply rnd_abs_bound; [lia|auto].
Qed.

Lemma fin_add x y : fin x -> fin y -> Rabs (rv x + rv y) <= big ->
  fin (b64_add x y) /\ rv (b64_add x y) = rnd (rv x + rv y).
Proof.
  intros Fx Fy H. apply is_b_fin.
  destruct (fin_is_b x Fx) as (b & Eb & Fb & Vb). destruct (fin_is_b y Fy) as (c & Ec & Fc & Vc).
  pose proof (Bplus_correct 53 1024 _ _ mode_NE b c Fb Fc) as P. rewrite Vb, Vc in P.
  change (SpecFloat.fexp 53 1024) with fx in P. simpl round_mode in P.
  rewrite rnd_small in P by auto. destruct P as (P1 & P2 & _).
  exists (Bplus mode_NE b c). rewrite <- Eb, <- Ec, add_eq. rewrite P2, P1, Eb, Ec. auto.
Qed.

Lemma fin_sub x y : fin x -> fin y -> Rabs (rv x - rv y) <= big ->
  fin (b64_sub x y) /\ rv (b64_sub x y) = rnd (rv x - rv y).
Proof.
  intros Fx Fy H. apply is_b_fin.
  destruct (fin_is_b x Fx) as (b & Eb & Fb & Vb). destruct (fin_is_b y Fy) as (c & Ec & Fc & Vc).
  pose proof (Bminus_correct 53 1024 _ _ mode_NE b c Fb Fc) as P. rewrite Vb, Vc in P.
  change (SpecFloat.fexp 53 1024) with fx in P. simpl round_mode in P.
  rewrite rnd_small in P by auto. destruct P as (P1 & P2 & _).
  exists (Bminus mode_NE b c). rewrite <- Eb, <- Ec, sub_eq. rewrite P2, P1, Eb, Ec. auto.
Qed.

Lemma fin_mul x y : fin x -> fin y -> Rabs (rv x * rv y) <= big ->
  fin (b64_mul x y) /\ rv (b64_mul x y) = rnd (rv x * rv y).
Proof.
  intros Fx Fy H. apply is_b_fin.
  destruct (fin_is_b x Fx) as (b & Eb & Fb & Vb). destruct (fin_is_b y Fy) as (c & Ec & Fc & Vc).
  pose proof (Bmult_correct 53 1024 _ _ mode_NE b c) as P. rewrite Vb, Vc in P.
  change (SpecFloat.fexp 53 1024) with fx in P. simpl round_mode in P.
  rewrite rnd_small in P by auto. destruct P as (P1 & P2 & _).
  exists (Bmult mode_NE b c). rewrite <- Eb, <- Ec, mul_eq, P2, P1, Fb, Fc, Eb, Ec. auto.
Qed.

Lemma fin_div x y : fin x -> fin y -> rv y <> 0 -> Rabs (rv x / rv y) <= big ->
  fin (b64_div x y) /\ rv (b64_div x y) = rnd (rv x / rv y).
Proof.
  intros Fx Fy N H. apply is_b_fin.
  destruct (fin_is_b x Fx) as (b & Eb & Fb & Vb). destruct (fin_is_b y Fy) as (c & Ec & Fc & Vc).
  pose proof (Bdiv_correct 53 1024 _ _ mode_NE b c) as P. rewrite Vb, Vc in P. specialize (P N).
  change (SpecFloat.fexp 53 1024) with fx in P. simpl round_mode in P.
  rewrite rnd_small in P by auto. destruct P as (P1 & P2 & _).
  exists (Bdiv mode_NE b c). rewrite <- Eb, <- Ec, div_eq, P2, P1, Fb, Eb, Ec. auto.
Qed.

Lemma rv_finite s m e : rv (SpecFloat.S754_finite s m e) = IZR (cond_Zopp s (Zpos m)) * bpow radix2 e.
Proof.
  unfold rv. simpl b64_val. rewrite Q2R_mult, Q2R_pow2. f_equal. unfold Q2R. simpl. now rewrite Rinv_1, Rmult_1_r.
Qed.

Lemma rv_zero s : rv (SpecFloat.S754_zero s) = 0.
Proof. unfold rv, Q2R. simpl. lra. Qed.

Lemma fin_opp x : fin x -> fin (b64_opp x) /\ rv (b64_opp x) = - rv x.
Proof.
  destruct x as [s|s| |s m e]; simpl; intros F; try contradiction.
  - split; auto. rewrite !rv_zero. lra.
  - split; auto. rewrite !rv_finite. destruct s; simpl cond_Zopp; simpl negb; simpl.
    + change (Zneg m) with (- Zpos m)%Z. rewrite opp_IZR. ring.
    + change (Zneg m) with (- Zpos m)%Z. rewrite opp_IZR. ring.
Qed.

Lemma fin_abs x : fin x -> fin (b64_abs x) /\ rv (b64_abs x) = Rabs (rv x).
Proof.
  destruct x as [s|s| |s m e]; simpl; intros F; try contradiction.
  - split; auto. rewrite !rv_zero. now rewrite Rabs_R0.
  - split; auto. rewrite !rv_finite, Rabs_mult.
    rewrite (Rabs_pos_eq (bpow radix2 e)) by apply bpow_ge_0. f_equal.
    rewrite <- abs_IZR. f_equal. destruct s; reflexivity.
Qed.

Lemma lt_iff x y : fin x -> fin y -> (b64_lt x y = true <-> rv x < rv y).
Proof.
  intros Fx Fy. destruct (fin_is_b x Fx) as (b & Eb & Fb & Vb). destruct (fin_is_b y Fy) as (c & Ec & Fc & Vc).
  pose proof (Bltb_correct 53 1024 b c Fb Fc) as P. unfold Bltb in P. rewrite Eb, Ec, Vb, Vc in P.
  unfold b64_lt. rewrite P. destruct (Rlt_bool_spec (rv x) (rv y)); split; intros; auto; try discriminate; lra.
Qed.

Lemma lt_false x y : fin x -> fin y -> (b64_lt x y = false <-> rv y <= rv x).
Proof.
  intros Fx Fy. pose proof (lt_iff x y Fx Fy) as H. destruct (b64_lt x y); split; intros.
  - discriminate.
  - destruct H as [H _]. specialize (H eq_refl). lra.
  - destruct (Rle_or_lt (rv y) (rv x)) as [|L]; auto. apply H in L. discriminate.
  - reflexivity.
Qed.

Lemma le_iff x y : fin x -> fin y -> (b64_le x y = true <-> rv x <= rv y).
Proof.
  intros Fx Fy. destruct (fin_is_b x Fx) as (b & Eb & Fb & Vb). destruct (fin_is_b y Fy) as (c & Ec & Fc & Vc).
  pose proof (Bleb_correct 53 1024 b c Fb Fc) as P. unfold Bleb in P. rewrite Eb, Ec, Vb, Vc in P.
  unfold b64_le. rewrite P. destruct (Rle_bool_spec (rv x) (rv y)); split; intros; auto; try discriminate; lra.
Qed.

Lemma eq_iff x y : fin x -> fin y -> (b64_eq x y = true <-> rv x = rv y).
Proof.
  intros Fx Fy. destruct (fin_is_b x Fx) as (b & Eb & Fb & Vb). destruct (fin_is_b y Fy) as (c & Ec & Fc & Vc).
  pose proof (Beqb_correct 53 1024 b c Fb Fc) as P. unfold Beqb in P. rewrite Eb, Ec, Vb, Vc in P.
  unfold b64_eq. rewrite P. destruct (Req_bool_spec (rv x) (rv y)); split; intros; auto; try discriminate; lra.
Qed.

Lemma fzero_fin : fin fzero. Proof. exact I. Qed.
Lemma fzero_rv : rv fzero = 0. Proof. apply rv_zero. Qed.

Lemma nz_iff x : fin x -> (b64_nz x = true <-> rv x <> 0).
Proof.
  intros F. unfold b64_nz. pose proof (eq_iff x fzero F fzero_fin) as H. rewrite fzero_rv in H.
  destruct (b64_eq x fzero); simpl; split; intros; auto; try discriminate.
  - exfalso. apply H0. now apply H.
  - intros C. apply H in C. discriminate.
Qed.

Lemma nz_false x : fin x -> (b64_nz x = false <-> rv x = 0).
Proof.
  intros F. pose proof (nz_iff x F). destruct (b64_nz x); split; intros; auto; try discriminate.
  - exfalso. apply H; auto.
  - destruct (Req_dec (rv x) 0); auto. apply H in H1. discriminate.
Qed.

Lemma fin_max x y : fin x -> fin y -> fin (b64_max x y) /\ rv (b64_max x y) = Rmax (rv x) (rv y).
Proof.
  intros Fx Fy. assert (b64_max x y = if b64_lt x y then y else x) as ->.
  { destruct x; simpl in Fx; try contradiction; destruct y; simpl in Fy; try contradiction; reflexivity. }
  destruct (b64_lt x y) eqn:E; [apply lt_iff in E|apply lt_false in E]; auto.
  - split; auto. rewrite Rmax_right; lra.
  - split; auto. rewrite Rmax_left; lra.
Qed.

Lemma fone_fin : fin fone. Proof. reflexivity. Qed.
Lemma fone_rv : rv fone = 1.
Proof. unfold fone. vm_compute b64_of_Z. rewrite rv_finite. simpl. lra. Qed.

Lemma pmax_rv x y : fin x -> fin y -> fin (fpymax x y) /\ rv (fpymax x y) = Rmax (rv x) (rv y).
Proof.
  intros Fx Fy. unfold fpymax.
  destruct (b64_lt x y) eqn:E; [apply lt_iff in E|apply lt_false in E]; auto.
  - split; auto. rewrite Rmax_right; lra.
  - split; auto. rewrite Rmax_left; lra.
Qed.

Lemma sized_rv x m : sized x m -> fin x /\ Rabs (rv x) <= Q2R m.
Proof.
  intros [F H]. split; auto. apply Qle_Rle in H. unfold rv.
  apply Rabs_le. revert H. apply Qabs_case; intros A H.
  - apply Qle_Rle in A. unfold Q2R at 1 in A. simpl in A. lra.
  - rewrite Q2R_opp in H. apply Qle_Rle in A. unfold Q2R at 2 in A. simpl in A. lra.
Qed.

Lemma rnd_mono_abs a b : Rabs a <= b -> generic_format radix2 fx b -> Rabs (rnd a) <= b.
Proof.
  intros H F. apply Rabs_le_inv in H. apply Rabs_le. split.
  - rewrite <- (rnd_id (- b)); [apply rnd_le; lra|]. now apply generic_format_opp.
  - rewrite <- (rnd_id b); [apply rnd_le; lra|auto].
Qed.

(** Multiples of a large power of two below 2^53 of them. *)
Lemma multiple_format k e : (0 <= k <= 2 ^ 53)%Z -> (-1074 <= e)%Z ->
  generic_format radix2 fx (IZR k * bpow radix2 e).
Proof.
  intros Hk He. destruct (Z.eq_dec k (2 ^ 53)) as [->|N].
  - replace (IZR (2 ^ 53)) with (bpow radix2 53) by (simpl; lra). rewrite <- bpow_plus. apply pow2_format. lia.
  - apply generic_format_FLT. exists (Float radix2 k e); auto.
    simpl. rewrite Z.abs_eq; lia.
Qed.
