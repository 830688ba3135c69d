(** Binary64 thresholds: values, order, and the error of the step back.  The
    operations of [SpecFloat] are related to the reals through Flocq. *)
From Coq Require Import ZArith QArith Qpower Qreals Reals Lia Lra List Bool.
From Coq Require Floats.SpecFloat.
From Flocq Require Import Core BinarySingleNaN Relative Plus_error.
From Verif.Base Require Import B64.
From Verif.Model Require Import Drivers FloatDrivers.
From Verif.Proofs Require Import LoopForward.
Local Open Scope R_scope.

Notation bin := (binary_float 53 1024).
Notation fx := (FLT_exp (-1074) 53).
Notation rnd := (round radix2 fx ZnearestE).

Local Instance prec53 : Prec_gt_0 53 := eq_refl.
Local Instance emax1024 : Prec_lt_emax 53 1024 := eq_refl.

Lemma even_choice s m l : SpecFloat.round_nearest_even m l = choice_mode mode_NE s m l.
Proof. destruct l as [|[ | | ]]; try reflexivity. simpl. unfold Round.cond_incr. now destruct (Z.even m). Qed.

Lemma aux_eq s m e l :
  SpecFloat.binary_round_aux 53 1024 s m e l = binary_round_aux 53 1024 mode_NE s m e l.
Proof.
  unfold SpecFloat.binary_round_aux, binary_round_aux.
  destruct (SpecFloat.shr_fexp 53 1024 m e l) as [a b]. now rewrite (even_choice s).
Qed.

Lemma round_eq s m e :
  SpecFloat.binary_round 53 1024 s m e = binary_round 53 1024 mode_NE s m e.
Proof.
  unfold SpecFloat.binary_round, binary_round, shl_align_fexp.
  destruct (SpecFloat.shl_align _ _ _). apply aux_eq.
Qed.

Lemma normalize_eq m e z :
  SpecFloat.binary_normalize 53 1024 m e z = B2SF (binary_normalize 53 1024 _ _ mode_NE m e z).
Proof. destruct m; simpl; rewrite ?B2SF_SF2B; auto using round_eq. Qed.

Lemma add_eq (x y : bin) : b64_add (B2SF x) (B2SF y) = B2SF (Bplus mode_NE x y).
Proof.
  destruct x as [sx|sx| |sx mx ex Hx], y as [sy|sy| |sy my ey Hy];
    try (simpl; try destruct (Bool.eqb _ _); reflexivity). apply normalize_eq.
Qed.

Lemma sub_eq (x y : bin) : b64_sub (B2SF x) (B2SF y) = B2SF (Bminus mode_NE x y).
Proof.
  destruct x as [sx|sx| |sx mx ex Hx], y as [sy|sy| |sy my ey Hy];
    try (simpl; try destruct (Bool.eqb _ _); reflexivity).
  unfold b64_sub, Bminus. simpl. unfold Zminus. rewrite <- cond_Zopp_negb. apply normalize_eq.
Qed.

Lemma mul_eq (x y : bin) : b64_mul (B2SF x) (B2SF y) = B2SF (Bmult mode_NE x y).
Proof.
  destruct x as [sx|sx| |sx mx ex Hx], y as [sy|sy| |sy my ey Hy]; try reflexivity.
  unfold b64_mul. simpl. rewrite B2SF_SF2B. apply aux_eq.
Qed.

Lemma div_eq (x y : bin) : b64_div (B2SF x) (B2SF y) = B2SF (Bdiv mode_NE x y).
Proof.
  destruct x as [sx|sx| |sx mx ex Hx], y as [sy|sy| |sy my ey Hy]; try reflexivity.
  unfold b64_div. simpl. rewrite B2SF_SF2B.
  destruct (SpecFloat.SFdiv_core_binary _ _ _ _ _ _) as [[a b] c]. apply aux_eq.
Qed.

(** [x] is a finite binary64 number with value [v]. *)
Definition is_b (x : b64) (v : R) : Prop :=
  exists b : bin, B2SF b = x /\ is_finite b = true /\ B2R b = v.

Lemma is_b_format x v : is_b x v -> generic_format radix2 fx v.
Proof. intros (b & _ & _ & <-). apply generic_format_B2R. Qed.

Lemma Q2R_pow2 e : Q2R ((2 # 1) ^ e) = bpow radix2 e.
Proof.
  assert (forall p, Q2R ((2 # 1) ^ Zpos p) = bpow radix2 (Zpos p)) as P.
  { intros p. rewrite bpow_powerRZ. simpl. 
    induction p as [|p IH] using Pos.peano_ind.
    - unfold Q2R. simpl. lra.
    - rewrite Pos2Nat.inj_succ. simpl pow. rewrite <- IH.
      change (Qpower_positive (2 # 1) (Pos.succ p)) with ((2 # 1) ^ Zpos (Pos.succ p))%Q.
      rewrite <- Pos.add_1_l. 
      change (Zpos (1 + p)) with (1 + Zpos p)%Z.
      rewrite (Qeq_eqR _ _ (Qpower_plus (2 # 1) 1 (Zpos p) ltac:(discriminate))).
      rewrite Q2R_mult. f_equal. unfold Q2R. simpl. lra. }
  destruct e as [|p|p].
  - unfold Q2R. simpl. lra.
  - apply P.
  - change (Zneg p) with (- Zpos p)%Z.
    rewrite (Qeq_eqR _ _ (Qpower_opp (2 # 1) (Zpos p))), Q2R_inv, P, bpow_opp; auto.
    intros C. apply eqR_Qeq with (y := 0%Q) in C || idtac.
    assert (Q2R ((2 # 1) ^ Zpos p) = 0) as C' by (rewrite (Qeq_eqR _ _ C); unfold Q2R; simpl; lra).
    rewrite P in C'. pose proof (bpow_gt_0 radix2 (Zpos p)). lra.
Qed.

Lemma is_b_val x v : is_b x v -> Q2R (b64_val x) = v.
Proof.
  intros (b & <- & F & <-). destruct b as [s|s| |s m e H]; try discriminate; simpl.
  - unfold Q2R. simpl. lra.
  - rewrite Q2R_mult, Q2R_pow2. unfold F2R. simpl. f_equal.
    unfold Q2R. simpl. rewrite Rinv_1, Rmult_1_r. reflexivity.
Qed.

Lemma rnd_le a b : a <= b -> rnd a <= rnd b.
Proof. apply round_le; auto with typeclass_instances. Qed.

Lemma rnd_id a : generic_format radix2 fx a -> rnd a = a.
Proof. apply round_generic; auto with typeclass_instances. Qed.

Lemma pow2_format e : (-1074 <= e)%Z -> generic_format radix2 fx (bpow radix2 e).
Proof. intros H. apply generic_format_FLT_bpow; auto with typeclass_instances. Qed.

Lemma rnd_bounds a e : (-1074 <= e)%Z -> 0 <= a <= bpow radix2 e -> 0 <= rnd a <= bpow radix2 e.
Proof.
  intros He [H1 H2]. split.
  - rewrite <- (rnd_id 0); [now apply rnd_le|apply generic_format_0].
  - rewrite <- (rnd_id (bpow radix2 e)); [now apply rnd_le|now apply pow2_format].
Qed.

Lemma small_lt a e : (e < 1024)%Z -> -bpow radix2 e <= a <= bpow radix2 e ->
  Rlt_bool (Rabs a) (bpow radix2 1024) = true.
Proof.
  intros He H. apply Rlt_bool_true. apply Rle_lt_trans with (bpow radix2 e); [|now apply bpow_lt].
  apply Rabs_le. lra.
Qed.

Lemma is_b_add x y u v : is_b x u -> is_b y v -> 0 <= u + v <= bpow radix2 1000 ->
  is_b (b64_add x y) (rnd (u + v)).
Proof.
  intros (b & <- & Fb & Vb) (c & <- & Fc & Vc) H.
  pose proof (Bplus_correct 53 1024 _ _ mode_NE b c Fb Fc) as P. rewrite Vb, Vc in P.
  change (SpecFloat.fexp 53 1024) with fx in P. simpl round_mode in P.
  pose proof (rnd_bounds (u + v) 1000 ltac:(lia) H) as B. 
  rewrite (small_lt _ 1000) in P; [|lia|pose proof (bpow_gt_0 radix2 1000); lra].
  destruct P as (P1 & P2 & _). exists (Bplus mode_NE b c). rewrite add_eq. auto.
Qed.

Lemma is_b_sub x y u v : is_b x u -> is_b y v -> 0 <= u <= bpow radix2 1000 -> 0 <= v <= bpow radix2 1000 ->
  is_b (b64_sub x y) (rnd (u - v)).
Proof.
  intros (b & <- & Fb & Vb) (c & <- & Fc & Vc) H1 H2.
  pose proof (Bminus_correct 53 1024 _ _ mode_NE b c Fb Fc) as P. rewrite Vb, Vc in P.
  change (SpecFloat.fexp 53 1024) with fx in P. simpl round_mode in P.
  assert (- bpow radix2 1000 <= rnd (u - v) <= bpow radix2 1000) as B.
  { split.
    - rewrite <- (rnd_id (- bpow radix2 1000)); [apply rnd_le; lra|].
      apply generic_format_opp. apply pow2_format. lia.
    - rewrite <- (rnd_id (bpow radix2 1000)); [apply rnd_le; lra|apply pow2_format; lia]. }
  rewrite (small_lt _ 1000) in P; [|lia|auto].
  destruct P as (P1 & P2 & _). exists (Bminus mode_NE b c). rewrite sub_eq. auto.
Qed.

Lemma is_b_mul x y u v : is_b x u -> is_b y v -> 0 <= u * v <= bpow radix2 1000 ->
  is_b (b64_mul x y) (rnd (u * v)).
Proof.
  intros (b & <- & Fb & Vb) (c & <- & Fc & Vc) H.
  pose proof (Bmult_correct 53 1024 _ _ mode_NE b c) as P. rewrite Vb, Vc in P.
  change (SpecFloat.fexp 53 1024) with fx in P. simpl round_mode in P.
  pose proof (rnd_bounds (u * v) 1000 ltac:(lia) H) as B.
  rewrite (small_lt _ 1000) in P; [|lia|pose proof (bpow_gt_0 radix2 1000); lra].
  destruct P as (P1 & P2 & _). exists (Bmult mode_NE b c). rewrite mul_eq, P2, Fb, Fc. auto.
Qed.

Lemma is_b_div x y u v : is_b x u -> is_b y v -> v <> 0 -> 0 <= u / v <= bpow radix2 1000 ->
  is_b (b64_div x y) (rnd (u / v)).
Proof.
  intros (b & <- & Fb & Vb) (c & <- & Fc & Vc) N H.
  pose proof (Bdiv_correct 53 1024 _ _ mode_NE b c) as P. rewrite Vb, Vc in P. specialize (P N).
  change (SpecFloat.fexp 53 1024) with fx in P. simpl round_mode in P.
  pose proof (rnd_bounds (u / v) 1000 ltac:(lia) H) as B.
  rewrite (small_lt _ 1000) in P; [|lia|pose proof (bpow_gt_0 radix2 1000); lra].
  destruct P as (P1 & P2 & _). exists (Bdiv mode_NE b c). rewrite div_eq, P2, Fb. auto.
Qed.

(** ** The thresholds *)

Lemma is_b_finite s m e (H : SpecFloat.bounded 53 1024 m e = true) :
  is_b (SpecFloat.S754_finite s m e) (F2R (Float radix2 (cond_Zopp s (Zpos m)) e)).
Proof. exists (B754_finite s m e H). auto. Qed.

Lemma ten_b : is_b (b64_of_Z 10) 10.
Proof.
  replace 10 with (F2R (Float radix2 (cond_Zopp false 5629499534213120) (-49))).
  - vm_compute b64_of_Z. apply is_b_finite. reflexivity.
  - unfold F2R. simpl. lra.
Qed.

Lemma two_b : is_b (b64_of_Z 2) 2.
Proof.
  replace 2 with (F2R (Float radix2 (cond_Zopp false 4503599627370496) (-51))).
  - vm_compute b64_of_Z. apply is_b_finite. reflexivity.
  - unfold F2R. simpl. lra.
Qed.

Lemma start_b : exists v, is_b (A_start floatA) v /\ 0 <= v <= bpow radix2 (-6).
Proof.
  eexists. split.
  - unfold floatA, A_start. vm_compute b64_of_frac. apply is_b_finite. reflexivity.
  - unfold F2R. simpl. lra.
Qed.

Lemma sd_b j : exists v, is_b (sd floatA j) v /\ 0 <= v <= bpow radix2 (-6).
Proof.
  induction j as [|j (v & B & V)]; [apply start_b|].
  assert (0 <= v / 10 <= bpow radix2 (-6)) as H by lra.
  exists (rnd (v / 10)). split; [|apply rnd_bounds; [lia|auto]].
  unfold sd. simpl Nat.iter. fold (sd floatA j). apply is_b_div with (1 := B) (2 := ten_b); [lra|].
  split; [lra|]. apply Rle_trans with (bpow radix2 (-6)); [lra|apply bpow_le; lia].
Qed.

Lemma big_stays u : u <= bpow radix2 60 + bpow radix2 (-6) -> rnd u <= bpow radix2 60.
Proof.
  intros H. apply round_N_le_midp; auto with typeclass_instances.
  - apply pow2_format. lia.
  - rewrite succ_eq_pos by apply bpow_ge_0. rewrite ulp_bpow. simpl. simpl in H. lra.
Qed.

Lemma add_step x y u v : is_b x u -> is_b y v -> 0 <= u <= bpow radix2 60 -> 0 <= v <= bpow radix2 (-6) ->
  is_b (b64_add x y) (rnd (u + v)) /\ u <= rnd (u + v) <= bpow radix2 60 /\ v <= rnd (u + v).
Proof.
  intros B C U V. split; [|split; [split|]].
  - apply is_b_add; auto. split; [lra|].
    apply Rle_trans with (bpow radix2 61); [simpl in *; lra|apply bpow_le; lia].
  - rewrite <- (rnd_id u) at 1; [apply rnd_le; lra|eapply is_b_format; eauto].
  - apply big_stays. lra.
  - rewrite <- (rnd_id v) at 1; [apply rnd_le; lra|eapply is_b_format; eauto].
Qed.

Lemma climb_b j k : exists v, is_b (climb_at floatA j k) v /\ 0 <= v <= bpow radix2 60.
Proof.
  destruct (sd_b j) as (i & Bi & Vi). induction k as [|k (u & B & V)].
  - exists i. split; auto. split; [lra|]. apply Rle_trans with (bpow radix2 (-6)); [lra|apply bpow_le; lia].
  - destruct (add_step _ _ _ _ B Bi V Vi) as (B' & V' & _). exists (rnd (u + i)). split; [exact B'|lra].
Qed.

Lemma float_up j k : (b64_val (climb_at floatA j k) <= b64_val (climb_at floatA j (S k)))%Q.
Proof.
  destruct (sd_b j) as (i & Bi & Vi). destruct (climb_b j k) as (u & B & V).
  destruct (add_step _ _ _ _ B Bi V Vi) as (B' & V' & _). apply Rle_Qle.
  rewrite (is_b_val _ _ B). change (climb_at floatA j (S k)) with (b64_add (climb_at floatA j k) (sd floatA j)).
  rewrite (is_b_val _ _ B'). lra.
Qed.

Lemma double_format v : generic_format radix2 fx v -> generic_format radix2 fx (2 * v).
Proof.
  intros F. apply FLT_format_generic in F; auto with typeclass_instances.
  destruct F as [[m e] F1 F2 F3]. apply generic_format_FLT.
  exists (Float radix2 m (e + 1)); simpl in *; try lia.
  rewrite F1. unfold F2R. simpl. rewrite bpow_plus. simpl. lra.
Qed.

Definition ulp53 : R := bpow radix2 (-53).

Lemma uro : u_ro radix2 53 = ulp53.
Proof. unfold u_ro, ulp53. simpl. lra. Qed.

Lemma plus_err a b : generic_format radix2 fx a -> generic_format radix2 fx b ->
  Rabs (rnd (a + b) - (a + b)) <= ulp53 * Rabs (rnd (a + b)) /\
  Rabs (rnd (a + b) - (a + b)) <= ulp53 * Rabs (a + b).
Proof.
  intros A B. split.
  - destruct (FLT_plus_error_N_round_ex radix2 (-1074) 53 (fun x => negb (Z.even x)) a b A B) as (e & E1 & E2).
    rewrite uro in E1. set (r := rnd (a + b)) in *. fold r in E2. rewrite E2 at 1.
    replace (r - r * (1 + e)) with (- (e * r)) by ring. rewrite Rabs_Ropp, Rabs_mult.
    apply Rmult_le_compat_r; [apply Rabs_pos|auto].
  - destruct (FLT_plus_error_N_ex radix2 (-1074) 53 (fun x => negb (Z.even x)) a b A B) as (e & E1 & E2).
    pose proof (u_rod1pu_ro_le_u_ro radix2 53) as U. rewrite uro in *.
    rewrite E2. replace ((a + b) * (1 + e) - (a + b)) with (e * (a + b)) by ring. rewrite Rabs_mult.
    apply Rmult_le_compat_r; [apply Rabs_pos|lra].
Qed.

(** How far the step back misses the threshold two increments below. *)
Lemma back_b j k : exists d a c,
  is_b (A_back floatA (climb_at floatA j (S (S k))) (sd floatA j)) d /\
  is_b (climb_at floatA j k) a /\ is_b (climb_at floatA j (S (S k))) c /\ 0 <= c /\
  - (3 * ulp53 * c) <= d - a <= 3 * ulp53 * c.
Proof.
  destruct (sd_b j) as (i & Bi & Vi). destruct (climb_b j k) as (a & Ba & Va).
  destruct (add_step _ _ _ _ Ba Bi Va Vi) as (Bb & Vb & Ib). set (b := rnd (a + i)) in *.
  assert (0 <= b <= bpow radix2 60) as Vb' by lra.
  destruct (add_step _ _ _ _ Bb Bi Vb' Vi) as (Bc & Vc & Ic). set (c := rnd (b + i)) in *.
  change (b64_add (b64_add (climb_at floatA j k) (sd floatA j)) (sd floatA j))
    with (climb_at floatA j (S (S k))) in Bc.
  assert (bpow radix2 60 <= bpow radix2 1000) as P1 by (apply bpow_le; lia).
  assert (2 * i <= bpow radix2 1000) as P2.
  { apply Rle_trans with (2 * bpow radix2 (-6)); [lra|]. apply Rle_trans with (bpow radix2 60); [simpl; lra|auto]. }
  pose proof (is_b_mul _ _ _ _ two_b Bi ltac:(lra)) as Bm.
  rewrite (rnd_id (2 * i)) in Bm by (apply double_format; eapply is_b_format; eauto).
  pose proof (is_b_sub _ _ _ _ Bc Bm ltac:(lra) ltac:(lra)) as Bd.
  exists (rnd (c - 2 * i)), a, c. split; [exact Bd|]. split; auto. split; auto. split; [lra|].
  destruct (plus_err a i) as [E1 _]; try (eapply is_b_format; eauto).
  destruct (plus_err b i) as [E2 _]; try (eapply is_b_format; eauto).
  destruct (plus_err c (- (2 * i))) as [_ E3].
  { eapply is_b_format; eauto. }
  { apply generic_format_opp. apply double_format. eapply is_b_format; eauto. }
  fold b in E1. fold c in E2. change (c + - (2 * i)) with (c - 2 * i) in E3.
  set (d := rnd (c - 2 * i)) in *.
  assert (0 < ulp53) as U by apply bpow_gt_0.
  rewrite (Rabs_pos_eq b) in E1 by lra. rewrite (Rabs_pos_eq c) in E2 by lra.
  assert (Rabs (c - 2 * i) <= c) as Ab by (apply Rabs_le; lra).
  assert (ulp53 * b <= ulp53 * c) as X1 by (apply Rmult_le_compat_l; lra).
  assert (ulp53 * Rabs (c - 2 * i) <= ulp53 * c) as X2 by (apply Rmult_le_compat_l; lra).
  apply Rabs_le_inv in E1. apply Rabs_le_inv in E2. apply Rabs_le_inv in E3.
  split; lra.
Qed.

Lemma float_back j k : let eps := (3 * ((2 # 1) ^ (-53)) * b64_val (climb_at floatA j (S (S k))))%Q in
  let d := b64_val (A_back floatA (climb_at floatA j (S (S k))) (sd floatA j)) in
  (b64_val (climb_at floatA j k) - eps <= d <= b64_val (climb_at floatA j k) + eps)%Q.
Proof.
  cbv zeta. destruct (back_b j k) as (d & a & c & Bd & Ba & Bc & _ & H).
  assert (Q2R (3 * (2 # 1) ^ (-53) * b64_val (climb_at floatA j (S (S k)))) = 3 * ulp53 * c) as E.
  { rewrite !Q2R_mult, (is_b_val _ _ Bc), Q2R_pow2. unfold ulp53. f_equal. f_equal. unfold Q2R. simpl. lra. }
  split; apply Rle_Qle; rewrite ?Q2R_minus, ?Q2R_plus, E, (is_b_val _ _ Bd), (is_b_val _ _ Ba); lra.
Qed.

(** ** Thresholds get high *)

Lemma inc_large j : (j < 5)%nat -> ((2 # 1) ^ (-20) <= b64_val (sd floatA j))%Q.
Proof.
  intros H. do 5 (destruct j as [|j]; [apply Qle_bool_iff; vm_compute; reflexivity|]). lia.
Qed.

Lemma climb_grows j k : (j < 5)%nat -> exists v, is_b (climb_at floatA j k) v /\
  (bpow radix2 30 <= v \/ INR k * bpow radix2 (-21) <= v).
Proof.
  intros Hj. destruct (sd_b j) as (i & Bi & Vi).
  assert (bpow radix2 (-20) <= i) as Li.
  { pose proof (inc_large j Hj) as L. apply Qle_Rle in L. now rewrite Q2R_pow2, (is_b_val _ _ Bi) in L. }
  induction k as [|k (u & B & V)].
  - destruct (climb_b j 0) as (v & Bv & Vv). exists v. split; auto. right. simpl INR. lra.
  - assert (0 <= u <= bpow radix2 60) as U.
    { destruct (climb_b j k) as (u' & B' & V'). rewrite <- (is_b_val _ _ B), (is_b_val _ _ B'). auto. }
    destruct (add_step _ _ _ _ B Bi U Vi) as (B' & V' & I'). exists (rnd (u + i)). split; [exact B'|].
    destruct (plus_err u i) as [_ E]; try (eapply is_b_format; eauto).
    destruct (Rle_or_lt (bpow radix2 30) u) as [G|G]; [left; lra|]. right.
    destruct V as [V|V]; [lra|]. rewrite S_INR.
    rewrite (Rabs_pos_eq (u + i)) in E by lra. apply Rabs_le_inv in E.
    assert (ulp53 * (u + i) <= ulp53 * bpow radix2 31) as X.
    { apply Rmult_le_compat_l; [apply bpow_ge_0|]. simpl in *. lra. }
    unfold ulp53 in *. rewrite <- bpow_plus in X. simpl in *. lra.
Qed.

Lemma float_high j T : (j < 5)%nat -> (T <= (2 # 1) ^ 30)%Q ->
  exists k, (T <= b64_val (climb_at floatA j k))%Q.
Proof.
  intros Hj HT. set (r := (bpow radix2 30 * bpow radix2 21)).
  assert (exists k, r <= INR k) as [k Hk].
  { exists (Z.to_nat (up r)). destruct (archimed r) as [A _].
    assert (0 <= r) as R0 by (apply Rmult_le_pos; apply bpow_ge_0).
    assert (0 <= up r)%Z as U by (apply le_IZR; simpl; lra).
    rewrite INR_IZR_INZ, Z2Nat.id; auto. lra. }
  destruct (climb_grows j k Hj) as (v & B & V). exists k. eapply Qle_trans; [exact HT|].
  apply Rle_Qle. rewrite (is_b_val _ _ B), Q2R_pow2. destruct V as [V|V]; auto.
  apply Rle_trans with (r * bpow radix2 (-21)).
  - unfold r. rewrite Rmult_assoc, <- bpow_plus. simpl. lra.
  - apply Rle_trans with (INR k * bpow radix2 (-21)); auto. apply Rmult_le_compat_r; auto. apply bpow_ge_0.
Qed.

(** The same relative to the threshold itself. *)
Lemma back_rel j k : (
  let a := b64_val (climb_at floatA j k) in
  let d := b64_val (A_back floatA (climb_at floatA j (S (S k))) (sd floatA j)) in
  a - (2 # 1) ^ (-49) * a <= d <= a + (2 # 1) ^ (-49) * a)%Q.
Proof.
  cbv zeta. destruct (back_b j k) as (d & a & c & Bd & Ba & Bc & C0 & H).
  assert (c <= 4 * a) as Hc.
  { destruct (sd_b j) as (i & Bi & Vi). destruct (climb_b j k) as (a' & Ba' & Va').
    assert (a' = a) as -> by (rewrite <- (is_b_val _ _ Ba), (is_b_val _ _ Ba'); auto).
    assert (i <= a) as Ia.
    { destruct k as [|k].
      - change (climb_at floatA j 0) with (sd floatA j) in Ba.
        rewrite <- (is_b_val _ _ Ba), (is_b_val _ _ Bi). lra.
      - destruct (climb_b j k) as (z & Bz & Vz). destruct (add_step _ _ _ _ Bz Bi Vz Vi) as (Bz' & _ & Iz).
        change (b64_add (climb_at floatA j k) (sd floatA j)) with (climb_at floatA j (S k)) in Bz'.
        rewrite <- (is_b_val _ _ Bz'), (is_b_val _ _ Ba) in Iz. lra. }
    destruct (add_step _ _ _ _ Ba Bi Va' Vi) as (Bb & Vb & Ib). set (b := rnd (a + i)) in *.
    assert (0 <= b <= bpow radix2 60) as Vb' by lra.
    destruct (add_step _ _ _ _ Bb Bi Vb' Vi) as (Bc' & Vc & Ic).
    change (b64_add (b64_add (climb_at floatA j k) (sd floatA j)) (sd floatA j))
      with (climb_at floatA j (S (S k))) in Bc'.
    assert (rnd (b + i) = c) as Ec by (rewrite <- (is_b_val _ _ Bc'), (is_b_val _ _ Bc); auto).
    destruct (plus_err a i) as [_ E1]; try (eapply is_b_format; eauto).
    destruct (plus_err b i) as [_ E2]; try (eapply is_b_format; eauto).
    fold b in E1. rewrite Ec in E2. rewrite (Rabs_pos_eq (a + i)) in E1 by lra.
    rewrite (Rabs_pos_eq (b + i)) in E2 by lra. apply Rabs_le_inv in E1. apply Rabs_le_inv in E2.
    unfold ulp53 in *. simpl in *. lra. }
  assert (Q2R ((2 # 1) ^ (-49) * b64_val (climb_at floatA j k)) = 16 * ulp53 * a) as E.
  { rewrite !Q2R_mult, (is_b_val _ _ Ba), Q2R_pow2. unfold ulp53. simpl. lra. }
  assert (3 * ulp53 * c <= 12 * ulp53 * a) as X.
  { unfold ulp53. simpl. lra. }
  assert (0 <= ulp53 * a) as Y by (apply Rmult_le_pos; [apply bpow_ge_0|lra]).
  split; apply Rle_Qle; rewrite ?Q2R_minus, ?Q2R_plus, E, (is_b_val _ _ Bd), (is_b_val _ _ Ba); lra.
Qed.
