(** Simulations with doubles. *)
From Coq Require Import String List ZArith QArith Qabs Qreals Reals Bool Arith Lia Lra Psatz.
From Flocq Require Import Core.
From Verif.Base Require Import Py Num XNum B64.
From Verif.Model Require Import Mech World Metrics Drivers Simulation Sampling SaveText FloatDrivers FloatMatrix FloatSampling FloatSimulation.
From Verif.Spec Require Import SimSpec DriverSpec FloatMatrixSpec FloatSamplingSpec FloatSimulationSpec.
From Verif.Proofs Require Import PyFacts SimFacts SimMore FloatFacts FloatArith FloatSums FloatMatrixFacts FloatSamplingFacts SaveNumFacts.
Import ListNotations.
Local Open Scope R_scope.
Local Existing Instance prec53.
Local Existing Instance emax1024.
Local Notation u := ulp53.

(** ** Doubles that stand for themselves *)

Definition is_val (q : Q) (x : b64) : Prop := fin x /\ Q2R q = rv x /\ Rabs (rv x) <= big.

Lemma near_of q x : is_val q x -> fin (nearest q) /\ rv (nearest q) = rv x.
Proof.
  intros (F & V & B). destruct (of_Q_nearest false q) as [Fz Rz].
  - apply Rle_Qle. rewrite Q2R_abs, Q2R_pow2, V. exact B.
  - split; [exact Fz|]. unfold nearest. rewrite Rz, V. apply rnd_id. now apply fin_format.
Qed.

Lemma plus_val p q x y : is_val p x -> is_val q y -> Rabs (rv x + rv y) <= big ->
  Q2R (c_plus (calc := double_calc) p q) = rv (b64_add x y).
Proof.
  intros P Q B. destruct (near_of p x P) as [F1 V1]. destruct (near_of q y Q) as [F2 V2]. destruct P as [FP _], Q as [FQ _].
  cbn [c_plus double_calc]. fold (rv (b64_add (nearest p) (nearest q))).
  destruct (fin_add (nearest p) (nearest q) F1 F2) as [_ E1]; [now rewrite V1, V2|].
  destruct (fin_add x y FP FQ B) as [_ E2]. now rewrite E1, E2, V1, V2.
Qed.
Lemma minus_val p q x y : is_val p x -> is_val q y -> Rabs (rv x - rv y) <= big ->
  Q2R (c_minus (calc := double_calc) p q) = rv (b64_sub x y).
Proof.
  intros P Q B. destruct (near_of p x P) as [F1 V1]. destruct (near_of q y Q) as [F2 V2]. destruct P as [FP _], Q as [FQ _].
  cbn [c_minus double_calc]. fold (rv (b64_sub (nearest p) (nearest q))).
  destruct (fin_sub (nearest p) (nearest q) F1 F2) as [_ E1]; [now rewrite V1, V2|].
  destruct (fin_sub x y FP FQ B) as [_ E2]. now rewrite E1, E2, V1, V2.
Qed.
Lemma times_val p q x y : is_val p x -> is_val q y -> Rabs (rv x * rv y) <= big ->
  Q2R (c_times (calc := double_calc) p q) = rv (b64_mul x y).
Proof.
  intros P Q B. destruct (near_of p x P) as [F1 V1]. destruct (near_of q y Q) as [F2 V2]. destruct P as [FP _], Q as [FQ _].
  cbn [c_times double_calc]. fold (rv (b64_mul (nearest p) (nearest q))).
  destruct (fin_mul (nearest p) (nearest q) F1 F2) as [_ E1]; [now rewrite V1, V2|].
  destruct (fin_mul x y FP FQ B) as [_ E2]. now rewrite E1, E2, V1, V2.
Qed.

Lemma Q2R_400 : Q2R 400 = 400. Proof. unfold Q2R. simpl. lra. Qed.
Lemma Q2R_1 : Q2R 1 = 1. Proof. unfold Q2R. simpl. lra. Qed.

Lemma range_R T : (1 <= T <= 1048576)%Q -> 1 <= Q2R T <= 1048576.
Proof.
  intros (A & B). apply Qle_Rle in A. apply Qle_Rle in B. rewrite Q2R_1 in A.
  replace (Q2R 1048576) with 1048576 in B by (unfold Q2R; simpl; lra). lra.
Qed.

Lemma big_abs x : - 100000000 <= x <= 100000000 -> Rabs x <= big.
Proof. intros H. apply bpow_big. split; [apply Rabs_pos|apply Rabs_le; lra]. Qed.

Lemma temp_val T : double_temperature T -> exists x, is_val T x /\ 1 <= rv x <= 1048576.
Proof.
  intros ((x & F & E) & H). apply range_R in H. assert (rv x = Q2R T) as V by (apply Qeq_eqR, E).
  exists x. split; [|lra]. split; [exact F|]. split; [now symmetry|]. rewrite V. apply big_abs. lra.
Qed.

(** ** 400 K more *)

Lemma val_400 : is_val 400 (b64_of_Z 400).
Proof.
  assert (b64_val (b64_of_Z 400) == 400)%Q as E by (vm_compute; reflexivity).
  apply Qeq_eqR in E. fold (rv (b64_of_Z 400)) in E. split; [vm_compute; reflexivity|]. split; [now symmetry|].
  rewrite E, Q2R_400. apply big_abs. lra.
Qed.

Lemma plus_400 T : double_temperature T -> generic_format radix2 fx (Q2R T) /\ 1 <= Q2R T <= 1048576 /\
  Q2R (c_plus (calc := double_calc) T 400) = rnd (Q2R T + 400).
Proof.
  intros D. destruct (temp_val T D) as (x & V & H). pose proof val_400 as W.
  assert (rv (b64_of_Z 400) = 400) as E by (destruct W as (_ & <- & _); apply Q2R_400).
  assert (Rabs (rv x + rv (b64_of_Z 400)) <= big) as B by (rewrite E; apply big_abs; lra).
  rewrite (plus_val _ _ _ _ V W B). destruct V as (F & V & _). destruct W as (F2 & _).
  destruct (fin_add _ _ F F2 B) as [_ ->]. rewrite V, E. repeat split; auto; try lra. now apply fin_format.
Qed.

Lemma format_400 : generic_format radix2 fx 400.
Proof. replace 400 with (IZR 400 * bpow radix2 0) by (simpl; lra). apply multiple_format; lia. Qed.

Lemma near_400 T : double_temperature T ->
  Rabs (Q2R (c_plus (calc := double_calc) T 400) - (Q2R T + 400)) <= u * (Q2R T + 400).
Proof.
  intros D. destruct (plus_400 T D) as (F & H & ->). destruct (plus_err (Q2R T) 400 F format_400) as [_ E].
  rewrite (Rabs_pos_eq (Q2R T + 400)) in E by lra. exact E.
Qed.

Lemma above_400 T : double_temperature T -> (T < c_plus (calc := double_calc) T 400)%Q.
Proof.
  intros D. apply Rlt_Qlt. pose proof (near_400 T D) as N. destruct (plus_400 T D) as (_ & H & _).
  pose proof u_small. pose proof u_pos. apply Rabs_2 in N. assert (u * (Q2R T + 400) <= / 1000000000000000 * 2000000) by (apply Rmult_le_compat; lra). lra.
Qed.

Lemma coarse_400 T : double_temperature T -> coarse T -> (c_plus (calc := double_calc) T 400 == T + 400)%Q.
Proof.
  intros D (z & E). destruct (plus_400 T D) as (_ & H & V). apply eqR_Qeq. rewrite V, Q2R_plus, Q2R_400.
  apply rnd_id. apply Qeq_eqR in E. rewrite Q2R_mult, Q2R_pow2 in E.
  assert (Q2R (inject_Z z) = IZR z) as Z by (unfold Q2R; simpl; lra). rewrite Z in E.
  assert (Q2R T + 400 = IZR (z + 400 * 2 ^ 32) * bpow radix2 (-32)) as S.
  { rewrite E, plus_IZR. simpl. lra. }
  rewrite S. apply multiple_format; [|lia].
  assert (IZR z = Q2R T * bpow radix2 32) as Z2.
  { rewrite E, Rmult_assoc, <- bpow_plus. simpl. lra. }
  assert (bpow radix2 32 = 4294967296) as B by (simpl; lra). rewrite B in Z2.
  split; apply le_IZR; rewrite plus_IZR, Z2; simpl; lra.
Qed.

Lemma starts_double R T0 : double_temperature T0 -> (p_T (ra_init R) == T0)%Q -> starts_at (A := double_calc) R T0.
Proof.
  intros D E. assert (double_temperature (p_T (ra_init R))) as D2.
  { destruct D as ((x & F & V) & H). split; [exists x; split; [exact F|now rewrite E]|now rewrite E]. }
  split.
  - apply eqR_Qeq. destruct (plus_400 _ D) as (_ & _ & ->). destruct (plus_400 _ D2) as (_ & _ & ->).
    now rewrite (Qeq_eqR _ _ E).
  - rewrite E. apply above_400, D.
Qed.

(** ** Delays *)

Lemma hot_same T0 T : double_temperature T0 -> coarse T0 -> hot (A := double_calc) T0 T = hot (A := exact_calc) T0 T.
Proof.
  intros D C. pose proof (coarse_400 T0 D C) as E. unfold hot. apply eq_true_iff_eq. rewrite !Qle_bool_iff, E. reflexivity.
Qed.

Lemma calc_steps_same todo R T0 : (forall T, hot (A := double_calc) T0 T = hot (A := exact_calc) T0 T) ->
  forall n, calc_steps (A := double_calc) todo R T0 n = calc_steps (A := exact_calc) todo R T0 n.
Proof.
  intros H. induction todo as [|t IH]; intros n; cbn [calc_steps]; [reflexivity|].
  destruct (ra_step R _); [|reflexivity]. rewrite H. destruct (hot T0 _); [reflexivity|apply IH].
Qed.

Lemma calculate_same fuel R c : double_temperature (ig_T c) -> coarse (ig_T c) ->
  calculate (A := double_calc) fuel R c = calculate (A := exact_calc) fuel R c.
Proof.
  intros D C. assert (H := fun T => hot_same (ig_T c) T D C). unfold calculate.
  destruct (Qnz (ig_end c)).
  - generalize 0%nat (p_time (ra_init R)). induction fuel as [|fuel IH]; intros n t; cbn [calc_to_time]; [reflexivity|].
    destruct (_ : bool); try reflexivity. destruct (ra_step R _); [|reflexivity]. rewrite H. destruct (hot _ _); [reflexivity|apply IH].
  - destruct (_ <? _)%Z; [reflexivity|]. f_equal. now apply calc_steps_same.
Qed.

Lemma conditions_same fuel Ph floor : ph_calc Ph = exact_calc ->
  (forall c m, double_temperature (ig_T c) -> coarse (ig_T c) ->
     ign_cond fuel (with_doubles Ph) c m = ign_cond fuel Ph c m) /\
  (forall c m, psr_cond (with_doubles Ph) c m = psr_cond Ph c m) /\
  (forall c m, flame_cond (with_doubles Ph) floor c m = flame_cond Ph floor c m).
Proof.
  intros E. split; [|split; reflexivity]. intros c m D C. unfold ign_cond. rewrite E.
  cbn [with_doubles ph_calc ph_reactor]. now rewrite (calculate_same fuel _ c D C).
Qed.

Lemma ignites_near R T0 k d : double_temperature T0 -> ignites (A := double_calc) R T0 k d ->
  (1 <= k)%nat /\
  (exists p, ra_step R k = Some p /\ p_time p = d /\ ((T0 + 400) * (1 - (2 # 1) ^ (-53)) <= p_T p)%Q) /\
  (forall j, (1 <= j < k)%nat -> exists p, ra_step R j = Some p /\ (p_T p < (T0 + 400) * (1 + (2 # 1) ^ (-53)))%Q).
Proof.
  intros D (K & (p & S & L & T) & F). pose proof (near_400 T0 D) as N. apply Rabs_2 in N.
  assert (Q2R ((2 # 1) ^ (-53)) = u) as U by (rewrite Q2R_pow2; reflexivity).
  split; [exact K|]. split.
  - exists p. repeat split; auto. apply Rle_Qle. apply Qle_Rle in L.
    rewrite Q2R_mult, Q2R_minus, Q2R_plus, U, Q2R_400, Q2R_1. lra.
  - intros j J. destruct (F j J) as (q & SQ & LQ). exists q. split; [exact SQ|]. apply Rlt_Qlt. apply Qlt_Rlt in LQ.
    rewrite Q2R_mult, !Q2R_plus, U, Q2R_400, Q2R_1. lra.
Qed.

Lemma delay_near fuel Ph c m d :
  ph_calc Ph = double_calc -> double_temperature (ig_T c) -> ign_cond fuel Ph c m = Ok [Fin d] ->
  let R := ph_reactor Ph c m in
  d = 0%Q \/
  exists k p, (1 <= k)%nat /\ in_reach R c k /\ ra_step R k = Some p /\ p_time p = d /\
    ((ig_T c + 400) * (1 - (2 # 1) ^ (-53)) <= p_T p)%Q /\
    forall j, (1 <= j < k)%nat ->
      exists q, ra_step R j = Some q /\ (p_T q < (ig_T c + 400) * (1 + (2 # 1) ^ (-53)))%Q.
Proof.
  intros E D H R. unfold ign_cond in H. rewrite E in H. fold R in H. destruct (setup_gas _ m); try discriminate. cbn [bind] in H.
  destruct (calculate (A := double_calc) fuel R c) as [x| |] eqn:CE; try discriminate. cbn [bind] in H.
  assert (x = d) as -> by congruence. clear H.
  assert (Qnz (ig_end c) = true \/ (0 <= max_steps c)%Z) as OK.
  { destruct (Qnz (ig_end c)) eqn:Z; [auto|]. right. destruct (Z.le_gt_cases 0 (max_steps c)); [auto|].
    unfold calculate in CE. rewrite Z in CE. destruct (Z.ltb_spec (max_steps c) 0); [discriminate|lia]. }
  destruct (calculate_found (CA := double_calc) fuel R c OK) as [X|[X|(d' & (k & I & IR) & X)]]; rewrite X in CE.
  - discriminate.
  - left. congruence.
  - right. assert (d' = d) as -> by congruence. destruct (ignites_near R (ig_T c) k d D I) as (K & (p & S & T & L) & F).
    exists k, p. repeat split; auto.
Qed.

Lemma metrics_exact fuel Ph floor C m :
  ph_calc Ph = exact_calc -> (forall c, In c (ca_ign C) -> double_temperature (ig_T c) /\ coarse (ig_T c)) ->
  metrics_of (conds_of fuel (with_doubles Ph) floor C) m = metrics_of (conds_of fuel Ph floor C) m.
Proof.
  intros E H. destruct (conditions_same fuel Ph floor E) as (A1 & A2 & A3). unfold metrics_of, conds_of. cbn [c_ign c_psr c_flame].
  rewrite !SimMore.mapM_app, !SimMore.mapM_map.
  rewrite (PyFacts.mapM_ext (fun c => ign_cond fuel (with_doubles Ph) c m) (fun c => ign_cond fuel Ph c m)); [reflexivity|].
  intros c I. apply A1; apply H, I.
Qed.

(** ** Samples *)

Definition test (a b : Q) (k : nat) (p : point) : bool :=
  Qle_bool (c_plus (calc := double_calc) a (c_times (calc := double_calc) (c_share (calc := double_calc) k)
              (c_minus (calc := double_calc) b a))) (p_T p).

Lemma loop_test a b : forall ps k,
  sample_loop (A := double_calc) a (c_minus (calc := double_calc) b a) k ps = gl (test a b) row_of 20 k ps.
Proof.
  induction ps as [|p ps IH]; intros k; [reflexivity|]. cbn [sample_loop gl]. change num_sample_points with 20%nat.
  destruct (Nat.leb 20 k); [reflexivity|]. fold (test a b k p). now rewrite !IH.
Qed.

Lemma test_near a b k p : double_temperature a -> double_temperature b -> (k < 20)%nat ->
  let e := ((2 # 1) ^ (-50) * (a + b))%Q in
  (test a b k p = true -> (share a b k - e <= p_T p)%Q) /\ (test a b k p = false -> (p_T p < share a b k + e)%Q).
Proof.
  intros DA DB K e. destruct (temp_val a DA) as (x & VA & HA). destruct (temp_val b DB) as (y & VB & HB).
  assert (Rabs (rv y - rv x) <= big) as B1 by (apply big_abs; lra).
  pose proof (minus_val _ _ _ _ VB VA B1) as E1. assert (H := VA). destruct H as (FA & RA & _). assert (H := VB). destruct H as (FB & RB & _).
  destruct (fin_sub y x FB FA B1) as [FD VD].
  assert (Rabs (rv (b64_sub y x)) <= bpow radix2 30) as SD.
  { rewrite VD. apply rnd_abs_bound; [lia|]. apply Rabs_le. simpl. lra. }
  assert (bpow radix2 30 = 1073741824) as P30 by (simpl; lra). assert (bpow radix2 31 = 2147483648) as P31 by (simpl; lra).
  assert (bpow radix2 30 <= big) as B30 by (apply bpow_le; lia).
  assert (is_val (c_minus (calc := double_calc) b a) (b64_sub y x)) as V1 by exact (conj FD (conj E1 (Rle_trans _ _ _ SD B30))).
  destruct (delta_facts k K) as (Fd & Hd & _).
  assert (is_val (c_share (calc := double_calc) k) (dlt k)) as V2.
  { split; [exact Fd|]. split; [reflexivity|apply big_abs; lra]. }
  assert (Rabs (rv (dlt k) * rv (b64_sub y x)) <= bpow radix2 30) as SP.
  { rewrite Rabs_mult. rewrite (Rabs_pos_eq (rv (dlt k))) by lra. rewrite <- (Rmult_1_l (bpow radix2 30)).
    apply Rmult_le_compat; try lra. apply Rabs_pos. }
  assert (Rabs (rv (dlt k) * rv (b64_sub y x)) <= big) as B2 by lra.
  pose proof (times_val _ _ _ _ V2 V1 B2) as E2. destruct (fin_mul _ _ Fd FD B2) as [FP VP].
  assert (Rabs (rv (b64_mul (dlt k) (b64_sub y x))) <= bpow radix2 30) as SP2.
  { rewrite VP. apply rnd_abs_bound; [lia|exact SP]. }
  assert (is_val (c_times (calc := double_calc) (c_share (calc := double_calc) k) (c_minus (calc := double_calc) b a))
            (b64_mul (dlt k) (b64_sub y x))) as V3 by exact (conj FP (conj E2 (Rle_trans _ _ _ SP2 B30))).
  assert (Rabs (rv x + rv (b64_mul (dlt k) (b64_sub y x))) <= big) as B3.
  { apply Rle_trans with (bpow radix2 31); [|apply bpow_le; lia]. apply Rabs_2 in SP2. apply Rabs_le. rewrite P31. rewrite P30 in SP2. lra. }
  pose proof (plus_val _ _ _ _ VA V3 B3) as E3. change (b64_add x (b64_mul (dlt k) (b64_sub y x))) with (fth x y k) in E3.
  destruct (th_facts x y k FA FB HA HB K) as [_ T]. apply Rabs_2 in T. rewrite <- E3 in T.
  assert (Q2R (share a b k) = rv x + sh k * (rv y - rv x)) as SR.
  { unfold share. rewrite Q2R_plus, Q2R_mult, Q2R_minus, sh_Q, RA, RB. reflexivity. }
  assert (Q2R e = 8 * u * (rv x + rv y)) as ER.
  { unfold e. rewrite Q2R_mult, Q2R_plus, Q2R_pow2, RA, RB. f_equal. rewrite u_val. simpl. lra. }
  unfold test. split; intros H.
  - apply Qle_bool_iff, Qle_Rle in H. apply Rle_Qle. rewrite Q2R_minus, SR, ER. lra.
  - apply Rlt_Qlt. rewrite Q2R_plus, SR, ER.
    assert (~ (Q2R (c_plus (calc := double_calc) a (c_times (calc := double_calc) (c_share (calc := double_calc) k)
              (c_minus (calc := double_calc) b a))) <= Q2R (p_T p))) as N.
    { intros X. apply Rle_Qle, Qle_bool_iff in X. congruence. }
    lra.
Qed.

Lemma gchosen_near a b e (ps : list point) : (forall k p, (k < 20)%nat ->
    (test a b k p = true -> (share a b k - e <= p_T p)%Q) /\ (test a b k p = false -> (p_T p < share a b k + e)%Q)) ->
  forall is k from, (k + length is <= 20)%nat -> gchosen (test a b) ps k from is -> chosen_near a b e ps k from is.
Proof.
  intros H. induction is as [|i is IH]; intros k from L C; [exact I|]. simpl in L, C. destruct C as (C1 & (p & N & T) & C2 & C3).
  simpl. split; auto. split; [|split].
  - exists p. split; auto. apply H; [lia|auto].
  - intros j q J NQ. apply H; [lia|eauto].
  - apply IH; auto. lia.
Qed.

Lemma samples_near ps p0 rest rows : ps = p0 :: rest -> double_temperature (p_T p0) -> double_temperature (p_T (last ps p0)) ->
  sample_profile (A := double_calc) ps = Ok rows ->
  let a := p_T p0 in let b := p_T (last ps p0) in let e := ((2 # 1) ^ (-50) * (a + b))%Q in
  exists is, length rows = 20%nat /\ (length is <= 20)%nat /\ chosen_near a b e ps 0 0 is /\
    (forall k i, nth_error is k = Some i ->
       exists p, nth_error ps i = Some p /\ nth_error rows k = Some (p_T p :: p_P p :: p_Y p)) /\
    (forall k, (length is <= k < 20)%nat -> nth_error rows k = Some (repeat 0%Q (2 + length (p_Y p0)))) /\
    ((length is < 20)%nat -> forall j p, (behind is <= j)%nat -> nth_error ps j = Some p ->
       (p_T p < share a b (length is) + e)%Q).
Proof.
  intros E DA DB R a b e. assert (X := fun k p K => test_near a b k p DA DB K). fold e in X.
  destruct (gl_spec (test a b) row_of 20 ps ps 0 0 eq_refl) as (is & A1 & A2 & A3 & A4 & A5); [lia|].
  assert (rows = gl (test a b) row_of 20 0 ps ++ repeat (repeat 0%Q (2 + length (p_Y p0))) (20 - length (gl (test a b) row_of 20 0 ps)))%list as RE.
  { assert (sample_profile (A := double_calc) ps = Ok ((sample_loop (A := double_calc) a (c_minus (calc := double_calc) b a) 0 ps ++
       repeat (repeat 0%Q (2 + length (p_Y p0))) (20 - length (sample_loop (A := double_calc) a (c_minus (calc := double_calc) b a) 0 ps)))%list)) as R'.
    { unfold sample_profile, a, b. rewrite E. reflexivity. }
    rewrite R, !loop_test in R'. congruence. }
  exists is. simpl in A4. remember (gl (test a b) row_of 20 0 ps) as rs eqn:ERS. rewrite RE.
  split; [rewrite app_length, repeat_length; lia|]. split; [lia|].
  split; [apply gchosen_near; auto|]. split; [|split].
  - intros k i N. generalize (repeat (repeat 0%Q (2 + length (p_Y p0))) (20 - length rs)). intros tl.
    clear - A1 N. revert k N. induction A1 as [|i' r is rws (p & P1 & P2) A1 IH]; intros [|k] N; simpl in *; try discriminate.
    + injection N as <-. exists p. subst. auto.
    + apply IH. auto.
  - intros k K. rewrite nth_error_app2 by lia. apply nth_error_repeat. lia.
  - intros L j p J N. apply (X _ p L). apply (A5 L j p J N).
Qed.
