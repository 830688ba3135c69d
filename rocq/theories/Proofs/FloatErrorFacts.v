(** The error of metrics with doubles. *)
From Coq Require Import String List ZArith QArith Qabs Qreals Reals Bool Arith Lia Lra Psatz.
From Flocq Require Import Core Relative.
From Verif.Base Require Import Py Num B64.
From Verif.Model Require Import FloatDrivers FloatMatrix FloatSampling.
From Verif.Spec Require Import FloatMatrixSpec FloatSamplingSpec.
From Verif.Proofs Require Import FloatFacts FloatArith FloatSums.
Import ListNotations.
Local Open Scope R_scope.
Local Existing Instance prec53.
Local Existing Instance emax1024.
Local Notation u := ulp53.

Lemma rel_err x : x = 0 \/ bpow radix2 (-1022) <= Rabs x -> Rabs (rnd x - x) <= u * Rabs x.
Proof.
  intros [->|H].
  - rewrite round_0 by apply valid_rnd_N. rewrite Rminus_0_r, Rabs_R0. lra.
  - pose proof (relative_error_N_FLT radix2 (-1074) 53 ltac:(lia) (fun x => negb (Z.even x)) x H) as R.
    replace (/ 2 * bpow radix2 (- (53) + 1)) with u in R by (unfold ulp53; simpl; lra). exact R.
Qed.

Lemma metric_R x : metric x -> fin x /\ bpow radix2 (-400) <= rv x <= bpow radix2 400.
Proof.
  intros (F & H1 & H2). split; auto. apply Qle_Rle in H1. apply Qle_Rle in H2. rewrite Q2R_pow2 in H1, H2. split; assumption.
Qed.

(** Doubles from 2^-400 on are multiples of 2^-452. *)
Lemma grid x : generic_format radix2 fx x -> bpow radix2 (-400) <= x -> exists z, x = IZR z * bpow radix2 (-452).
Proof.
  intros G H. unfold generic_format, F2R in G. simpl in G.
  set (e := cexp radix2 fx x) in *. set (m := Ztrunc (scaled_mantissa radix2 fx x)) in *.
  assert (-452 <= e)%Z as He.
  { unfold e, cexp, FLT_exp. assert (-400 < mag radix2 x)%Z; [|lia].
    apply mag_gt_bpow. rewrite Rabs_pos_eq; auto. pose proof (bpow_ge_0 radix2 (-400)). lra. }
  exists (m * 2 ^ (e + 452))%Z. rewrite mult_IZR, (IZR_Zpower radix2) by lia. rewrite Rmult_assoc, <- bpow_plus.
  replace (e + 452 + -452)%Z with e by lia. exact G.
Qed.

Lemma apart x y : generic_format radix2 fx x -> generic_format radix2 fx y ->
  bpow radix2 (-400) <= x -> bpow radix2 (-400) <= y -> x - y = 0 \/ bpow radix2 (-452) <= Rabs (x - y).
Proof.
  intros Gx Gy Hx Hy. destruct (grid x Gx Hx) as [a ->]. destruct (grid y Gy Hy) as [b ->].
  rewrite <- Rmult_minus_distr_r, <- minus_IZR. destruct (Z.eq_dec (a - b) 0) as [->|N]; [left; ring|right].
  rewrite Rabs_mult, (Rabs_pos_eq (bpow radix2 (-452))) by apply bpow_ge_0. rewrite <- abs_IZR.
  assert (1 <= IZR (Z.abs (a - b))) by (apply IZR_le; lia). pose proof (bpow_gt_0 radix2 (-452)). nra.
Qed.

Lemma half_852 : bpow radix2 (-853) = bpow radix2 (-852) / 2.
Proof.
  change (-853)%Z with (-852 + -1)%Z. rewrite bpow_plus. replace (bpow radix2 (-1)) with (/ 2) by (simpl; lra). reflexivity.
Qed.

Definition dev (o t : b64) : b64 := b64_div (b64_abs (b64_sub o t)) o.
Definition xdev (o t : b64) : R := Rabs (rv o - rv t) / rv o.

Lemma dev_facts o t : metric o -> metric t ->
  fin (dev o t) /\ (xdev o t = 0 \/ bpow radix2 (-852) <= xdev o t) /\ 0 <= xdev o t <= bpow radix2 800 /\
  Rabs (rv (dev o t) - xdev o t) <= (2 * u + u * u) * xdev o t.
Proof.
  intros Mo Mt. destruct (metric_R o Mo) as [Fo Ho]. destruct (metric_R t Mt) as [Ft Ht].
  pose proof u_pos as UP. assert (u <= / 1000) as US by (rewrite u_val; apply Rinv_le; lra).
  pose proof (bpow_gt_0 radix2 (-400)) as P4. pose proof (bpow_gt_0 radix2 400) as P4'.
  assert (0 < rv o) as Po by lra. set (x := rv o - rv t).
  assert (Rabs x <= bpow radix2 400) as Bx by (apply Rabs_le; unfold x; lra).
  destruct (fin_sub o t Fo Ft) as [Fd Vd]; [apply Rle_trans with (bpow radix2 400); [exact Bx|apply bpow_le; lia]|].
  fold x in Vd. destruct (fin_abs _ Fd) as [Fa Va]. rewrite Vd in Va.
  destruct (apart (rv o) (rv t)) as [Z|N]; try (now apply fin_format); try lra.
  - fold x in Z. assert (rnd x = 0) as R0 by (rewrite Z; apply round_0; apply valid_rnd_N).
    assert (xdev o t = 0) as X0 by (unfold xdev; fold x; rewrite Z, Rabs_R0; unfold Rdiv; ring).
    destruct (fin_div (b64_abs (b64_sub o t)) o Fa Fo) as [Fq Vq]; [lra| |].
    { rewrite Va, R0, Rabs_R0. unfold Rdiv. rewrite Rmult_0_l, Rabs_R0. apply bpow_ge_0. }
    split; [exact Fq|]. split; [now left|]. rewrite X0. split; [split; [lra|apply bpow_ge_0]|].
    unfold dev. rewrite Vq, Va, R0, Rabs_R0. unfold Rdiv. rewrite Rmult_0_l, round_0 by apply valid_rnd_N.
    rewrite Rminus_0_r, Rabs_R0. lra.
  - fold x in N. assert (bpow radix2 (-1022) <= Rabs x) as NX by (apply Rle_trans with (bpow radix2 (-452)); [apply bpow_le; lia|exact N]).
    pose proof (rel_err x (or_intror NX)) as E1. set (X := Rabs x) in *. set (q := xdev o t).
    assert (q = X / rv o) as Q by reflexivity.
    assert (bpow radix2 (-852) <= q) as LQ.
    { rewrite Q. apply Rmult_le_reg_r with (rv o); [lra|]. unfold Rdiv. rewrite Rmult_assoc, Rinv_l, Rmult_1_r by lra.
      apply Rle_trans with (bpow radix2 (-852) * bpow radix2 400); [apply Rmult_le_compat_l; [apply bpow_ge_0|lra]|].
      rewrite <- bpow_plus. exact N. }
    assert (q <= bpow radix2 800) as UQ.
    { rewrite Q. apply Rmult_le_reg_r with (rv o); [lra|]. unfold Rdiv. rewrite Rmult_assoc, Rinv_l, Rmult_1_r by lra.
      apply Rle_trans with (bpow radix2 800 * bpow radix2 (-400)); [rewrite <- bpow_plus; exact Bx|].
      apply Rmult_le_compat_l; [apply bpow_ge_0|lra]. }
    pose proof (bpow_gt_0 radix2 (-852)) as P852.
    set (D := Rabs (rnd x)) in *.
    assert (Rabs (D - X) <= u * X) as E2.
    { eapply Rle_trans; [|exact E1]. unfold D, X. apply Rabs_triang_inv2. }
    assert (D / rv o - q = (D - X) / rv o) as DQ by (rewrite Q; unfold Rdiv; ring).
    assert (Rabs (D / rv o - q) <= u * q) as E3.
    { rewrite DQ, Q. unfold Rdiv. rewrite Rabs_mult, (Rabs_pos_eq (/ rv o)) by (left; apply Rinv_0_lt_compat; lra).
      rewrite <- Rmult_assoc. apply Rmult_le_compat_r; [left; apply Rinv_0_lt_compat; lra|exact E2]. }
    apply Rabs_le_inv in E3. set (r := D / rv o) in *.
    assert (q / 2 <= r <= 2 * q) as HR by nra.
    destruct (fin_div (b64_abs (b64_sub o t)) o Fa Fo) as [Fq Vq]; [lra| |].
    { rewrite Va. fold D. fold r. rewrite Rabs_pos_eq by lra. apply Rle_trans with (2 * bpow radix2 800); [lra|].
      change (2 * bpow radix2 800) with (bpow radix2 1 * bpow radix2 800). rewrite <- bpow_plus. apply bpow_le. lia. }
    rewrite Va in Vq. fold D in Vq. fold r in Vq.
    split; [exact Fq|]. split; [now right|]. split; [lra|]. unfold dev. rewrite Vq.
    assert (bpow radix2 (-1022) <= Rabs r) as NR.
    { rewrite Rabs_pos_eq by lra. apply Rle_trans with (bpow radix2 (-852) / 2); [|lra].
      rewrite <- half_852. apply bpow_le. lia. }
    pose proof (rel_err r (or_intror NR)) as E4. rewrite (Rabs_pos_eq r) in E4 by lra. apply Rabs_le_inv in E4.
    apply Rabs_le. nra.
Qed.

Lemma fmax_facts : forall es e, (forall x, In x (e :: es) -> fin x) ->
  fin (fmax_list e es) /\ In (fmax_list e es) (e :: es) /\ forall x, In x (e :: es) -> rv x <= rv (fmax_list e es).
Proof.
  induction es as [|y es IH]; intros e F.
  - simpl. split; [apply F; simpl; auto|]. split; [auto|]. intros x [->|[]]. lra.
  - cbn [fmax_list]. assert (fin e) as Fe by (apply F; simpl; auto). assert (fin y) as Fy by (apply F; simpl; auto).
    destruct (fin_max e y Fe Fy) as [Fm Vm].
    assert (b64_max e y = e \/ b64_max e y = y) as C.
    { assert (b64_max e y = if b64_lt e y then y else e) as ->; [|destruct (b64_lt e y); auto].
      destruct e; simpl in Fe; try contradiction; destruct y; simpl in Fy; try contradiction; reflexivity. }
    destruct (IH (b64_max e y)) as (A & B & D).
    { intros x [<-|H]; auto. apply F. simpl; auto. }
    split; auto. split.
    + destruct B as [B|B]; [|right; right; exact B]. rewrite <- B. destruct C as [C|C]; rewrite C; simpl; auto.
    + intros x [<-|[<-|H]].
      * apply Rle_trans with (rv (b64_max e y)); [rewrite Vm; apply Rmax_l|apply D; simpl; auto].
      * apply Rle_trans with (rv (b64_max e y)); [rewrite Vm; apply Rmax_r|apply D; simpl; auto].
      * apply D. simpl; auto.
Qed.

Definition devs (os ts : list b64) : list b64 := map (fun ot => dev (fst ot) (snd ot)) (combine os ts).

Lemma in_devs os ts x : In x (devs os ts) <->
  exists i o t, nth_error os i = Some o /\ nth_error ts i = Some t /\ x = dev o t.
Proof.
  unfold devs. revert ts. induction os as [|o os IH]; intros [|t ts]; simpl.
  - split; [tauto|]. intros (i & o & t & H & _). destruct i; discriminate.
  - split; [tauto|]. intros (i & o & t' & H & _). destruct i; discriminate.
  - split; [tauto|]. intros (i & o' & t & _ & H & _). destruct i; discriminate.
  - split.
    + intros [<-|H]; [exists 0%nat, o, t; auto|]. apply IH in H. destruct H as (i & o' & t' & H). exists (S i), o', t'. auto.
    + intros (i & o' & t' & A & B & ->). destruct i as [|i]; simpl in A, B.
      * injection A as <-. injection B as <-. auto.
      * right. apply (proj2 (IH ts)). exists i, o', t'. auto.
Qed.

Lemma metrics_nonzero ts : (forall t, In t ts -> metric t) -> existsb (fun t => b64_eq t fzero) ts = false.
Proof.
  intros H. apply Bool.not_true_iff_false. intros X. apply existsb_exists in X. destruct X as (t & I & Z).
  destruct (metric_R t (H t I)) as [F B]. apply eq_iff in Z; auto using fzero_fin. rewrite fzero_rv in Z.
  pose proof (bpow_gt_0 radix2 (-400)). lra.
Qed.

Lemma hundred : fin (b64_of_Z 100) /\ rv (b64_of_Z 100) = 100.
Proof.
  assert (b64_of_Z 100 = SpecFloat.S754_finite false 7036874417766400 (-46)) as -> by (vm_compute; reflexivity).
  split; [reflexivity|]. rewrite rv_finite. simpl. lra.
Qed.

Section Error.
  Variables (os ts : list b64).
  Hypothesis L : length os = length ts.
  Hypothesis NN : os <> nil.
  Hypothesis Mo : forall o, In o os -> metric o.
  Hypothesis Mt : forall t, In t ts -> metric t.

  Lemma error_R : exists f M, f_calculate_error os ts = Ok f /\ fin f /\
    (exists i o t, nth_error os i = Some o /\ nth_error ts i = Some t /\ M = xdev o t) /\
    (forall i o t, nth_error os i = Some o -> nth_error ts i = Some t -> xdev o t <= M) /\
    0 <= M /\ Rabs (rv f - 100 * M) <= 4 * u * (100 * M).
  Proof.
    unfold f_calculate_error. rewrite L, Nat.eqb_refl. fold (devs os ts).
    change (map (fun ot => b64_div (b64_abs (b64_sub (fst ot) (snd ot))) (fst ot)) (combine os ts)) with (devs os ts).
    pose proof u_pos as UP. assert (u <= / 1000) as US by (rewrite u_val; apply Rinv_le; lra).
    assert (forall x, In x (devs os ts) -> fin x) as Fin.
    { intros x H. apply in_devs in H. destruct H as (i & o & t & A & B & ->).
      apply dev_facts; [apply Mo|apply Mt]; eapply nth_error_In; eauto. }
    destruct (devs os ts) as [|e es] eqn:E.
    { exfalso. destruct os as [|o os']; [contradiction|]. destruct ts as [|t ts']; [discriminate|]. discriminate. }
    destruct (fmax_facts es e Fin) as (Fm & Im & Bm). rewrite <- E in Im, Bm. set (m := fmax_list e es) in *.
    rewrite metrics_nonzero by exact Mt. 
    (* the largest exact deviation *)
    assert (exists i o t, nth_error os i = Some o /\ nth_error ts i = Some t /\
              forall j o' t', nth_error os j = Some o' -> nth_error ts j = Some t' -> xdev o' t' <= xdev o t) as (i & o & t & A & B & Mx).
    { clear - L NN. revert ts L NN. induction os as [|o l IH]; intros [|t ts'] L NN; try discriminate; [contradiction|].
      injection L as L. destruct l as [|o2 l].
      - destruct ts'; [|discriminate]. exists 0%nat, o, t. split; auto. split; auto.
        intros [|[|j]] o' t' H1 H2; simpl in *; try discriminate. injection H1 as <-. injection H2 as <-. lra.
      - destruct (IH ts' L ltac:(discriminate)) as (i & o' & t' & A & B & Mx).
        destruct (Rle_or_lt (xdev o t) (xdev o' t')) as [C|C].
        + exists (S i), o', t'. split; auto. split; auto. intros [|j] p q H1 H2; [|eapply Mx; eauto].
          injection H1 as <-. injection H2 as <-. exact C.
        + exists 0%nat, o, t. split; auto. split; auto. intros [|j] p q H1 H2; [injection H1 as <-; injection H2 as <-; lra|].
          specialize (Mx j p q H1 H2). lra. }
    destruct (dev_facts o t (Mo o (nth_error_In _ _ A)) (Mt t (nth_error_In _ _ B))) as (Fo & Zo & Ro & Eo).
    assert (rv (dev o t) <= rv m) as LB by (apply Bm; apply (proj2 (in_devs os ts _)); exists i, o, t; auto).
    set (M := xdev o t) in *. apply Rabs_le_inv in Eo.
    assert (rv m <= M + (2 * u + u * u) * M) as UB.
    { apply in_devs in Im. destruct Im as (j & o' & t' & A' & B' & Em). rewrite Em.
      destruct (dev_facts o' t' (Mo o' (nth_error_In _ _ A')) (Mt t' (nth_error_In _ _ B'))) as (_ & _ & R' & E').
      apply Rabs_le_inv in E'. specialize (Mx j o' t' A' B'). fold M in Mx.
      assert ((2 * u + u * u) * xdev o' t' <= (2 * u + u * u) * M) by (apply Rmult_le_compat_l; nra). lra. }
    assert ((2 * u + u * u) * M <= / 2 * M) as CM by (apply Rmult_le_compat_r; [lra|nra]).
    assert (rv m = 0 \/ bpow radix2 (-853) <= rv m) as ZM.
    { destruct Zo as [Z|Z]; [left; rewrite Z in *; lra|right].
      rewrite half_852. lra. }
    assert (0 <= rv m <= 2 * M) as Bd by lra. destruct hundred as [F1 V1].
    destruct (fin_mul (b64_of_Z 100) m F1 Fm) as [Ff Vf].
    { rewrite V1, Rabs_pos_eq by lra. apply Rle_trans with (bpow radix2 8 * bpow radix2 800).
      - change (bpow radix2 8) with 256. lra.
      - rewrite <- bpow_plus. apply bpow_le. lia. }
    exists (b64_mul (b64_of_Z 100) m), M. split; auto. split; auto. split; [exists i, o, t; auto|]. split; [auto|]. split; [lra|].
    rewrite Vf, V1. assert (Rabs (rnd (100 * rv m) - 100 * rv m) <= u * (100 * rv m)) as E5.
    { rewrite <- (Rabs_pos_eq (100 * rv m)) at 3 by lra. apply rel_err. destruct ZM as [->|ZM]; [left; ring|right].
      rewrite Rabs_pos_eq by lra. apply Rle_trans with (bpow radix2 (-853)); [apply bpow_le; lia|].
      pose proof (bpow_gt_0 radix2 (-853)). lra. }
    apply Rabs_le_inv in E5. apply Rabs_le. set (c := 2 * u + u * u) in *. 
    assert (u * rv m <= u * (M + c * M)) by (apply Rmult_le_compat_l; lra).
    assert (c * M + u * (M + c * M) <= 4 * u * M).
    { replace (c * M + u * (M + c * M)) with ((c + u + u * c) * M) by ring. apply Rmult_le_compat_r; [lra|]. unfold c. nra. }
    split; lra.
  Qed.

  Lemma xdev_Q o t : metric o -> Q2R (100 * (Qabs (b64_val o - b64_val t) / b64_val o)) = 100 * xdev o t.
  Proof.
    intros Ho. destruct (metric_R o Ho) as [_ H]. pose proof (bpow_gt_0 radix2 (-400)).
    rewrite Q2R_mult, Q2R_div.
    - replace (Q2R 100) with 100 by (unfold Q2R; simpl; lra). f_equal. unfold xdev. f_equal.
      unfold rv. rewrite <- Q2R_minus.
      apply Qabs_case; intros A; apply Qle_Rle in A; replace (Q2R 0) with 0 in A by (unfold Q2R; simpl; lra).
      + now rewrite Rabs_pos_eq.
      + rewrite Q2R_opp. now rewrite Rabs_left1.
    - intros Z. apply Qeq_eqR in Z. fold (rv o) in Z. replace (Q2R 0) with 0 in Z by (unfold Q2R; simpl; lra). lra.
  Qed.

  Lemma error_top : exists f e, f_calculate_error os ts = Ok f /\ b64_finite f /\ is_error os ts e /\
    (Qabs (b64_val f - e) <= (2 # 1) ^ (-51) * e)%Q.
  Proof.
    destruct error_R as (f & M & E & F & (i & o & t & A & B & EM) & Mx & P & D).
    exists f, (100 * (Qabs (b64_val o - b64_val t) / b64_val o))%Q.
    pose proof (xdev_Q o t (Mo o (nth_error_In _ _ A))) as X. rewrite <- EM in X.
    split; [exact E|]. split; [exact F|]. split; [split|].
    - intros j o' t' A' B'. apply Rle_Qle. rewrite X, (xdev_Q o' t' (Mo o' (nth_error_In _ _ A'))).
      specialize (Mx j o' t' A' B'). lra.
    - exists i, o, t. split; [exact A|]. split; [exact B|]. reflexivity.
    - apply Rabs_le_inv in D. apply Qabs_Qle_condition. revert X. generalize (100 * (Qabs (b64_val o - b64_val t) / b64_val o))%Q. intros e X.
      assert (Q2R ((2 # 1) ^ (-51)) = 4 * u) as U by (rewrite Q2R_pow2, u_val; simpl; lra).
      split; apply Rle_Qle; rewrite ?Q2R_opp, Q2R_minus, Q2R_mult, X, U; fold (rv f); lra.
  Qed.
End Error.

Lemma error_unique os ts e e' : is_error os ts e -> is_error os ts e' -> (e == e')%Q.
Proof.
  intros [U (i & o & t & A & B & E)] [U' (i' & o' & t' & A' & B' & E')]. apply Qle_antisym.
  - rewrite E. exact (U' i o t A B).
  - rewrite E'. exact (U i' o' t' A' B').
Qed.

Lemma error_close os ts : length os = length ts -> os <> nil -> (forall x, In x os \/ In x ts -> metric x) ->
  exists f e, f_calculate_error os ts = Ok f /\ b64_finite f /\ is_error os ts e /\
    (Qabs (b64_val f - e) <= (2 # 1) ^ (-51) * e)%Q.
Proof. intros L N M. apply error_top; auto. Qed.

Lemma error_nonneg os ts e : (forall x, In x os \/ In x ts -> metric x) -> is_error os ts e -> (0 <= e)%Q.
Proof.
  intros M [_ (i & o & t & A & B & ->)]. destruct (M o (or_introl (nth_error_In _ _ A))) as (_ & H & _).
  assert (0 < b64_val o)%Q by (eapply Qlt_le_trans; [|exact H]; reflexivity).
  apply Qmult_le_0_compat; [discriminate|]. unfold Qdiv. apply Qmult_le_0_compat; [apply Qabs_nonneg|].
  apply Qlt_le_weak, Qinv_lt_0_compat. exact H0.
Qed.

(** Comparing the error with a limit. *)
Lemma error_decides os ts f e limit : length os = length ts -> os <> nil -> (forall x, In x os \/ In x ts -> metric x) ->
  f_calculate_error os ts = Ok f -> is_error os ts e -> b64_finite limit ->
  (b64_le f limit = true -> (e <= b64_val limit * (1 + (2 # 1) ^ (-50)))%Q) /\
  ((e * (1 + (2 # 1) ^ (-51)) <= b64_val limit)%Q -> b64_le f limit = true).
Proof.
  intros L N M Ef Ee Fl. destruct (error_close os ts L N M) as (f' & e' & Ef' & Ff & Ee' & D).
  rewrite Ef in Ef'. injection Ef' as <-. pose proof (error_unique _ _ _ _ Ee Ee') as Eq.
  pose proof (error_nonneg _ _ _ M Ee') as P. apply Qeq_eqR in Eq. apply Qle_Rle in P.
  replace (Q2R 0) with 0 in P by (unfold Q2R; simpl; lra).
  apply Qabs_Qle_condition in D. destruct D as [D1 D2]. apply Qle_Rle in D1. apply Qle_Rle in D2.
  assert (Q2R ((2 # 1) ^ (-51)) = 4 * u) as U by (rewrite Q2R_pow2, u_val; simpl; lra).
  assert (Q2R ((2 # 1) ^ (-50)) = 8 * u) as U2 by (rewrite Q2R_pow2, u_val; simpl; lra).
  rewrite ?Q2R_opp, Q2R_minus, Q2R_mult, U in D1. rewrite Q2R_minus, Q2R_mult, U in D2. fold (rv f) in D1, D2.
  pose proof u_pos as UP. assert (u <= / 1000) as US by (rewrite u_val; apply Rinv_le; lra).
  split; intros H.
  - apply le_iff in H; auto. apply Rle_Qle. rewrite Q2R_mult, Q2R_plus, U2, Eq. fold (rv limit).
    replace (Q2R 1) with 1 by (unfold Q2R; simpl; lra).
    assert ((1 - 4 * u) * (1 + 8 * u) * Q2R e' >= Q2R e') by nra.
    assert ((1 + 8 * u) * ((1 - 4 * u) * Q2R e') <= (1 + 8 * u) * rv limit) by (apply Rmult_le_compat_l; lra). lra.
  - apply le_iff; auto. apply Qle_Rle in H. rewrite Q2R_mult, Q2R_plus, U, Eq in H. fold (rv limit) in H.
    replace (Q2R 1) with 1 in H by (unfold Q2R; simpl; lra). lra.
Qed.

Lemma failed_case os ts t : length os = length ts -> In t ts -> b64_finite t -> (b64_val t == 0)%Q ->
  exists f, f_calculate_error os ts = Ok f /\ (b64_val f == 100)%Q.
Proof.
  intros L I F Z. exists (b64_of_Z 100). split; [|vm_compute; reflexivity].
  unfold f_calculate_error. rewrite L, Nat.eqb_refl.
  assert (existsb (fun t => b64_eq t fzero) ts = true) as ->.
  { apply existsb_exists. exists t. split; auto. apply eq_iff; auto using fzero_fin. rewrite fzero_rv.
    apply Qeq_eqR in Z. unfold rv. rewrite Z. unfold Q2R. simpl. lra. }
  destruct ts as [|t0 ts]; [contradiction|]. destruct os as [|o os]; [discriminate|]. reflexivity.
Qed.
