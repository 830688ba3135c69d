(** How close to 1 the thresholds come: within one binade every addition of the
    start adds the same number of units in the last place, so the climb to 1 is
    computed binade by binade. *)
From Coq Require Import ZArith QArith Qreals Reals Lia Lra List Bool.
From Coq Require Floats.SpecFloat.
From Flocq Require Import Core BinarySingleNaN.
From Verif.Base Require Import B64.
From Verif.Model Require Import Drivers FloatDrivers.
From Verif.Spec Require Import FloatSpec.
From Verif.Proofs Require Import LoopForward FloatFacts FloatThrFacts.
Local Open Scope R_scope.

Notation fin m e := (SpecFloat.S754_finite false m e).

Lemma is_b_unique x y v : is_b x v -> is_b y v -> v <> 0 -> x = y.
Proof.
  intros (b & <- & Fb & Vb) (c & <- & Fc & Vc) N. f_equal. apply B2R_inj; [| |congruence].
  - destruct b; try discriminate; auto; simpl in Vb; congruence.
  - destruct c; try discriminate; auto; simpl in Vc; congruence.
Qed.

Lemma is_b_pos m e : SpecFloat.bounded 53 1024 m e = true -> is_b (fin m e) (IZR (Zpos m) * bpow radix2 e).
Proof. intros H. pose proof (is_b_finite false m e H) as B. exact B. Qed.

(** One addition inside a binade. *)
Lemma add_inside m e sm se c :
  SpecFloat.bounded 53 1024 m e = true -> SpecFloat.bounded 53 1024 sm se = true ->
  (2 ^ 52 <= Zpos m)%Z -> (Zpos m + Zpos c < 2 ^ 53)%Z -> (-1074 <= e <= 0)%Z -> (se <= e)%Z ->
  (Z.abs (2 * Zpos sm - 2 * Zpos c * 2 ^ (e - se)) < 2 ^ (e - se))%Z ->
  SpecFloat.bounded 53 1024 (m + c) e = true /\ b64_add (fin m e) (fin sm se) = fin (m + c) e.
Proof.
  intros Bm Bs L U E1 E2 T.
  assert (SpecFloat.bounded 53 1024 (m + c) e = true) as Bmc.
  { unfold SpecFloat.bounded, SpecFloat.canonical_mantissa. apply andb_true_intro. split; [|apply Z.leb_le; lia].
    apply Zeq_bool_true. unfold SpecFloat.fexp, SpecFloat.emin.
    assert (Zpos (SpecFloat.digits2_pos (m + c)) = 53%Z) as ->.
    { rewrite Digits.Zpos_digits2_pos. apply Digits.Zdigits_unique. rewrite Z.abs_eq by lia.
      change (Zpower radix2 (53 - 1)) with (2 ^ 52)%Z. change (Zpower radix2 53) with (2 ^ 53)%Z. lia. }
    lia. }
  split; auto.
  assert (0 < bpow radix2 e) as Pe by apply bpow_gt_0.
  set (d := IZR (Zpos sm) * bpow radix2 (se - e)).
  assert (Rabs (d - IZR (Zpos c)) < / 2) as D.
  { apply IZR_lt in T. rewrite abs_IZR, minus_IZR, !mult_IZR in T.
    assert (IZR (2 ^ (e - se)) = bpow radix2 (e - se)) as Eb by (rewrite <- IZR_Zpower by lia; reflexivity).
    rewrite Eb in T. assert (0 < bpow radix2 (e - se)) as P by apply bpow_gt_0.
    assert (IZR (Zpos sm) = d * bpow radix2 (e - se)) as Es.
    { unfold d. rewrite Rmult_assoc, <- bpow_plus. replace (se - e + (e - se))%Z with 0%Z by lia. simpl. lra. }
    rewrite Es in T. replace (2 * (d * bpow radix2 (e - se)) - 2 * IZR (Zpos c) * bpow radix2 (e - se))
      with ((2 * (d - IZR (Zpos c))) * bpow radix2 (e - se)) in T by ring.
    rewrite Rabs_mult, (Rabs_pos_eq (bpow radix2 (e - se))) in T by lra.
    assert (Rabs (2 * (d - IZR (Zpos c))) < 1).
    { apply Rmult_lt_reg_r with (bpow radix2 (e - se)); lra. }
    rewrite Rabs_mult, (Rabs_pos_eq 2) in H by lra. lra. }
  assert (IZR (Zpos sm) * bpow radix2 se = d * bpow radix2 e) as Es.
  { unfold d. rewrite Rmult_assoc, <- bpow_plus. do 2 f_equal. lia. }
  assert (0 < d) as Pd.
  { unfold d. apply Rmult_lt_0_compat; [apply IZR_lt; lia|apply bpow_gt_0]. }
  assert (IZR (2 ^ 52) <= IZR (Zpos m)) as L' by (apply IZR_le; lia).
  assert (IZR (Zpos m) + IZR (Zpos c) <= IZR (2 ^ 53) - 1) as U'.
  { rewrite <- plus_IZR, <- minus_IZR. apply IZR_le. lia. }
  assert (IZR (2 ^ 52) = bpow radix2 52) as E52 by reflexivity.
  assert (IZR (2 ^ 53) = bpow radix2 53) as E53 by reflexivity.
  apply Rabs_def2 in D.
  set (z := IZR (Zpos m) * bpow radix2 e + IZR (Zpos sm) * bpow radix2 se).
  assert (z = (IZR (Zpos m) + d) * bpow radix2 e) as Ez by (unfold z; rewrite Es; ring).
  assert (bpow radix2 (52 + e) <= z < bpow radix2 (53 + e)) as Bz.
  { rewrite Ez, !bpow_plus. split; [apply Rmult_le_compat_r|apply Rmult_lt_compat_r]; lra. }
  assert (mag radix2 z = (53 + e)%Z :> Z) as Mz.
  { apply mag_unique. rewrite Rabs_pos_eq.
    - replace (53 + e - 1)%Z with (52 + e)%Z by lia. exact Bz.
    - pose proof (bpow_gt_0 radix2 (52 + e)). lra. }
  apply (is_b_unique _ _ (IZR (Zpos (m + c)) * bpow radix2 e)).
  - replace (IZR (Zpos (m + c)) * bpow radix2 e) with (rnd z).
    + apply is_b_add; [now apply is_b_pos|now apply is_b_pos|]. fold z. split.
      * pose proof (bpow_gt_0 radix2 (52 + e)). lra.
      * apply Rle_trans with (bpow radix2 (53 + e)); [lra|apply bpow_le; lia].
    + assert (cexp radix2 fx z = e) as Ce by (unfold cexp, FLT_exp; rewrite Mz; lia).
      unfold round, F2R, scaled_mantissa. rewrite Ce. cbn [Fnum Fexp].
      f_equal. f_equal. apply Znearest_imp.
      replace (z * bpow radix2 (- e)) with (IZR (Zpos m) + d).
      2:{ rewrite Ez, Rmult_assoc, <- bpow_plus. replace (e + - e)%Z with 0%Z by lia. simpl. lra. }
      rewrite Pos2Z.inj_add, plus_IZR.
      apply Rabs_def1; lra.
  - now apply is_b_pos.
  - assert (0 < IZR (Zpos (m + c))) by (apply IZR_lt; lia). apply Rgt_not_eq. apply Rmult_lt_0_compat; lra.
Qed.

(** Any number of additions of [s] to [x] ends at [y]. *)
Definition to (s x y : b64) : Prop := exists n, Nat.iter n (fun t => b64_add t s) x = y.

Lemma to_trans s x y z : to s x y -> to s y z -> to s x z.
Proof.
  intros (n & <-) (k & <-). exists (k + n)%nat. induction k; simpl; congruence.
Qed.

Lemma inside_many m e sm se c : forall n : nat,
  SpecFloat.bounded 53 1024 m e = true -> SpecFloat.bounded 53 1024 sm se = true ->
  (2 ^ 52 <= Zpos m)%Z -> (Zpos m + Z.of_nat n * Zpos c < 2 ^ 53)%Z -> (-1074 <= e <= 0)%Z -> (se <= e)%Z ->
  (Z.abs (2 * Zpos sm - 2 * Zpos c * 2 ^ (e - se)) < 2 ^ (e - se))%Z ->
  exists p, Zpos p = (Zpos m + Z.of_nat n * Zpos c)%Z /\ SpecFloat.bounded 53 1024 p e = true /\
    Nat.iter n (fun t => b64_add t (fin sm se)) (fin m e) = fin p e.
Proof.
  induction n as [|n IH]; intros Bm Bs L U E1 E2 T.
  - exists m. split; [lia|]. split; auto.
  - destruct IH as (p & P1 & P2 & P3); auto; [lia|].
    destruct (add_inside p e sm se c) as [A1 A2]; auto; [lia|lia|].
    exists (p + c)%positive. split; [lia|]. split; auto. simpl. rewrite P3. exact A2.
Qed.

(** To the last multiple inside the binade: the mantissa there, when the
    conditions above hold. *)
Definition leap (s x : b64) : option b64 :=
  match x, s with
  | fin m e, fin sm se =>
      let k := (2 ^ (e - se))%Z in
      let c := ((2 * Zpos sm + k) / (2 * k))%Z in
      let n := ((2 ^ 53 - 1 - Zpos m) / c)%Z in
      match c, (Zpos m + n * c)%Z with
      | Zpos c', Zpos p =>
          if (SpecFloat.bounded 53 1024 m e && SpecFloat.bounded 53 1024 sm se && (2 ^ 52 <=? Zpos m)%Z
              && (Zpos p <? 2 ^ 53)%Z && (-1074 <=? e)%Z && (e <=? 0)%Z && (se <=? e)%Z && (0 <=? n)%Z
              && (Z.abs (2 * Zpos sm - 2 * Zpos c' * k) <? k)%Z)%bool
          then Some (fin p e) else None
      | _, _ => None
      end
  | _, _ => None
  end.

Lemma leap_to s x y : leap s x = Some y -> to s x y.
Proof.
  unfold leap. destruct x as [| | |[|] m e]; try discriminate. destruct s as [| | |[|] sm se]; try discriminate.
  cbv zeta. set (k := (2 ^ (e - se))%Z). set (c0 := ((2 * Zpos sm + k) / (2 * k))%Z).
  destruct c0 as [|c|] eqn:Ec; try discriminate.
  set (n := ((2 ^ 53 - 1 - Zpos m) / Zpos c)%Z).
  destruct (Zpos m + n * Zpos c)%Z as [|p|] eqn:Ep; try discriminate.
  destruct (_ && _)%bool eqn:B; [|discriminate]. intros H. injection H as <-.
  rewrite !andb_true_iff in B. destruct B as [[[[[[[[B1 B2] B3] B4] B5] B6] B7] B8] B9].
  rewrite Z.leb_le in B3, B5, B6, B7, B8. rewrite Z.ltb_lt in B4, B9.
  destruct (inside_many m e sm se c (Z.to_nat n)) as (q & Q1 & Q2 & Q3); auto; try lia.
  exists (Z.to_nat n). rewrite Q3. f_equal. rewrite Z2Nat.id in Q1 by auto. congruence.
Qed.

(** [n] binades up, then to the last multiple inside that binade. *)
Fixpoint leaps (n : nat) (s x : b64) : option b64 :=
  match n with
  | O => leap s x
  | S n' => match leap s x with Some y => leaps n' s (b64_add y s) | None => None end
  end.

Lemma leaps_to n s : forall x y, leaps n s x = Some y -> to s x y.
Proof.
  induction n as [|n IH]; simpl; intros x y H; [now apply leap_to|].
  destruct (leap s x) as [z|] eqn:L; [|discriminate]. apply leap_to in L. apply to_trans with z; auto.
  apply to_trans with (b64_add z s); [exists 1%nat; reflexivity|auto].
Qed.

Lemma climb_mono j k l : (k <= l)%nat -> (climb_v j k <= climb_v j l)%Q.
Proof.
  induction 1 as [|l H IH]; [apply Qle_refl|]. eapply Qle_trans; [exact IH|]. exact (float_up j l).
Qed.

Lemma climb_to j n : to (start_f j) (start_f j) (climb_f j n).
Proof. exists n. unfold climb_f. exact eq_refl. Qed.

(** The last threshold up to 1 for each start, and the one after it. *)
Definition top_ok (y s : b64) : bool :=
  (Qle_bool (b64_val y + (2 # 1) ^ (-49) * b64_val y) 1 && negb (Qle_bool (b64_val (b64_add y s)) 1))%bool.
Definition top_bins (j : nat) : nat :=
  match j with O => 2 | 1%nat => 5 | 2%nat => 9 | 3%nat => 12 | _ => 15 end.
Definition tops : bool :=
  forallb (fun j => match leaps (top_bins j) (start_f j) (climb_f j 16) with
                    | Some y => top_ok y (start_f j) | None => false end) (seq 0 5).

Lemma tops_ok : tops = true.
Proof. vm_compute. reflexivity. Qed.

Lemma below_one j k : (j < 5)%nat -> (climb_v j k <= 1)%Q ->
  (climb_v j k + (2 # 1) ^ (-49) * climb_v j k <= 1)%Q.
Proof.
  intros Hj Hk. pose proof tops_ok as T. unfold tops in T. rewrite forallb_forall in T.
  specialize (T j ltac:(apply in_seq; lia)).
  destruct (leaps (top_bins j) (start_f j) (climb_f j 16)) as [y|] eqn:L; [|discriminate].
  apply leaps_to in L.
  pose proof (to_trans _ _ _ _ (climb_to j 16) L) as (n & L'). clear L. rename L' into L. apply andb_true_iff in T. destruct T as [T1 T2].
  apply Qle_bool_iff in T1. apply negb_true_iff in T2.
  assert (climb_f j n = y) as En by (unfold climb_f; exact L).
  assert (climb_f j (S n) = b64_add y (start_f j)) as Es by (unfold climb_f in *; simpl; now rewrite En).
  assert (k <= n)%nat as Lk.
  { destruct (le_lt_dec k n) as [|G]; auto. exfalso. pose proof (climb_mono j (S n) k G) as X.
    assert (climb_v j (S n) <= 1)%Q as C by (eapply Qle_trans; eauto).
    unfold climb_v in C. rewrite Es in C. apply Qle_bool_iff in C. congruence. }
  pose proof (climb_mono j k n Lk) as X. unfold climb_v in X at 2. rewrite En in X.
  eapply Qle_trans; [|exact T1]. apply Qplus_le_compat; auto. apply Qmult_le_l; auto. reflexivity.
Qed.
