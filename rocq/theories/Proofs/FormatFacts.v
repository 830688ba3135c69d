(** Printed numbers read back. *)
From Coq Require Import String Ascii List Bool Arith ZArith NArith QArith Qabs Qround Qpower Lia Lqa.
From Verif.Base Require Import Num XNum Text.
From Verif.Spec Require Import TextSpec.
Import ListNotations.
Local Open Scope string_scope.

(** ** Integers *)
Lemma app_assoc_s (a b c : string) : (a ++ b) ++ c = a ++ (b ++ c).
Proof. induction a as [|x a IH]; cbn; [reflexivity|]. f_equal. exact IH. Qed.

Lemma digit_of_digit n : (0 <= n < 10)%Z -> digit_of (ascii_of_N (48 + Z.to_N n)) = Some n.
Proof.
  intros H. unfold digit_of. rewrite N_ascii_embedding by lia.
  replace (Z.of_N (48 + Z.to_N n)) with (48 + n)%Z by lia.
  destruct (Z.leb_spec 48 (48 + n)); [|lia]. destruct (Z.leb_spec (48 + n) 57); [|lia]. cbn [andb]. f_equal. lia.
Qed.
Lemma take_digit n rest v c : (0 <= n < 10)%Z ->
  take_digits (digit n ++ rest) v c = take_digits rest (10 * v + n) (c + 1).
Proof. intros H. unfold digit. cbn [String.append take_digits]. rewrite digit_of_digit by exact H. reflexivity. Qed.
Lemma take_pad k n rest v c :
  take_digits (pad k n ++ rest) v c =
  take_digits rest (v * 10 ^ Z.of_nat k + n mod 10 ^ Z.of_nat k)%Z (c + Z.of_nat k)%Z.
Proof.
  revert n rest v c. induction k as [|k IH]; intros n rest v c.
  - cbn [pad String.append]. change (Z.of_nat 0) with 0%Z. rewrite Z.pow_0_r, Z.mod_1_r. f_equal; lia.
  - cbn [pad]. rewrite app_assoc_s, IH, take_digit by (apply Z.mod_pos_bound; lia).
    rewrite Nat2Z.inj_succ, Z.pow_succ_r by lia.
    assert (P : (0 < 10 ^ Z.of_nat k)%Z) by (apply Z.pow_pos_nonneg; lia).
    rewrite (Z.rem_mul_r n 10 (10 ^ Z.of_nat k)) by lia. f_equal; lia.
Qed.

Lemma ndig_spec fuel n : (0 <= n)%Z -> (n < 2 ^ Z.of_nat (S fuel))%Z ->
  (n < 10 ^ Z.of_nat (ndig fuel n))%Z /\ ((0 < n)%Z -> (10 ^ (Z.of_nat (ndig fuel n) - 1) <= n)%Z) /\ (1 <= ndig fuel n)%nat.
Proof.
  revert n. induction fuel as [|f IH]; intros n H B; cbn [ndig].
  - change (Z.of_nat 1) with 1%Z in *. change (2 ^ 1)%Z with 2%Z in B. change (10 ^ 1)%Z with 10%Z.
    split; [lia|]. split; [intros; change (10 ^ (1 - 1))%Z with 1%Z; lia|lia].
  - destruct (Z.ltb_spec n 10) as [L|L].
    + change (Z.of_nat 1) with 1%Z. change (10 ^ 1)%Z with 10%Z.
      split; [lia|]. split; [intros; change (10 ^ (1 - 1))%Z with 1%Z; lia|lia].
    + assert (D : (0 <= n / 10)%Z) by (apply Z.div_pos; lia).
      assert (D' : (n / 10 < 2 ^ Z.of_nat (S f))%Z).
      { apply Z.div_lt_upper_bound; [lia|]. rewrite Nat2Z.inj_succ, Z.pow_succ_r in B by lia. lia. }
      destruct (IH (n / 10)%Z D D') as [A [C E]].
      assert (M := Z.div_mod n 10 ltac:(lia)). assert (M' := Z.mod_pos_bound n 10 ltac:(lia)).
      rewrite Nat2Z.inj_succ, Z.pow_succ_r by lia. split; [lia|]. split; [|lia]. intros _.
      assert (Hq : (0 < n / 10)%Z) by (apply Z.div_str_pos; lia). specialize (C Hq).
      replace (Z.succ (Z.of_nat (ndig f (n / 10))) - 1)%Z with (Z.succ (Z.of_nat (ndig f (n / 10)) - 1)) by lia.
      rewrite Z.pow_succ_r by lia. lia.
Qed.
Lemma ndigits_spec n : (0 <= n)%Z ->
  (n < 10 ^ Z.of_nat (ndigits n))%Z /\ ((0 < n)%Z -> (10 ^ (Z.of_nat (ndigits n) - 1) <= n)%Z) /\ (1 <= ndigits n)%nat.
Proof.
  intros H. unfold ndigits. apply ndig_spec; [exact H|].
  destruct (Z.eq_dec n 0) as [->|N]; [cbn; lia|].
  rewrite Nat2Z.inj_succ, Z2Nat.id by apply Z.log2_nonneg. apply Z.log2_spec. lia.
Qed.
Lemma take_str_pos n rest v c : (0 <= n)%Z ->
  take_digits (str_pos n ++ rest) v c =
  take_digits rest (v * 10 ^ Z.of_nat (ndigits n) + n)%Z (c + Z.of_nat (ndigits n))%Z.
Proof.
  intros H. unfold str_pos. rewrite take_pad. destruct (ndigits_spec n H) as [A _].
  rewrite (Z.mod_small n) by lia. reflexivity.
Qed.

(** ** Rounding *)
Lemma round_even_spec q : (0 <= q)%Q -> (0 <= round_even q)%Z /\ (Qabs (inject_Z (round_even q) - q) <= 1 # 2)%Q.
Proof.
  destruct q as [n d]. intros H. unfold Qle in H. cbn in H. rewrite Z.mul_1_r in H.
  unfold round_even. cbn [Qnum Qden].
  assert (D := Z.div_mod n (Z.pos d) ltac:(lia)). assert (B := Z.mod_pos_bound n (Z.pos d) ltac:(lia)).
  assert (F : (0 <= n / Z.pos d)%Z) by (apply Z.div_pos; lia).
  set (f := (n / Z.pos d)%Z) in *. set (r := (n mod Z.pos d)%Z) in *.
  assert (lo : (2 * r <= Z.pos d)%Z -> (Qabs (inject_Z f - (n # d)) <= 1 # 2)%Q).
  { intros L. apply Qabs_Qle_condition. unfold Qle, Qminus, Qplus, Qopp, inject_Z. cbn [Qnum Qden]. split; nia. }
  assert (hi : (Z.pos d <= 2 * r)%Z -> (Qabs (inject_Z (f + 1) - (n # d)) <= 1 # 2)%Q).
  { intros L. apply Qabs_Qle_condition. unfold Qle, Qminus, Qplus, Qopp, inject_Z. cbn [Qnum Qden]. split; nia. }
  destruct (Z.compare_spec (2 * r) (Z.pos d)).
  - destruct (Z.even f); (split; [lia|]); [apply lo|apply hi]; lia.
  - split; [lia|]. apply lo. lia.
  - split; [lia|]. apply hi. lia.
Qed.
(** Rounding is monotone against integers. *)
Lemma round_even_le q z : (0 <= q)%Q -> (q <= inject_Z z)%Q -> (round_even q <= z)%Z.
Proof.
  intros H L. destruct (round_even_spec q H) as [_ B]. apply Qabs_Qle_condition in B. destruct B as [_ B].
  assert (X : (inject_Z (round_even q) < inject_Z (z + 1))%Q) by (rewrite inject_Z_plus; change (inject_Z 1) with 1%Q; lra).
  rewrite <- Zlt_Qlt in X. lia.
Qed.
Lemma round_even_ge q z : (0 <= q)%Q -> (inject_Z z <= q)%Q -> (z <= round_even q)%Z.
Proof.
  intros H L. destruct (round_even_spec q H) as [_ B]. apply Qabs_Qle_condition in B. destruct B as [B _].
  assert (X : (inject_Z z < inject_Z (round_even q + 1))%Q) by (rewrite inject_Z_plus; change (inject_Z 1) with 1%Q; lra).
  rewrite <- Zlt_Qlt in X. lia.
Qed.

(** ** Powers of ten *)
Lemma ten_nz : ~ (inject_Z 10 == 0)%Q.
Proof. discriminate. Qed.
Lemma pow10_pos e : (0 < pow10 e)%Q.
Proof. apply Qpower_0_lt. reflexivity. Qed.
Lemma pow10_plus a b : (pow10 (a + b) == pow10 a * pow10 b)%Q.
Proof. apply Qpower_plus. exact ten_nz. Qed.
Lemma pow10_Z k : (0 <= k)%Z -> (inject_Z (10 ^ k) == pow10 k)%Q.
Proof. intros H. apply Zpower_Qpower. exact H. Qed.
Lemma pow10_inv a : (pow10 a * pow10 (- a) == 1)%Q.
Proof. rewrite <- pow10_plus, Z.add_opp_diag_r. reflexivity. Qed.

Lemma exponent_spec q : (0 < q)%Q -> (pow10 (exponent q) <= q)%Q /\ (q < pow10 (exponent q + 1))%Q.
Proof.
  destruct q as [n d]. intros H. unfold Qlt in H. cbn in H. rewrite Z.mul_1_r in H.
  unfold exponent. cbn [Qnum Qden].
  destruct (ndigits_spec n ltac:(lia)) as [A1 [A2 A3]]. specialize (A2 H).
  destruct (ndigits_spec (Z.pos d) ltac:(lia)) as [B1 [B2 B3]]. specialize (B2 ltac:(lia)).
  set (a := Z.of_nat (ndigits n)) in *. set (b := Z.of_nat (ndigits (Z.pos d))) in *.
  assert (Qa : (n # d == inject_Z n / inject_Z (Z.pos d))%Q) by (rewrite Qmake_Qdiv; reflexivity).
  assert (DP : (0 < inject_Z (Z.pos d))%Q) by reflexivity.
  assert (lower : (pow10 (a - b - 1) <= n # d)%Q).
  { rewrite Qa. apply Qle_shift_div_l; [exact DP|].
    rewrite Zle_Qle, pow10_Z in A2 by lia. rewrite Zlt_Qlt, pow10_Z in B1 by lia.
    setoid_replace (pow10 (a - 1)) with (pow10 (a - b - 1) * pow10 b)%Q in A2
      by (rewrite <- pow10_plus; f_equiv; lia).
    assert (P := pow10_pos (a - b - 1)). nra. }
  assert (upper : (n # d < pow10 (a - b + 1))%Q).
  { rewrite Qa. apply Qlt_shift_div_r; [exact DP|].
    rewrite Zle_Qle, pow10_Z in B2 by lia. rewrite Zlt_Qlt, pow10_Z in A1 by lia.
    setoid_replace (pow10 a) with (pow10 (a - b + 1) * pow10 (b - 1))%Q in A1
      by (rewrite <- pow10_plus; f_equiv; lia).
    assert (P := pow10_pos (a - b + 1)). nra. }
  destruct (Qle_bool (pow10 (a - b)) (n # d)) eqn:E.
  - apply Qle_bool_iff in E. split; [exact E|exact upper].
  - assert (L : (n # d < pow10 (a - b))%Q).
    { apply Qnot_le_lt. intros C. apply Qle_bool_iff in C. congruence. }
    split; [exact lower|]. replace (a - b - 1 + 1)%Z with (a - b)%Z by lia. exact L.
Qed.

(** ** Reading *)
Lemma append_nil (s : string) : s ++ "" = s.
Proof. induction s as [|c s IH]; cbn; [reflexivity|]. f_equal. exact IH. Qed.
Lemma take_sign_digit c t d : digit_of c = Some d -> take_sign (String c t) = (1%Z, String c t).
Proof. destruct c as [[] [] [] [] [] [] [] []]; cbn; intros H; try discriminate H; reflexivity. Qed.
Lemma digit_head n t : (0 <= n < 10)%Z -> take_sign (digit n ++ t) = (1%Z, digit n ++ t).
Proof. intros H. unfold digit. cbn [String.append]. apply (take_sign_digit _ _ n). apply digit_of_digit. exact H. Qed.
Lemma pad_head k n t : take_sign (pad (S k) n ++ t) = (1%Z, pad (S k) n ++ t).
Proof.
  revert n t. induction k as [|k IH]; intros n t.
  - cbn [pad String.append]. apply digit_head. apply Z.mod_pos_bound. lia.
  - change (pad (S (S k)) n) with (pad (S k) (n / 10) ++ digit (n mod 10)). rewrite app_assoc_s. apply IH.
Qed.
Lemma str_pos_head n t : (0 <= n)%Z -> take_sign (str_pos n ++ t) = (1%Z, str_pos n ++ t).
Proof.
  intros H. unfold str_pos. destruct (ndigits_spec n H) as [_ [_ A]].
  destruct (ndigits n) as [|k]; [lia|]. apply pad_head.
Qed.
Definition sgn (q : Q) : Z := if Qlt_bool q 0 then (-1)%Z else 1%Z.
Lemma take_sign_of q s : take_sign s = (1%Z, s) -> take_sign (sign q ++ s) = (sgn q, s).
Proof. intros H. unfold sign, sgn. destruct (Qlt_bool q 0); [reflexivity|exact H]. Qed.
Lemma sgn_abs q : (inject_Z (sgn q) * Qabs q == q)%Q.
Proof.
  unfold sgn, Qlt_bool. destruct (Qle_bool 0 q) eqn:E; cbn [negb].
  - apply Qle_bool_iff in E. rewrite Qabs_pos by exact E. change (inject_Z 1) with 1%Q. ring.
  - assert (L : (q < 0)%Q) by (apply Qnot_le_lt; intros C; apply Qle_bool_iff in C; congruence).
    rewrite Qabs_neg by lra. change (inject_Z (-1)) with (-1)%Q. ring.
Qed.
Lemma abs_sgn q x : (Qabs (inject_Z (sgn q) * x) == Qabs x)%Q.
Proof. rewrite Qabs_Qmult. unfold sgn. destruct (Qlt_bool q 0); cbn [Qabs inject_Z Z.abs]; apply Qmult_1_l. Qed.

Lemma dot_no_digit t v n : take_digits ("." ++ t) v n = (v, n, "." ++ t).
Proof. reflexivity. Qed.
Lemma e_no_digit t v n : take_digits ("e" ++ t) v n = (v, n, "e" ++ t).
Proof. reflexivity. Qed.
Lemma nil_no_digit v n : take_digits "" v n = (v, n, "").
Proof. reflexivity. Qed.

Lemma read_fixed k q : exists v, read_num (fixed k q) = Some v /\ to_decimals (Z.of_nat k) q v.
Proof.
  unfold fixed. set (m := round_even (Qabs q * pow10 (Z.of_nat k))). set (b := (10 ^ Z.of_nat k)%Z).
  assert (BP : (0 < b)%Z) by (apply Z.pow_pos_nonneg; lia).
  assert (AP : (0 <= Qabs q * pow10 (Z.of_nat k))%Q).
  { apply Qmult_le_0_compat; [apply Qabs_nonneg|]. apply Qlt_le_weak, pow10_pos. }
  destruct (round_even_spec _ AP) as [M0 M1]. fold m in M0, M1.
  assert (DP : (0 <= m / b)%Z) by (apply Z.div_pos; lia).
  exists (inject_Z (sgn q * m) * Qpower 10 (0 - Z.of_nat k))%Q. split.
  - unfold read_num. rewrite take_sign_of by (apply str_pos_head; exact DP).
    rewrite take_str_pos by exact DP. rewrite dot_no_digit. cbn [String.append].
    rewrite <- (append_nil (pad k (m mod b))), take_pad, nil_no_digit.
    destruct (ndigits_spec _ DP) as [_ [_ N]].
    destruct (Z.eqb_spec (0 + Z.of_nat (ndigits (m / b)) + (0 + Z.of_nat k)) 0); [lia|].
    cbn [read_exponent]. f_equal. f_equal.
    f_equal. f_equal. fold b. rewrite Z.mod_mod by lia. assert (D := Z.div_mod m b ltac:(lia)). lia.
  - unfold to_decimals.
    change (Qpower 10 (0 - Z.of_nat k)) with (pow10 (- Z.of_nat k)).
    change (Qpower 10 (- Z.of_nat k)) with (pow10 (- Z.of_nat k)).
    assert (P := pow10_pos (- Z.of_nat k)). assert (PI := pow10_inv (Z.of_nat k)).
    rewrite inject_Z_mult.
    setoid_replace (inject_Z (sgn q) * inject_Z m * pow10 (- Z.of_nat k) - q)%Q
      with (inject_Z (sgn q) * ((inject_Z m - Qabs q * pow10 (Z.of_nat k)) * pow10 (- Z.of_nat k)))%Q.
    2:{ rewrite <- (sgn_abs q) at 2.
        setoid_replace (inject_Z (sgn q) * Qabs q)%Q with (inject_Z (sgn q) * Qabs q * (pow10 (Z.of_nat k) * pow10 (- Z.of_nat k)))%Q
          by (rewrite PI; ring). ring. }
    rewrite abs_sgn, Qabs_Qmult, (Qabs_pos (pow10 _)) by lra.
    apply Qmult_le_compat_r; [exact M1|lra].
Qed.

Lemma scientific_spec k q m e : (0 <= q)%Q -> scientific k q = (m, e) ->
  (0 <= m < 10 ^ Z.of_nat (S k))%Z /\
  (Qabs (inject_Z m * pow10 (e - Z.of_nat k) - q) <= q * ((1 # 2) * pow10 (- Z.of_nat k)))%Q.
Proof.
  intros H. unfold scientific. destruct (Qeq_bool q 0) eqn:E0.
  - intros E. injection E as <- <-. apply Qeq_bool_iff in E0.
    assert (P : (0 < 10 ^ Z.of_nat (S k))%Z) by (apply Z.pow_pos_nonneg; lia).
    split; [lia|]. rewrite E0. change (inject_Z 0) with 0%Q.
    setoid_replace (0 * pow10 (0 - Z.of_nat k) - 0)%Q with 0%Q by ring. setoid_replace (0 * ((1 # 2) * pow10 (- Z.of_nat k)))%Q with 0%Q by ring.
    apply Qle_refl.
  - assert (NZ : ~ (q == 0)%Q) by (intros C; apply Qeq_bool_iff in C; congruence).
    assert (QP : (0 < q)%Q) by (destruct (Qlt_le_dec 0 q) as [L|L]; [exact L|exfalso; apply NZ; apply Qle_antisym; auto]).
    destruct (exponent_spec q QP) as [X1 X2]. set (x := exponent q) in *.
    set (s := (q * pow10 (Z.of_nat k - x))%Q).
    assert (SP : (0 <= s)%Q) by (unfold s; apply Qmult_le_0_compat; [exact H|apply Qlt_le_weak, pow10_pos]).
    destruct (round_even_spec s SP) as [M0 M1].
    assert (S1 : (inject_Z (10 ^ Z.of_nat k) <= s)%Q).
    { rewrite pow10_Z by lia. unfold s.
      setoid_replace (pow10 (Z.of_nat k)) with (pow10 x * pow10 (Z.of_nat k - x))%Q by (rewrite <- pow10_plus; f_equiv; lia).
      apply Qmult_le_compat_r; [exact X1|apply Qlt_le_weak, pow10_pos]. }
    assert (S2 : (s <= inject_Z (10 ^ Z.of_nat (S k)))%Q).
    { rewrite pow10_Z by lia. unfold s.
      setoid_replace (pow10 (Z.of_nat (S k))) with (pow10 (x + 1) * pow10 (Z.of_nat k - x))%Q by (rewrite <- pow10_plus; f_equiv; lia).
      apply Qmult_le_compat_r; [lra|apply Qlt_le_weak, pow10_pos]. }
    assert (L1 := round_even_ge s _ SP S1). assert (L2 := round_even_le s _ SP S2).
    assert (P1 : (0 < 10 ^ Z.of_nat k)%Z) by (apply Z.pow_pos_nonneg; lia).
    assert (P2 : (10 ^ Z.of_nat (S k) = 10 * 10 ^ Z.of_nat k)%Z) by (rewrite Nat2Z.inj_succ, Z.pow_succ_r by lia; reflexivity).
    assert (ERR : (Qabs (inject_Z (round_even s) * pow10 (x - Z.of_nat k) - q) <= q * ((1 # 2) * pow10 (- Z.of_nat k)))%Q).
    { setoid_replace (inject_Z (round_even s) * pow10 (x - Z.of_nat k) - q)%Q
        with ((inject_Z (round_even s) - s) * pow10 (x - Z.of_nat k))%Q.
      2:{ assert (SI : (s * pow10 (x - Z.of_nat k) == q)%Q).
          { unfold s. rewrite <- Qmult_assoc, <- pow10_plus. replace (Z.of_nat k - x + (x - Z.of_nat k))%Z with 0%Z by lia.
            change (pow10 0) with 1%Q. ring. }
          rewrite <- SI at 1. generalize (inject_Z (round_even s)) s (pow10 (x - Z.of_nat k)). intros. ring. }
      assert (PX := pow10_pos (x - Z.of_nat k)). rewrite Qabs_Qmult, (Qabs_pos (pow10 _)) by lra.
      assert (PX' : (pow10 (x - Z.of_nat k) == pow10 x * pow10 (- Z.of_nat k))%Q) by (rewrite <- pow10_plus; f_equiv; lia).
      assert (PK := pow10_pos (- Z.of_nat k)).
      apply Qle_trans with ((1 # 2) * pow10 (x - Z.of_nat k))%Q.
      - apply Qmult_le_compat_r; [exact M1|lra].
      - rewrite PX'. setoid_replace (q * ((1 # 2) * pow10 (- Z.of_nat k)))%Q with ((1 # 2) * (q * pow10 (- Z.of_nat k)))%Q by ring.
        apply Qmult_le_l; [reflexivity|]. apply Qmult_le_compat_r; [exact X1|lra]. }
    fold s. destruct (Z.eqb_spec (round_even s) (10 ^ Z.of_nat (S k))) as [Em|Nm]; intros E; injection E as <- <-.
    + split; [lia|]. rewrite Em in ERR. rewrite P2, inject_Z_mult in ERR.
      setoid_replace (inject_Z (10 ^ Z.of_nat k) * pow10 (x + 1 - Z.of_nat k))%Q
        with (inject_Z 10 * inject_Z (10 ^ Z.of_nat k) * pow10 (x - Z.of_nat k))%Q; [exact ERR|].
      replace (x + 1 - Z.of_nat k)%Z with (1 + (x - Z.of_nat k))%Z by lia. rewrite pow10_plus.
      change (pow10 1) with (inject_Z 10). ring.
    + split; [lia|]. exact ERR.
Qed.

Lemma read_str_exp e : read_exponent ("e" ++ str_exp e) = Some e.
Proof.
  assert (A : exists s, str_exp e = (if (e <? 0)%Z then "-" else "+") ++ s /\
               exists n, (0 < n)%Z /\ take_digits s 0 0 = (Z.abs e, n, "")).
  { unfold str_exp. eexists. split; [reflexivity|]. cbv zeta. destruct (Z.ltb_spec (Z.abs e) 10) as [L|L].
    - exists 2%Z. split; [lia|]. rewrite <- (append_nil (pad 2 _)), take_pad, nil_no_digit.
      change (Z.of_nat 2) with 2%Z. rewrite Z.mod_small by (change (10 ^ 2)%Z with 100%Z; lia). reflexivity.
    - destruct (ndigits_spec (Z.abs e) ltac:(lia)) as [_ [_ N]].
      exists (Z.of_nat (ndigits (Z.abs e))). split; [lia|].
      rewrite <- (append_nil (str_pos _)), take_str_pos, nil_no_digit by lia.
      f_equal. }
  destruct A as [s [-> [n [N T]]]]. cbn [String.append read_exponent].
  destruct (Z.ltb_spec e 0); cbn [String.append take_sign]; rewrite T; cbn [Ascii.eqb Bool.eqb orb];
    (destruct (Z.ltb_spec 0 n); [|lia]); cbn [andb String.eqb]; f_equal; lia.
Qed.

Lemma read_sci k q : exists v, read_num (sci k q) = Some v /\ to_digits (Z.of_nat k) q v.
Proof.
  unfold sci. destruct (scientific k (Qabs q)) as [m e] eqn:S.
  destruct (scientific_spec _ _ _ _ (Qabs_nonneg q) S) as [M E].
  set (b := (10 ^ Z.of_nat k)%Z).
  assert (BP : (0 < b)%Z) by (apply Z.pow_pos_nonneg; lia).
  assert (B10 : (10 ^ Z.of_nat (Datatypes.S k) = 10 * b)%Z) by (rewrite Nat2Z.inj_succ, Z.pow_succ_r by lia; reflexivity).
  assert (DM := Z.div_mod m b ltac:(lia)). assert (MB := Z.mod_pos_bound m b BP).
  assert (DB : (0 <= m / b < 10)%Z).
  { split; [apply Z.div_pos; lia|]. apply Z.div_lt_upper_bound; lia. }
  exists (inject_Z (sgn q * m) * Qpower 10 (e - Z.of_nat k))%Q. split.
  - unfold read_num. rewrite take_sign_of by (apply digit_head; exact DB).
    rewrite take_digit by exact DB. rewrite dot_no_digit. cbn [String.append].
    rewrite take_pad. change (String "e" (str_exp e)) with ("e" ++ str_exp e). rewrite e_no_digit.
    destruct (Z.eqb_spec (0 + 1 + (0 + Z.of_nat k)) 0); [lia|].
    rewrite read_str_exp. f_equal. f_equal.
    f_equal. f_equal. fold b. rewrite Z.mod_mod by lia. lia.
  - unfold to_digits.
    change (Qpower 10 (e - Z.of_nat k)) with (pow10 (e - Z.of_nat k)).
    change (Qpower 10 (- Z.of_nat k)) with (pow10 (- Z.of_nat k)).
    rewrite inject_Z_mult.
    setoid_replace (inject_Z (sgn q) * inject_Z m * pow10 (e - Z.of_nat k) - q)%Q
      with (inject_Z (sgn q) * (inject_Z m * pow10 (e - Z.of_nat k) - Qabs q))%Q
      by (rewrite <- (sgn_abs q) at 2; ring).
    rewrite abs_sgn. exact E.
Qed.

Lemma read_str_nat n : exists v, read_num (str_int (Z.of_nat n)) = Some v /\ (v == inject_Z (Z.of_nat n))%Q.
Proof.
  unfold str_int. destruct (Z.ltb_spec (Z.of_nat n) 0); [lia|].
  exists (inject_Z (1 * Z.of_nat n) * Qpower 10 (0 - 0))%Q. split.
  - unfold read_num. rewrite <- (append_nil (str_pos _)), str_pos_head, take_str_pos, nil_no_digit by lia.
    destruct (ndigits_spec (Z.of_nat n) ltac:(lia)) as [_ [_ N]].
    destruct (Z.eqb_spec (0 + Z.of_nat (ndigits (Z.of_nat n)) + 0) 0); [lia|]. cbn [read_exponent]. reflexivity.
  - cbn [Z.sub Z.opp Z.add Qpower]. rewrite Z.mul_1_l. ring.
Qed.
