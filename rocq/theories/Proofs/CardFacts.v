(** Thermodynamic and transport data read back. *)
From Coq Require Import String Ascii List Bool Arith ZArith QArith Qabs Qpower Lqa Lia.
From Verif.Base Require Import Py Num XNum Paths Text.
From Verif.Model Require Import Chem Compare Chemkin.
From Verif.Spec Require Import TextSpec ChemkinSpec CardSpec.
From Verif.Proofs Require Import FormatFacts TextFacts WrapFacts ChemkinFacts.
Import ListNotations.
Local Open Scope string_scope.

(** ** Lengths *)
Lemma length_spaces n : String.length (spaces n) = n.
Proof. induction n; cbn; auto. Qed.
Lemma length_ljust w s : (String.length s <= w)%nat -> String.length (ljust w s) = w.
Proof. intros H. unfold ljust. rewrite length_app, length_spaces. lia. Qed.
Lemma length_rjust w s : (String.length s <= w)%nat -> String.length (rjust w s) = w.
Proof. intros H. unfold rjust. rewrite length_app, length_spaces. lia. Qed.
Lemma length_pad k n : String.length (pad k n) = k.
Proof. revert n. induction k as [|k IH]; intros n; [reflexivity|]. cbn [pad]. rewrite length_app, IH. cbn. lia. Qed.
Lemma ndigits_le n k : (0 <= n)%Z -> (1 <= k)%nat -> (n < 10 ^ Z.of_nat k)%Z -> (ndigits n <= k)%nat.
Proof.
  intros H K L. destruct (ndigits_spec n H) as [_ [A B]].
  destruct (Z.eq_dec n 0) as [->|N]; [cbn; exact K|].
  assert (P := A ltac:(lia)). destruct (le_lt_dec (ndigits n) k) as [Q|Q]; [exact Q|].
  exfalso. assert (10 ^ Z.of_nat k <= 10 ^ (Z.of_nat (ndigits n) - 1))%Z by (apply Z.pow_le_mono_r; lia). lia.
Qed.
Lemma length_sign q : (String.length (sign q) <= 1)%nat.
Proof. unfold sign. destruct (Qlt_bool q 0); cbn; lia. Qed.
Lemma sign_pos q : (0 <= q)%Q -> sign q = "".
Proof.
  intros H. unfold sign, Qlt_bool. apply Qle_bool_iff in H. rewrite H. reflexivity.
Qed.

Lemma fixed_length k q j : (1 <= j)%nat -> (Qabs q <= inject_Z (10 ^ Z.of_nat j - 1))%Q ->
  (String.length (fixed k q) <= String.length (sign q) + j + 1 + k)%nat.
Proof.
  intros J H. unfold fixed. set (b := (10 ^ Z.of_nat k)%Z).
  assert (BP : (0 < b)%Z) by (apply Z.pow_pos_nonneg; lia).
  set (m := round_even (Qabs q * pow10 (Z.of_nat k))).
  assert (AP : (0 <= Qabs q * pow10 (Z.of_nat k))%Q).
  { apply Qmult_le_0_compat; [apply Qabs_nonneg|]. apply Qlt_le_weak, pow10_pos. }
  assert (M : (m <= (10 ^ Z.of_nat j - 1) * b)%Z).
  { apply round_even_le; [exact AP|]. rewrite inject_Z_mult. unfold b. rewrite pow10_Z by lia.
    apply Qmult_le_compat_r; [exact H|apply Qlt_le_weak, pow10_pos]. }
  assert (M0 : (0 <= m)%Z) by (apply (round_even_spec _ AP)).
  assert (D : (0 <= m / b)%Z) by (apply Z.div_pos; lia).
  assert (D1 : (m / b <= 10 ^ Z.of_nat j - 1)%Z).
  { apply Z.div_le_upper_bound; lia. }
  assert (N := ndigits_le (m / b) j D J ltac:(lia)).
  rewrite !length_app, length_pad. unfold str_pos. rewrite length_pad. cbn [String.length]. lia.
Qed.

Lemma pow10_lt a b : (pow10 a < pow10 b)%Q -> (a < b)%Z.
Proof.
  intros H. destruct (Z_lt_le_dec a b) as [L|L]; [exact L|]. exfalso.
  assert (E : (pow10 a == pow10 b * pow10 (a - b))%Q) by (rewrite <- pow10_plus; f_equiv; lia).
  assert (1 <= pow10 (a - b))%Q.
  { rewrite <- pow10_Z by lia. change 1%Q with (inject_Z 1). rewrite <- Zle_Qle. assert (0 < 10 ^ (a - b))%Z by (apply Z.pow_pos_nonneg; lia). lia. }
  assert (P := pow10_pos b). nra.
Qed.
Lemma scientific_exponent k q m e : (0 <= q)%Q -> scientific k q = (m, e) ->
  (q == 0)%Q \/ (pow10 (-99) <= q /\ q < pow10 99)%Q -> (-99 <= e <= 99)%Z.
Proof.
  intros H E B. unfold scientific in E. destruct (Qeq_bool q 0) eqn:Z0.
  - injection E as _ <-. lia.
  - assert (NZ : ~ (q == 0)%Q) by (intros C; apply Qeq_bool_iff in C; congruence).
    destruct B as [B|[B1 B2]]; [contradiction|].
    assert (P : (0 < q)%Q) by (assert (X := pow10_pos (-99)); lra).
    destruct (exponent_spec q P) as [X1 X2].
    assert (Y1 : (exponent q < 99)%Z) by (apply pow10_lt; lra).
    assert (Y2 : (-99 < exponent q + 1)%Z) by (apply pow10_lt; lra).
    destruct (_ =? _)%Z in E; injection E as _ <-; lia.
Qed.
Lemma sci_length q k : (q == 0)%Q \/ (Qpower 10 (-99) <= Qabs q /\ Qabs q < Qpower 10 99)%Q ->
  (String.length (sci k q) <= k + 7)%nat.
Proof.
  intros B. unfold sci. destruct (scientific k (Qabs q)) as [m e] eqn:S.
  assert (E : (-99 <= e <= 99)%Z).
  { apply (scientific_exponent k (Qabs q) m e (Qabs_nonneg q) S). destruct B as [B|B]; [left; rewrite B; reflexivity|right; exact B]. }
  rewrite !length_app, length_pad. assert (SL := length_sign q). cbn [String.length digit].
  assert (XL : (String.length (str_exp e) <= 3)%nat).
  { unfold str_exp. rewrite length_app. destruct (e <? 0)%Z; cbn [String.length];
      (destruct (Z.ltb_spec (Z.abs e) 10); cbv zeta;
       [rewrite length_pad; lia|unfold str_pos; rewrite length_pad; assert (N := ndigits_le (Z.abs e) 2 ltac:(lia) ltac:(lia) ltac:(cbn; lia)); lia]). }
  lia.
Qed.

(** ** Columns *)
Lemma substring_shift pre i n s : String.substring (String.length pre + i) n (pre ++ s) = String.substring i n s.
Proof. induction pre as [|c pre IH]; [reflexivity|]. cbn [String.length Nat.add String.append String.substring]. exact IH. Qed.
Lemma substring_take f post : String.substring 0 (String.length f) (f ++ post) = f.
Proof.
  induction f as [|c f IH]; cbn [String.length String.append String.substring].
  - destruct post; reflexivity.
  - rewrite IH. reflexivity.
Qed.
Lemma columns_shift pre i j n s : (i = String.length pre + j)%nat -> columns i n (pre ++ s) = columns j n s.
Proof. intros ->. apply substring_shift. Qed.
Lemma columns_take f n post : String.length f = n -> columns 0 n (f ++ post) = f.
Proof. intros <-. apply substring_take. Qed.
Lemma num_field_shift pre i j n s : (i = String.length pre + j)%nat -> num_field i n (pre ++ s) = num_field j n s.
Proof. intros E. unfold num_field. rewrite (columns_shift pre i j n s E). reflexivity. Qed.
Lemma wide_shift pre k i j s : (i = String.length pre + j)%nat -> wide_fields k i (pre ++ s) = wide_fields k j s.
Proof.
  revert i j. induction k as [|k IH]; intros i j E; [reflexivity|]. cbn [wide_fields].
  rewrite (num_field_shift pre i j 15 s E), (IH (i + 15)%nat (j + 15)%nat) by lia. reflexivity.
Qed.
Lemma element_shift pre k i j s : (i = String.length pre + j)%nat -> element_fields k i (pre ++ s) = element_fields k j s.
Proof.
  revert i j. induction k as [|k IH]; intros i j E; [reflexivity|]. cbn [element_fields].
  rewrite (columns_shift pre i j 5 s E), (columns_shift pre i j 2 s E), (num_field_shift pre (i + 2) (j + 2) 3 s) by lia.
  rewrite (IH (i + 5)%nat (j + 5)%nat) by lia. reflexivity.
Qed.
Lemma words_rjust w s : token s -> words (rjust w s) = [s].
Proof. intros T. unfold rjust. rewrite words_spaces_l. apply words_token, T. Qed.
Lemma words_ljust w s : token s -> words (ljust w s) = [s].
Proof. intros T. unfold ljust. rewrite words_spaces_r. apply words_token, T. Qed.
Lemma num_field_rjust w s v post : token s -> (String.length s <= w)%nat -> read_num s = Some v ->
  num_field 0 w (rjust w s ++ post) = Some v.
Proof.
  intros T L R. unfold num_field. rewrite columns_take by (apply length_rjust; exact L). rewrite words_rjust by exact T. exact R.
Qed.
Lemma concat_cons x l : String.concat "" (x :: l) = x ++ String.concat "" l.
Proof. destruct l as [|y l]; [cbn [String.concat]; rewrite append_nil; reflexivity|reflexivity]. Qed.

(** ** Coefficients *)
Lemma coeffs_read l post : Forall two_digit_exponent l ->
  exists v, wide_fields (length l) 0 (coeff_text l ++ post) = Some v /\ Forall2 (shown (to_digits 8)) l v.
Proof.
  intros F. induction F as [|x l [q [-> B]] F [v [W P]]].
  - exists nil. split; [reflexivity|constructor].
  - destruct (read_sci 8 q) as [w [R D]]. exists (w :: v). split; [|constructor; [exists q; auto|exact P]].
    cbn [length wide_fields]. unfold coeff_text. cbn [map]. rewrite concat_cons, app_assoc_s. cbn [xsci xformat].
    assert (L : (String.length (sci 8 q) <= 15)%nat) by (apply (sci_length q 8 B)).
    rewrite (num_field_rjust 15 _ w) by (try exact (sci_token 8 q); assumption).
    rewrite (wide_shift _ _ (0 + 15) 0) by (rewrite length_rjust by exact L; reflexivity).
    fold (coeff_text l). rewrite W. reflexivity.
Qed.
Lemma coeffs_length l : Forall two_digit_exponent l -> String.length (coeff_text l) = (15 * length l)%nat.
Proof.
  intros F. induction F as [|x l [q [-> B]] F IH]; [reflexivity|].
  unfold coeff_text. cbn [map]. rewrite concat_cons, length_app. fold (coeff_text l). rewrite IH.
  rewrite length_rjust by (apply (sci_length q 8 B)). cbn [length]. lia.
Qed.

(** ** Composition *)
Lemma read_str_int z : exists v, read_num (str_int z) = Some v /\ (v == inject_Z z)%Q.
Proof.
  destruct (Z_lt_le_dec z 0) as [N|N].
  - unfold str_int. destruct (Z.ltb_spec z 0); [|lia].
    exists (inject_Z (-1 * - z) * Qpower 10 (0 - 0))%Q. split.
    + unfold read_num. cbn [String.append take_sign].
      rewrite <- (append_nil (str_pos _)), take_str_pos, nil_no_digit by lia.
      destruct (ndigits_spec (- z) ltac:(lia)) as [_ [_ D]].
      destruct (Z.eqb_spec (0 + Z.of_nat (ndigits (- z)) + 0) 0); [lia|]. cbn [read_exponent]. reflexivity.
    + cbn [Z.sub Z.opp Z.add Qpower]. replace (-1 * - z)%Z with z by lia. ring.
  - destruct (read_str_nat (Z.to_nat z)) as [v [R E]]. rewrite Z2Nat.id in R, E by exact N. eauto.
Qed.
Lemma str_int_token z : token (str_int z).
Proof.
  destruct (Z_lt_le_dec z 0) as [N|N].
  - unfold str_int. destruct (Z.ltb_spec z 0); [|lia]. split; [discriminate|]. rewrite free_app. split; [cbn; auto|apply pad_free].
  - rewrite <- (Z2Nat.id z N). apply str_nat_token.
Qed.
Lemma str_int_length z : (-99 <= z <= 999)%Z -> (String.length (str_int z) <= 3)%nat.
Proof.
  intros H. unfold str_int. destruct (Z.ltb_spec z 0); unfold str_pos.
  - rewrite length_app, length_pad. assert (N := ndigits_le (- z) 2 ltac:(lia) ltac:(lia) ltac:(cbn; lia)). cbn [String.length]. lia.
  - rewrite length_pad. assert (N := ndigits_le z 3 ltac:(lia) ltac:(lia) ltac:(cbn; lia)). lia.
Qed.
Lemma quot_integer q z : (q == inject_Z z)%Q -> Z.quot (Qnum q) (Zpos (Qden q)) = z.
Proof.
  intros H. unfold Qeq in H. cbn in H. rewrite Z.mul_1_r in H. rewrite H. apply Z.quot_mul. discriminate.
Qed.

Definition element_text (e : string * Q) : string :=
  ljust 2 (fst e) ++ rjust 3 (str_int (Z.quot (Qnum (snd e)) (Zpos (Qden (snd e))))).
Definition usable_element (e : string * Q) : Prop :=
  token (fst e) /\ (String.length (fst e) <= 2)%nat /\ exists z, (snd e == inject_Z z)%Q /\ (-99 <= z <= 999)%Z.
Lemma element_text_length e : usable_element e -> String.length (element_text e) = 5%nat.
Proof.
  intros [T [L [z [E B]]]]. unfold element_text. rewrite (quot_integer _ _ E), length_app, length_ljust, length_rjust; [reflexivity| |exact L].
  apply str_int_length, B.
Qed.
Lemma composition_length c : Forall usable_element c -> String.length (composition_text c) = (5 * length c)%nat.
Proof.
  intros F. induction F as [|e c H F IH]; [reflexivity|].
  unfold composition_text. cbn [map]. rewrite concat_cons, length_app. fold (composition_text c). rewrite IH.
  change (ljust 2 (fst e) ++ rjust 3 (str_int (Z.quot (Qnum (snd e)) (Zpos (Qden (snd e)))))) with (element_text e).
  rewrite (element_text_length e H). cbn [length]. lia.
Qed.
Lemma blank_elements k post : element_fields k 0 (spaces (5 * k) ++ post) = Some nil.
Proof.
  induction k as [|k IH]; [reflexivity|]. cbn [element_fields].
  replace (5 * S k)%nat with (5 + 5 * k)%nat by lia.
  change (spaces (5 + 5 * k)) with (spaces 5 ++ spaces (5 * k)). rewrite app_assoc_s.
  rewrite columns_take by reflexivity. change (words (spaces 5)) with (@nil string). cbv iota.
  rewrite (element_shift (spaces 5) k (0 + 5) 0) by reflexivity. exact IH.
Qed.
Lemma elements_read c post k : Forall usable_element c -> (length c <= k)%nat ->
  exists v, element_fields k 0 ((composition_text c ++ spaces (5 * k - 5 * length c)) ++ post) = Some v /\
    Forall2 (fun e f => fst e = fst f /\ (snd e == snd f)%Q) c v.
Proof.
  intros F. revert k. induction F as [|e c H F IH]; intros k K.
  - exists nil. split; [|constructor]. cbn [length]. replace (5 * k - 5 * 0)%nat with (5 * k)%nat by lia.
    exact (blank_elements k post).
  - destruct k as [|k]; [cbn in K; lia|]. cbn [length] in K. destruct (IH k ltac:(lia)) as [v [V P]].
    destruct (read_str_int (Z.quot (Qnum (snd e)) (Zpos (Qden (snd e))))) as [x [R E]].
    exists ((fst e, x) :: v). assert (H' := H). destruct H' as [T [L [z [EZ B]]]].
    split; [|constructor; [|exact P]].
    2:{ cbn [fst snd]. split; [reflexivity|]. rewrite E, (quot_integer _ _ EZ). exact EZ. }
    unfold composition_text. cbn [map]. rewrite concat_cons. fold (composition_text c).
    change (ljust 2 (fst e) ++ rjust 3 (str_int (Z.quot (Qnum (snd e)) (Zpos (Qden (snd e)))))) with (element_text e).
    replace (5 * S k - 5 * length (e :: c))%nat with (5 * k - 5 * length c)%nat by (cbn [length]; lia).
    rewrite !app_assoc_s. rewrite <- (app_assoc_s (composition_text c)).
    set (rest := (composition_text c ++ spaces (5 * k - 5 * length c)) ++ post) in *.
    cbn [element_fields]. rewrite columns_take by (apply element_text_length, H).
    rewrite (element_shift (element_text e) k (0 + 5) 0) by (rewrite element_text_length by exact H; reflexivity).
    rewrite V.
    assert (LZ : (String.length (str_int (Z.quot (Qnum (snd e)) (Zpos (Qden (snd e))))) <= 3)%nat)
      by (rewrite (quot_integer _ _ EZ); apply str_int_length, B).
    assert (C2 : columns 0 2 (element_text e ++ rest) = ljust 2 (fst e)).
    { unfold element_text. rewrite app_assoc_s. apply columns_take. apply length_ljust, L. }
    assert (C3 : num_field (0 + 2) 3 (element_text e ++ rest) = Some x).
    { unfold element_text. rewrite app_assoc_s. rewrite (num_field_shift (ljust 2 (fst e)) (0 + 2) 0) by (rewrite length_ljust by exact L; reflexivity).
      apply num_field_rjust; [apply str_int_token|exact LZ|exact R]. }
    rewrite C2, C3, (words_ljust 2 (fst e) T).
    destruct (words (element_text e)) eqn:W; [|reflexivity].
    exfalso. unfold element_text, ljust in W. rewrite app_assoc_s in W.
    assert (Y : words (fst e ++ spaces (2 - String.length (fst e)) ++ rjust 3 (str_int (Z.quot (Qnum (snd e)) (Zpos (Qden (snd e))))) ++ " ") <> []).
    { intros Y. clear - T Y. destruct T as [NE T]. destruct (fst e) as [|ch s]; [contradiction|].
      cbn [String.append] in Y. unfold words in Y. cbn [split_on] in Y. cbn [free] in T. destruct T as [T _].
      unfold bad in T. apply orb_false_elim in T. destruct T as [T _]. rewrite T in Y.
      destruct (split_on is_blank _); discriminate. }
    apply Y. rewrite <- !app_assoc_s. change " " with (spaces 1). rewrite words_spaces_r. rewrite !app_assoc_s. exact W.
Qed.

(** ** Cards *)
Lemma temperature_text k j x : (1 <= j)%nat -> temperature (Z.of_nat j) x ->
  exists s v, xfixed k x = s /\ token s /\ (String.length s <= j + 1 + k)%nat /\ read_num s = Some v /\ shown (to_decimals (Z.of_nat k)) x v.
Proof.
  intros J [q [-> [B1 B2]]]. destruct (read_fixed k q) as [v [R D]]. exists (fixed k q), v.
  split; [reflexivity|]. split; [apply fixed_token|]. split; [|split; [exact R|exists q; auto]].
  assert (L := fixed_length k q j J). rewrite Qabs_pos in L by exact B1. specialize (L B2).
  rewrite (sign_pos q B1) in L. cbn [String.length] in L. lia.
Qed.

Definition ends_with (n : nat) (c : string) (l : string) : Prop := String.length l = 80%nat /\ columns 79 1 l = c.
Lemma end_column pre c : String.length pre = 79%nat -> String.length c = 1%nat -> String.length (pre ++ c) = 80%nat /\ columns 79 1 (pre ++ c) = c.
Proof.
  intros H1 H2. split; [rewrite length_app; lia|].
  rewrite (columns_shift pre 79 0) by lia. rewrite <- (append_nil c) at 1. apply columns_take. exact H2.
Qed.
Lemma slice_1 {A} (l : list A) n j : (n <= j)%nat -> slice l n j = firstn (j - n) (skipn n l).
Proof. reflexivity. Qed.
Lemma free_rjust p w s : p " "%char = false -> free p s -> free p (rjust w s).
Proof. intros P F. unfold rjust. rewrite free_app. split; [apply free_spaces, P|exact F]. Qed.
Lemma free_ljust p w s : p " "%char = false -> free p s -> free p (ljust w s).
Proof. intros P F. unfold ljust. rewrite free_app. split; [exact F|apply free_spaces, P]. Qed.
Lemma coeffs_newline l : Forall two_digit_exponent l -> free is_newline (coeff_text l).
Proof.
  intros F. unfold coeff_text. apply free_concat; [exact I|]. induction F as [|x l [q [-> B]] F IH]; [constructor|].
  cbn [map]. constructor; [|exact IH]. apply free_rjust; [reflexivity|]. apply token_free_newline, sci_token.
Qed.
Lemma composition_newline c : Forall usable_element c -> free is_newline (composition_text c).
Proof.
  intros F. unfold composition_text. apply free_concat; [exact I|]. induction F as [|x l [T _] F IH]; [constructor|].
  cbn [map]. constructor; [|exact IH]. rewrite free_app. split; [apply free_ljust|apply free_rjust]; try reflexivity;
    apply token_free_newline; [exact T|apply str_int_token].
Qed.

Ltac free_nl :=
  solve [ apply free_rjust; [reflexivity|apply token_free_newline; assumption]
        | apply coeffs_newline; assumption
        | apply free_spaces; reflexivity
        | cbn; auto ] || idtac.
Lemma card_ok s : fits_card s ->
  exists l1 l2 l3 l4 c, thermo_entry s = Ok (unlines [l1; l2; l3; l4] "") /\
    Forall (free is_newline) [l1; l2; l3; l4] /\ read_card l1 l2 l3 l4 = Some c /\ card_of s c.
Proof.
  intros [[TN LN] LE EL LO HI [mid [l [CE [LL [TM TD]]]]]].
  destruct (temperature_text 3 6 (cs_min s) ltac:(lia) LO) as [s1 [v1 [E1 [T1 [L1 [R1 S1]]]]]].
  destruct (temperature_text 3 6 (cs_max s) ltac:(lia) HI) as [s2 [v2 [E2 [T2 [L2 [R2 S2]]]]]].
  destruct (temperature_text 2 5 mid ltac:(lia) TM) as [s3 [v3 [E3 [T3 [L3 [R3 S3]]]]]].
  set (g1 := firstn 5 l). set (g2 := firstn 2 (skipn 5 l)). set (g3 := firstn 3 (skipn 7 l)). set (g4 := skipn 10 l).
  assert (GL : length g1 = 5%nat /\ length g2 = 2%nat /\ length g3 = 3%nat /\ length g4 = 4%nat).
  { unfold g1, g2, g3, g4. rewrite !firstn_length, !skipn_length. lia. }
  destruct GL as [G1 [G2 [G3 G4]]].
  assert (DEC : l = ((g1 ++ g2) ++ (g3 ++ g4))%list).
  { unfold g1, g2, g3, g4. destruct l as [|x0 [|x1 [|x2 [|x3 [|x4 [|x5 [|x6 [|x7 [|x8 [|x9 l]]]]]]]]]]; try discriminate LL. reflexivity. }
  assert (FD : Forall two_digit_exponent g1 /\ Forall two_digit_exponent g2 /\ Forall two_digit_exponent g3 /\ Forall two_digit_exponent g4).
  { rewrite DEC in TD. rewrite !Forall_app in TD. tauto. }
  destruct FD as [F1 [F2 [F3 F4]]].
  assert (SL : slice (mid :: l) 1 6 = g1 /\ slice (mid :: l) 6 8 = g2 /\ slice (mid :: l) 8 11 = g3 /\ slice (mid :: l) 11 15 = g4).
  { unfold g1, g2, g3, g4, slice.
    destruct l as [|x0 [|x1 [|x2 [|x3 [|x4 [|x5 [|x6 [|x7 [|x8 [|x9 [|x10 [|x11 [|x12 [|x13 [|x14 l]]]]]]]]]]]]]]]; try discriminate LL. repeat split. }
  destruct SL as [SL1 [SL2 [SL3 SL4]]].
  destruct (elements_read (cs_comp s) ("G" ++ rjust 10 s1 ++ rjust 10 s2 ++ rjust 8 s3 ++ spaces 6 ++ "1") 4 EL LE) as [el [RE PE]].
  destruct (coeffs_read g1 ("    " ++ "2") F1) as [w1 [W1 P1]].
  destruct (coeffs_read g2 (coeff_text g3 ++ "    " ++ "3") F2) as [w2 [W2 P2]].
  destruct (coeffs_read g3 ("    " ++ "3") F3) as [w3 [W3 P3]].
  destruct (coeffs_read g4 (spaces 19 ++ "4") F4) as [w4 [W4 P4]].
  assert (CL := composition_length (cs_comp s) EL).
  set (name := ljust 18 (cs_name s)) in *.
  assert (NL : String.length name = 18%nat) by (apply length_ljust, LN).
  assert (CW : ljust 20 (composition_text (cs_comp s)) = composition_text (cs_comp s) ++ spaces (5 * 4 - 5 * length (cs_comp s))).
  { unfold ljust. rewrite CL. reflexivity. }
  set (comp := ljust 20 (composition_text (cs_comp s))) in *.
  assert (CLen : String.length comp = 20%nat) by (apply length_ljust; lia).
  assert (RL1 : String.length (rjust 10 s1) = 10%nat) by (apply length_rjust; lia).
  assert (RL2 : String.length (rjust 10 s2) = 10%nat) by (apply length_rjust; lia).
  assert (RL3 : String.length (rjust 8 s3) = 8%nat) by (apply length_rjust; lia).
  set (l1 := name ++ spaces 6 ++ comp ++ "G" ++ rjust 10 s1 ++ rjust 10 s2 ++ rjust 8 s3 ++ spaces 6 ++ "1").
  set (l2 := coeff_text g1 ++ "    " ++ "2").
  set (l3 := coeff_text g2 ++ coeff_text g3 ++ "    " ++ "3").
  set (l4 := coeff_text g4 ++ spaces 19 ++ "4").
  exists l1, l2, l3, l4, (mkCard (cs_name s) el "G" v1 v2 v3 (w1 ++ w2) (w3 ++ w4)).
  assert (CG1 := coeffs_length g1 F1). assert (CG2 := coeffs_length g2 F2). assert (CG3 := coeffs_length g3 F3). assert (CG4 := coeffs_length g4 F4).
  rewrite G1 in CG1, W1. rewrite G2 in CG2, W2. rewrite G3 in CG3, W3. rewrite G4 in CG4, W4.
  split; [|split; [|split]].
  - unfold thermo_entry. rewrite CE. cbn [item nth_error bind]. rewrite SL1, SL2, SL3, SL4, E1, E2, E3.
    f_equal. unfold unlines. cbn [fold_right]. fold name comp. unfold l1, l2, l3, l4. rewrite !app_assoc_s. reflexivity.
  - constructor; [unfold l1|constructor; [unfold l2|constructor; [unfold l3|constructor; [unfold l4|constructor]]]];
      rewrite !free_app; repeat match goal with |- _ /\ _ => split end; free_nl.
    + apply free_ljust; [reflexivity|]. apply token_free_newline, TN.
    + apply free_ljust; [reflexivity|]. apply composition_newline, EL.
  - assert (Z1 : String.length l1 = 80%nat /\ columns 79 1 l1 = "1").
    { unfold l1. replace (name ++ spaces 6 ++ comp ++ "G" ++ rjust 10 s1 ++ rjust 10 s2 ++ rjust 8 s3 ++ spaces 6 ++ "1")
        with ((name ++ spaces 6 ++ comp ++ "G" ++ rjust 10 s1 ++ rjust 10 s2 ++ rjust 8 s3 ++ spaces 6) ++ "1") by (rewrite !app_assoc_s; reflexivity).
      apply end_column; [|reflexivity]. rewrite !length_app, NL, CLen, RL1, RL2, RL3. reflexivity. }
    assert (Z2 : String.length l2 = 80%nat /\ columns 79 1 l2 = "2").
    { unfold l2. rewrite <- app_assoc_s. apply end_column; [|reflexivity]. rewrite !length_app, CG1. reflexivity. }
    assert (Z3 : String.length l3 = 80%nat /\ columns 79 1 l3 = "3").
    { unfold l3. rewrite <- !app_assoc_s. apply end_column; [|reflexivity]. rewrite !length_app, CG2, CG3. reflexivity. }
    assert (Z4 : String.length l4 = 80%nat /\ columns 79 1 l4 = "4").
    { unfold l4. rewrite <- app_assoc_s. apply end_column; [|reflexivity]. rewrite !length_app, CG4. reflexivity. }
    destruct Z1 as [Z1 Z1']. destruct Z2 as [Z2 Z2']. destruct Z3 as [Z3 Z3']. destruct Z4 as [Z4 Z4'].
    unfold read_card. cbn [forallb fst snd]. rewrite Z1, Z1', Z2, Z2', Z3, Z3', Z4, Z4'. cbn [Nat.eqb andb String.eqb Ascii.eqb Bool.eqb].
    assert (C1 : words (columns 0 18 l1) = [cs_name s]).
    { unfold l1. rewrite columns_take by exact NL. apply words_ljust, TN. }
    assert (C2 : element_fields 4 24 l1 = Some el).
    { unfold l1. rewrite (element_shift name 4 24 6) by (rewrite NL; reflexivity).
      rewrite (element_shift (spaces 6) 4 6 0) by reflexivity. rewrite CW. exact RE. }
    assert (C3 : num_field 45 10 l1 = Some v1).
    { unfold l1. rewrite (num_field_shift name 45 27) by (rewrite NL; reflexivity).
      rewrite (num_field_shift (spaces 6) 27 21) by reflexivity.
      rewrite (num_field_shift comp 21 1) by (rewrite CLen; reflexivity).
      rewrite (num_field_shift "G" 1 0) by reflexivity. apply num_field_rjust; [exact T1|lia|exact R1]. }
    assert (C4 : num_field 55 10 l1 = Some v2).
    { unfold l1. rewrite (num_field_shift name 55 37) by (rewrite NL; reflexivity).
      rewrite (num_field_shift (spaces 6) 37 31) by reflexivity.
      rewrite (num_field_shift comp 31 11) by (rewrite CLen; reflexivity).
      rewrite (num_field_shift "G" 11 10) by reflexivity. rewrite (num_field_shift (rjust 10 s1) 10 0) by (rewrite RL1; reflexivity).
      apply num_field_rjust; [exact T2|lia|exact R2]. }
    assert (C5 : num_field 65 8 l1 = Some v3).
    { unfold l1. rewrite (num_field_shift name 65 47) by (rewrite NL; reflexivity).
      rewrite (num_field_shift (spaces 6) 47 41) by reflexivity.
      rewrite (num_field_shift comp 41 21) by (rewrite CLen; reflexivity).
      rewrite (num_field_shift "G" 21 20) by reflexivity. rewrite (num_field_shift (rjust 10 s1) 20 10) by (rewrite RL1; reflexivity).
      rewrite (num_field_shift (rjust 10 s2) 10 0) by (rewrite RL2; reflexivity).
      apply num_field_rjust; [exact T3|lia|exact R3]. }
    assert (C6 : columns 44 1 l1 = "G").
    { unfold l1. rewrite (columns_shift name 44 26) by (rewrite NL; reflexivity).
      rewrite (columns_shift (spaces 6) 26 20) by reflexivity.
      rewrite (columns_shift comp 20 0) by (rewrite CLen; reflexivity). apply columns_take. reflexivity. }
    rewrite C1, C2, C3, C4, C5, C6.
    assert (D1 : wide_fields 5 0 l2 = Some w1) by exact W1.
    assert (D2 : wide_fields 2 0 l3 = Some w2) by exact W2.
    assert (D3 : wide_fields 3 30 l3 = Some w3) by (unfold l3; rewrite (wide_shift (coeff_text g2) 3 30 0) by (rewrite CG2; reflexivity); exact W3).
    assert (D4 : wide_fields 4 0 l4 = Some w4) by exact W4.
    rewrite D1, D2, D3, D4. reflexivity.
  - constructor; cbn [cd_name cd_elements cd_phase cd_low cd_high cd_mid cd_upper cd_lower]; auto.
    exists mid, (g1 ++ g2)%list, (g3 ++ g4)%list. split; [rewrite CE, DEC; reflexivity|]. split; [exact S3|].
    rewrite !app_length, G1, G2, G3, G4. repeat split; apply Forall2_app; assumption.
Qed.

Lemma cards_ok l : Forall fits_card l ->
  exists ls cards, write_each thermo_entry l = (unlines ls "", Ok tt) /\ Forall (free is_newline) ls /\
    (forall rest, read_cards (ls ++ "END" :: rest) = Some cards) /\ Forall2 card_of l cards.
Proof.
  intros F. induction F as [|s l H F [ls [cards [W [N [R P]]]]]].
  - exists nil, nil. repeat split; constructor.
  - destruct (card_ok s H) as [l1 [l2 [l3 [l4 [c [E [FN [RC PC]]]]]]]].
    exists ([l1; l2; l3; l4] ++ ls)%list, (c :: cards). split; [|split; [|split]].
    + cbn [write_each]. rewrite E, W. rewrite unlines_app, (unlines_end [l1; l2; l3; l4] (unlines ls "")). reflexivity.
    + apply Forall_app. auto.
    + intros rest. cbn [app read_cards].
      destruct (String.eqb_spec l1 "END") as [X|X].
      { exfalso. rewrite X in RC. discriminate. }
      rewrite RC, (R rest). reflexivity.
    + constructor; assumption.
Qed.

Lemma thermo_reads l : Forall fits_card l ->
  exists text cards, thermo_text l = (text, Ok tt) /\ read_thermo text = Some cards /\ Forall2 card_of l cards.
Proof.
  intros F. destruct (cards_ok l F) as [ls [cards [W [N [R P]]]]].
  unfold thermo_text. rewrite W.
  eexists _, cards. split; [reflexivity|]. split; [|exact P].
  replace (("THERMO" ++ newline ++ "   300.000  1000.000  5000.000" ++ newline) ++ unlines ls "" ++ "END" ++ newline)
    with (unlines (["THERMO"; "   300.000  1000.000  5000.000"] ++ ls ++ ["END"]) "").
  2:{ rewrite !unlines_app. rewrite (unlines_end ls (unlines ["END"] "")). unfold unlines at 1. cbn [fold_right]. rewrite !app_assoc_s. reflexivity. }
  unfold read_thermo. rewrite lines_unlines.
  2:{ apply Forall_app; split; [repeat constructor|]. apply Forall_app; split; [exact N|repeat constructor]. }
  cbn [app]. change (String.eqb "THERMO" "THERMO") with true. cbv iota.
  rewrite <- app_assoc. cbn [app]. apply R.
Qed.

(** ** Transport *)
Lemma narrow_text x : narrow x ->
  exists s v, fixed 3 x = s /\ token s /\ (String.length s < 10)%nat /\ read_num s = Some v /\ to_decimals 3 x v.
Proof.
  intros N. destruct (read_fixed 3 x) as [v [R D]]. exists (fixed 3 x), v. split; [reflexivity|].
  split; [apply fixed_token|]. split; [|split; [exact R|exact D]].
  unfold narrow in N. destruct (Qlt_le_dec x 0) as [L|L].
  - assert (F := fixed_length 3 x 4 ltac:(lia)). rewrite Qabs_neg in F by lra.
    assert (B : (- x <= inject_Z (10 ^ Z.of_nat 4 - 1))%Q) by (change (inject_Z (10 ^ Z.of_nat 4 - 1)) with 9999%Q; lra).
    specialize (F B). assert (S := length_sign x). lia.
  - assert (F := fixed_length 3 x 5 ltac:(lia)). rewrite Qabs_pos in F by lra.
    assert (B : (x <= inject_Z (10 ^ Z.of_nat 5 - 1))%Q) by (change (inject_Z (10 ^ Z.of_nat 5 - 1)) with 99999%Q; lra).
    specialize (F B). rewrite (sign_pos x L) in F. cbn [String.length] in F. lia.
Qed.
Lemma rjust_sep w s : (String.length s < w)%nat -> exists n, (0 < n)%nat /\ rjust w s = spaces n ++ s.
Proof. intros H. exists (w - String.length s)%nat. split; [lia|reflexivity]. Qed.

Lemma shape_geometry g n : shape g = Some n -> exists d v, dget g geometries = Some d /\ token d /\ (String.length d < 4)%nat /\ read_num d = Some v /\ (v == n)%Q.
Proof.
  unfold shape, geometries. cbn [dget].
  destruct (String.eqb_spec g "atom") as [->|N1].
  { intros E. injection E as <-. exists "0", (inject_Z (1 * 0) * Qpower 10 (0 - 0))%Q. repeat split; try discriminate; cbn; auto. }
  destruct (String.eqb_spec g "linear") as [->|N2].
  { intros E. injection E as <-. exists "1", (inject_Z (1 * 1) * Qpower 10 (0 - 0))%Q. repeat split; try discriminate; cbn; auto; lia. }
  destruct (String.eqb_spec g "nonlinear") as [->|N3]; [|discriminate].
  intros E. injection E as <-. exists "2", (inject_Z (1 * 2) * Qpower 10 (0 - 0))%Q. repeat split; try discriminate; cbn; auto; lia.
Qed.

(** What the proofs need of the arithmetic. *)
Record converts_t (ar : arith) (conv : Q -> Q -> Prop) (ok : xnum -> Prop) (room : Q -> Prop) : Prop := {
  ct_kelvin : forall e, ok (Fin e) -> exists x, over ar (Fin e) (Fin boltzmann) = Fin x /\ conv (kelvin e) x;
  ct_angstrom : forall d, ok (Fin d) -> exists x, times ar (Fin d) (Fin (inject_Z (10 ^ 10))) = Fin x /\ conv (angstrom d) x;
  ct_debyes : forall m, ok (Fin m) -> exists x, over ar (Fin m) (Fin debye) = Fin x /\ conv (debyes m) x;
  ct_cubic : forall p, ok (Fin p) -> exists x, times ar (Fin p) (Fin (inject_Z (10 ^ 30))) = Fin x /\ conv (cubic_angstrom p) x;
  ct_room : forall x y, room x -> conv x y -> narrow y;
  ct_narrow : forall x, room x -> narrow x
}.
Lemma exact_converts_t fpow : converts_t (exact_arith fpow) Qeq (fun _ => True) narrow.
Proof.
  split; cbn [times over kilo exact_arith xmul xdiv]; intros.
  - change (Qeq_bool boltzmann 0) with false. eexists. split; [reflexivity|]. unfold kelvin, boltzmann. apply Qmult_comp; reflexivity.
  - eexists. split; [reflexivity|]. unfold angstrom, Qdiv. apply Qmult_comp; reflexivity.
  - change (Qeq_bool debye 0) with false. eexists. split; [reflexivity|]. unfold debyes, debye. apply Qmult_comp; reflexivity.
  - eexists. split; [reflexivity|]. unfold cubic_angstrom, Qdiv. apply Qmult_comp; reflexivity.
  - unfold narrow in *. rewrite <- H0. exact H.
  - assumption.
Qed.
Definition transport_scope (ok : xnum -> Prop) (s : cspecies) : Prop :=
  forall t a x, cs_transport s = Some t -> dget a t = Some (TNum x) -> ok x.

Section Transport.
Variable ar : arith.
Variable conv : Q -> Q -> Prop.
Variable ok : xnum -> Prop.
Variable room : Q -> Prop.
Hypothesis CT : converts_t ar conv ok room.
Notation transport_of := (transport_by conv).
Notation fits_transport := (fits_by room).

Lemma transport_ok s : fits_transport s -> transport_scope ok s ->
  exists l t, transport_entry ar s = Ok (unlines [l] "") /\ free is_newline l /\ words l <> nil /\ read_transport_line l = Some t /\ transport_of s t.
Proof.
  intros [TN [g [e [d [m [p [z [HT [SH [N1 [N2 [N3 [N4 N5]]]]]]]]]]]]] OK.
  destruct (shape g) as [sh|] eqn:SG; [|contradiction].
  destruct (shape_geometry g sh SG) as [gt [gv [DG [TG [LG [RG EG]]]]]].
  destruct HT as [t [HT0 [HT1 [HT2 [HT3 [HT4 [HT5 HT6]]]]]]].
  destruct (ct_kelvin _ _ _ _ CT e (OK t _ _ HT0 HT2)) as [c1 [X1 C1]].
  destruct (ct_angstrom _ _ _ _ CT d (OK t _ _ HT0 HT3)) as [c2 [X2 C2]].
  destruct (ct_debyes _ _ _ _ CT m (OK t _ _ HT0 HT4)) as [c3 [X3 C3]].
  destruct (ct_cubic _ _ _ _ CT p (OK t _ _ HT0 HT5)) as [c4 [X4 C4]].
  destruct (narrow_text _ (ct_room _ _ _ _ CT _ _ N1 C1)) as [s1 [v1 [E1 [T1 [L1 [R1 D1]]]]]].
  destruct (narrow_text _ (ct_room _ _ _ _ CT _ _ N2 C2)) as [s2 [v2 [E2 [T2 [L2 [R2 D2]]]]]].
  destruct (narrow_text _ (ct_room _ _ _ _ CT _ _ N3 C3)) as [s3 [v3 [E3 [T3 [L3 [R3 D3]]]]]].
  destruct (narrow_text _ (ct_room _ _ _ _ CT _ _ N4 C4)) as [s4 [v4 [E4 [T4 [L4 [R4 D4]]]]]].
  destruct (narrow_text z (ct_narrow _ _ _ _ CT z N5)) as [s5 [v5 [E5 [T5 [L5 [R5 D5]]]]]].
  exists (ljust 16 (cs_name s) ++ rjust 4 gt ++ rjust 10 s1 ++ rjust 10 s2 ++ rjust 10 s3 ++ rjust 10 s4 ++ rjust 10 s5).
  exists (cs_name s, [gv; v1; v2; v3; v4; v5]).
  destruct (rjust_sep 4 gt LG) as [n0 [P0 J0]]. destruct (rjust_sep 10 s1 L1) as [n1 [P1 J1]].
  destruct (rjust_sep 10 s2 L2) as [n2 [P2 J2]]. destruct (rjust_sep 10 s3 L3) as [n3 [P3 J3]].
  destruct (rjust_sep 10 s4 L4) as [n4 [P4 J4]]. destruct (rjust_sep 10 s5 L5) as [n5 [P5 J5]].
  assert (W : words (ljust 16 (cs_name s) ++ rjust 4 gt ++ rjust 10 s1 ++ rjust 10 s2 ++ rjust 10 s3 ++ rjust 10 s4 ++ rjust 10 s5)
              = [cs_name s; gt; s1; s2; s3; s4; s5]).
  { rewrite J0, J1, J2, J3, J4, J5. rewrite !app_assoc_s.
    rewrite words_spaces_m, words_ljust by assumption.
    repeat (rewrite words_spaces_m, words_token by assumption). rewrite words_token by assumption. reflexivity. }
  split; [|split; [|split; [|split]]].
  - unfold transport_entry, get_number, get_attr. rewrite HT0, HT1, HT2, HT3, HT4, HT5, HT6. cbn [attr bind].
    rewrite DG. cbn [bind]. rewrite X1, X2, X3, X4.
    cbn [xfixed xformat]. rewrite E1, E2, E3, E4, E5. f_equal. unfold unlines. cbn [fold_right]. rewrite !app_assoc_s. reflexivity.
  - rewrite !free_app. repeat match goal with |- _ /\ _ => split end; free_nl.
    apply free_ljust; [reflexivity|apply token_free_newline; exact TN].
  - rewrite W. discriminate.
  - unfold read_transport_line. rewrite W. cbn [read_nums]. rewrite RG, R1, R2, R3, R4, R5. reflexivity.
  - exists g, e, d, m, p, z, c1, c2, c3, c4, gv, v1, v2, v3, v4, v5. split; [exists t; repeat split; assumption|].
    split; [reflexivity|]. split; [exists sh; auto|]. repeat split; assumption.
Qed.

Lemma transport_reads l : Forall fits_transport l -> Forall (transport_scope ok) l ->
  exists text ts, transport_text ar l = (text, Ok tt) /\ read_transport text = Some ts /\ Forall2 transport_of l ts.
Proof.
  intros F SC. unfold transport_text, read_transport.
  assert (A : exists ls ts, write_each (transport_entry ar) l = (unlines ls "", Ok tt) /\ Forall (free is_newline) ls /\
                read_transport_lines (ls ++ [""]) = Some ts /\ Forall2 transport_of l ts).
  { revert SC. induction F as [|s l H F IH]; intros SC.
    - exists nil, nil. repeat split; constructor.
    - inversion_clear SC as [|? ? Ss Sl]. destruct (IH Sl) as [ls [ts [W [N [R P]]]]].
      destruct (transport_ok s H Ss) as [x [t [E [FN [WN [RT PT]]]]]]. exists (x :: ls), (t :: ts). split; [|split; [|split]].
      + cbn [write_each]. rewrite E, W. change (unlines (x :: ls) "") with (x ++ newline ++ unlines ls "").
        unfold unlines at 1. cbn [fold_right]. rewrite !app_assoc_s. reflexivity.
      + constructor; assumption.
      + cbn [app read_transport_lines]. destruct (words x); [contradiction|]. rewrite RT, R. reflexivity.
      + constructor; assumption. }
  destruct A as [ls [ts [W [N [R P]]]]]. exists (unlines ls ""), ts. split; [exact W|]. split; [|exact P].
  rewrite lines_unlines by exact N. exact R.
Qed.
End Transport.
