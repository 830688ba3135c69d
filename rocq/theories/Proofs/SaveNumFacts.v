(** A double printed with 19 digits reads as the same double. *)
From Coq Require Import String Ascii ZArith QArith Qpower Qreals Qabs Reals Lia Lra List Bool.
From Coq Require Floats.SpecFloat.
From Flocq Require Import Core BinarySingleNaN Relative Plus_error.
From Verif.Base Require Import Num Text B64.
From Verif.Model Require Import FloatDrivers FloatMatrix SaveText.
From Verif.Spec Require Import TextSpec FloatMatrixSpec.
From Verif.Proofs Require Import FormatFacts FloatFacts FloatArith FloatMatrixFacts.
Import ListNotations.
Local Open Scope R_scope.
Local Existing Instance prec53.
Local Existing Instance emax1024.

(** ** The nearest double of a fraction *)
Lemma div_core_round s n d :
  let v := IZR (cond_Zopp s (Zpos n)) / IZR (Zpos d) in
  let z := let '(m, e, l) := SpecFloat.SFdiv_core_binary 53 1024 (Zpos n) 0 (Zpos d) 0 in
           SpecFloat.binary_round_aux 53 1024 s m e l in
  SpecFloat.valid_binary 53 1024 z = true /\
  if Rlt_bool (Rabs (rnd v)) (bpow radix2 1024)
  then SF2R radix2 z = rnd v /\ is_finite_SF z = true /\ sign_SF z = s
  else z = binary_overflow 53 1024 mode_NE s.
Proof.
  intros v z. assert (H := Bdiv_correct_aux 53 1024 _ _ mode_NE s n 0 false d 0).
  cbv zeta in H. rewrite xorb_false_r in H.
  unfold z. clear z. destruct (SpecFloat.SFdiv_core_binary 53 1024 (Zpos n) 0 (Zpos d) 0) as [[m e] l].
  rewrite aux_eq. unfold F2R in H. cbn [Fnum Fexp cond_Zopp] in H. rewrite !Rmult_1_r in H.
  exact H.
Qed.

Lemma same_float x z : SpecFloat.valid_binary 53 1024 x = true -> SpecFloat.valid_binary 53 1024 z = true ->
  is_finite_SF x = true -> is_finite_SF z = true -> SF2R radix2 x = SF2R radix2 z -> sign_SF x = sign_SF z -> x = z.
Proof.
  intros Vx Vz Fx Fz R S.
  rewrite <- (B2SF_SF2B 53 1024 x Vx), <- (B2SF_SF2B 53 1024 z Vz). f_equal.
  apply B2R_Bsign_inj; rewrite ?is_finite_SF2B, ?Bsign_SF2B; auto.
  rewrite <- !SF2R_B2SF, !B2SF_SF2B. exact R.
Qed.

(** ** Doubles that agree to 18 digits are equal *)
Lemma near_equal_pos r s : generic_format radix2 fx r -> generic_format radix2 fx s -> 0 < r ->
  Rabs (s - r) <= r * bpow radix2 (-56) -> s = r.
Proof.
  intros Fr Fs P D. apply Rabs_le_inv in D.
  assert (B : bpow radix2 (-53) = 8 * bpow radix2 (-56)) by exact (bpow_plus radix2 3 (-56)).
  assert (E : bpow radix2 (-56) <= / 8) by (rewrite <- (bpow_opp radix2 3 : bpow radix2 (-3) = / 8); apply bpow_le; lia).
  assert (EP := bpow_gt_0 radix2 (-56)).
  destruct (Rtotal_order s r) as [L|[L|L]]; [exfalso|exact L|exfalso].
  - assert (S0 : r / 2 < s) by nra.
    assert (H := succ_le_lt radix2 fx s r Fs Fr L). rewrite succ_eq_pos in H by lra.
    assert (U := ulp_FLT_gt radix2 (-1074) 53 s). rewrite Rabs_pos_eq in U by lra.
    change (- (53))%Z with (-53)%Z in U. rewrite B in U. nra.
  - assert (H := succ_le_lt radix2 fx r s Fr Fs L). rewrite succ_eq_pos in H by lra.
    assert (U := ulp_FLT_gt radix2 (-1074) 53 r). rewrite Rabs_pos_eq in U by lra.
    change (- (53))%Z with (-53)%Z in U. rewrite B in U. nra.
Qed.
Lemma near_equal r s : generic_format radix2 fx r -> generic_format radix2 fx s -> r <> 0 ->
  Rabs (s - r) <= Rabs r * bpow radix2 (-56) -> s = r.
Proof.
  intros Fr Fs N D. destruct (Rtotal_order r 0) as [L|[L|L]]; [|contradiction|].
  - rewrite (Rabs_left r) in D by exact L. enough (- s = - r) by lra.
    apply near_equal_pos; [apply generic_format_opp; exact Fr|apply generic_format_opp; exact Fs|lra|].
    replace (- s - - r) with (- (s - r)) by ring. rewrite Rabs_Ropp. exact D.
  - rewrite (Rabs_pos_eq r) in D by lra. apply near_equal_pos; [exact Fr|exact Fs|lra|exact D].
Qed.

(** The nearest double to something within half of that distance. *)
Lemma rnd_near r v : generic_format radix2 fx r -> r <> 0 ->
  Rabs (v - r) <= Rabs r * bpow radix2 (-57) -> rnd v = r.
Proof.
  intros Fr N D. destruct (round_N_pt radix2 fx (fun z => negb (Z.even z)) v) as [Fs M]. fold (rnd v) in *.
  specialize (M r Fr). apply near_equal; [exact Fr|exact Fs|exact N|].
  replace (rnd v - r) with ((rnd v - v) + (v - r)) by ring.
  eapply Rle_trans; [apply Rabs_triang|]. rewrite (Rabs_minus_sym r v) in M.
  assert (B : bpow radix2 (-56) = 2 * bpow radix2 (-57)) by exact (bpow_plus radix2 1 (-57)).
  rewrite B. lra.
Qed.

Lemma SF2R_rv x : SF2R radix2 x = rv x.
Proof.
  destruct x as [s|s| |s m e]; try (unfold rv; cbn [b64_val]; unfold Q2R; simpl; lra).
  rewrite rv_finite. reflexivity.
Qed.
Lemma valid_fin x : SpecFloat.valid_binary 53 1024 x = true -> is_finite_SF x = true -> fin x.
Proof. destruct x; simpl; auto; discriminate. Qed.
Lemma fin_valid x : fin x -> SpecFloat.valid_binary 53 1024 x = true /\ is_finite_SF x = true.
Proof. destruct x; simpl; auto; contradiction. Qed.

Lemma tenth18 : Q2R ((1 # 2) * Qpower 10 (-18)) <= bpow radix2 (-57).
Proof.
  change (bpow radix2 (-57)) with (/ IZR (2 ^ 57)). rewrite <- (Rmult_1_l (/ _)).
  replace (/ IZR (2 ^ 57)) with (Q2R (1 # 144115188075855872)) by (unfold Q2R; cbn [Qnum Qden]; change (2 ^ 57)%Z with 144115188075855872%Z; lra).
  rewrite Rmult_1_l. apply Qle_Rle. vm_compute. discriminate.
Qed.

Lemma below_top x : fin x -> Rabs (rv x) < bpow radix2 1024.
Proof.
  intros F. destruct (fin_is_b x F) as (b & Hb & Fb & Rb). rewrite <- Rb.
  apply abs_B2R_lt_emax.
Qed.

Lemma rv_sign s m e : rv (SpecFloat.S754_finite s m e) <> 0 /\ (rv (SpecFloat.S754_finite s m e) < 0 <-> s = true).
Proof.
  rewrite rv_finite. assert (P := bpow_gt_0 radix2 e). assert (M := IZR_lt 0 (Zpos m) eq_refl).
  destruct s; cbn [cond_Zopp]; [change (IZR (- Zpos m)) with (- IZR (Zpos m))%R || rewrite opp_IZR|]; split; try nra; split; intros H; try discriminate; try reflexivity; nra.
Qed.

(** ** A finite nonzero double *)
Lemma of_Q_near neg s m e v : fin (SpecFloat.S754_finite s m e) ->
  to_digits 18 (b64_val (SpecFloat.S754_finite s m e)) v ->
  b64_of_Q neg v = SpecFloat.S754_finite s m e.
Proof.
  intros F T. set (x := SpecFloat.S754_finite s m e) in *.
  assert (D : Rabs (Q2R v - rv x) <= Rabs (rv x) * bpow radix2 (-57)).
  { unfold to_digits in T. apply Qle_Rle in T. rewrite Q2R_mult in T.
    rewrite !Q2R_abs, Q2R_minus in T. fold (rv x) in T. change (- (18))%Z with (-18)%Z in T.
    assert (H := tenth18). assert (A := Rabs_pos (rv x)). nra. }
  destruct (rv_sign s m e) as [NZ SG]. fold x in NZ, SG.
  assert (FR : generic_format radix2 fx (rv x)) by (apply fin_format; exact F).
  assert (RN := rnd_near (rv x) (Q2R v) FR NZ D).
  assert (E : bpow radix2 (-57) <= / 8) by (rewrite <- (bpow_opp radix2 3 : bpow radix2 (-3) = / 8); apply bpow_le; lia).
  assert (EP := bpow_gt_0 radix2 (-57)).
  assert (LT : Rlt_bool (Rabs (rnd (Q2R v))) (bpow radix2 1024) = true).
  { apply Rlt_bool_true. rewrite RN. apply below_top, F. }
  destruct (fin_valid x F) as [Vx Fx].
  assert (DP : 0 < IZR (Zpos (Qden v))) by (apply IZR_lt; reflexivity).
  unfold b64_of_Q. destruct v as [[|n|n] d]; cbn [Qnum Qden] in *.
  - exfalso. unfold Q2R in D. cbn [Qnum Qden] in D. rewrite Rmult_0_l in D.
    replace (0 - rv x) with (- rv x) in D by ring. rewrite Rabs_Ropp in D.
    assert (0 < Rabs (rv x)) by (apply Rabs_pos_lt; exact NZ). nra.
  - assert (H := div_core_round false n d). cbv zeta in H.
    destruct (SpecFloat.SFdiv_core_binary 53 1024 (Zpos n) 0 (Zpos d) 0) as [[m' e'] l].
    change (IZR (cond_Zopp false (Zpos n)) / IZR (Zpos d)) with (Q2R (Zpos n # d)) in H. rewrite LT in H.
    destruct H as (Vz & Rz & Fz & Sz). symmetry. apply same_float; auto.
    + rewrite Rz, RN, SF2R_rv. reflexivity.
    + rewrite Sz. cbn [sign_SF x]. destruct s; [exfalso|reflexivity].
      assert (rv x < 0) as Hneg by (apply SG; reflexivity).
      assert (PV : 0 < Q2R (Zpos n # d)) by (unfold Q2R; cbn [Qnum Qden]; apply Rmult_lt_0_compat; [apply IZR_lt; reflexivity|apply Rinv_0_lt_compat; exact DP]).
      rewrite (Rabs_left (rv x)) in D by exact Hneg. rewrite Rabs_pos_eq in D by lra. nra.
  - assert (H := div_core_round true n d). cbv zeta in H.
    destruct (SpecFloat.SFdiv_core_binary 53 1024 (Zpos n) 0 (Zpos d) 0) as [[m' e'] l].
    change (IZR (cond_Zopp true (Zpos n)) / IZR (Zpos d)) with (Q2R (Zneg n # d)) in H. rewrite LT in H.
    destruct H as (Vz & Rz & Fz & Sz). symmetry. apply same_float; auto.
    + rewrite Rz, RN, SF2R_rv. reflexivity.
    + rewrite Sz. cbn [sign_SF x]. destruct s; [reflexivity|exfalso].
      assert (Hpos : 0 < rv x) by (destruct (Rtotal_order (rv x) 0) as [L|[L|L]]; [apply SG in L; discriminate|contradiction|lra]).
      assert (PV : Q2R (Zneg n # d) < 0) by (unfold Q2R; cbn [Qnum Qden]; assert (I := Rinv_0_lt_compat _ DP); assert (J := IZR_lt (Zneg n) 0 eq_refl); nra).
      rewrite (Rabs_pos_eq (rv x)) in D by lra. rewrite Rabs_left in D by lra. nra.
Qed.

(** ** Printed numbers *)
Local Open Scope string_scope.
Lemma sci_not_inf q : String.eqb (sci 18 q) "inf" = false /\ String.eqb (sci 18 q) "-inf" = false.
Proof.
  destruct (read_sci 18 q) as (v & R & _).
  split; apply String.eqb_neq; intros E; rewrite E in R; discriminate.
Qed.

Theorem read_print x : SpecFloat.valid_binary 53 1024 x = true -> read_b64 (print_b64 x) = x.
Proof.
  intros V. destruct x as [s|s| |s m e].
  - destruct s; vm_compute; reflexivity.
  - destruct s; reflexivity.
  - reflexivity.
  - assert (F : fin (SpecFloat.S754_finite s m e)) by exact V.
    cbn [print_b64]. unfold read_b64. destruct (sci_not_inf (b64_val (SpecFloat.S754_finite s m e))) as [A B].
    rewrite A, B. destruct (read_sci 18 (b64_val (SpecFloat.S754_finite s m e))) as (v & R & T). rewrite R.
    apply of_Q_near; [exact F|exact T].
Qed.

(** ** What is read is the nearest double *)
Lemma of_Q_nearest neg q : (Qabs q <= (2 # 1) ^ 1000)%Q ->
  fin (b64_of_Q neg q) /\ rv (b64_of_Q neg q) = rnd (Q2R q).
Proof.
  intros B. apply Qle_Rle in B. rewrite Q2R_abs, Q2R_pow2 in B.
  assert (LT := rnd_small (Q2R q) B). assert (DP : 0 < IZR (Zpos (Qden q))) by (apply IZR_lt; reflexivity).
  unfold b64_of_Q. destruct q as [[|n|n] d]; cbn [Qnum Qden] in *.
  - split; [exact I|]. rewrite rv_zero. unfold Q2R. cbn [Qnum Qden]. rewrite Rmult_0_l, round_0; [reflexivity|auto with typeclass_instances].
  - assert (H := div_core_round false n d). cbv zeta in H.
    destruct (SpecFloat.SFdiv_core_binary 53 1024 (Zpos n) 0 (Zpos d) 0) as [[m' e'] l].
    change (IZR (cond_Zopp false (Zpos n)) / IZR (Zpos d)) with (Q2R (Zpos n # d)) in H. rewrite LT in H.
    destruct H as (Vz & Rz & Fz & Sz). split; [apply valid_fin; assumption|]. rewrite <- SF2R_rv. exact Rz.
  - assert (H := div_core_round true n d). cbv zeta in H.
    destruct (SpecFloat.SFdiv_core_binary 53 1024 (Zpos n) 0 (Zpos d) 0) as [[m' e'] l].
    change (IZR (cond_Zopp true (Zpos n)) / IZR (Zpos d)) with (Q2R (Zneg n # d)) in H. rewrite LT in H.
    destruct H as (Vz & Rz & Fz & Sz). split; [apply valid_fin; assumption|]. rewrite <- SF2R_rv. exact Rz.
Qed.
Lemma read_nearest s q y : s <> "inf" -> s <> "-inf" -> read_num s = Some q -> (Qabs q <= (2 # 1) ^ 1000)%Q ->
  fin y -> fin (read_b64 s) /\ (Qabs (b64_val (read_b64 s) - q) <= Qabs (b64_val y - q))%Q.
Proof.
  intros NI NM R B F. unfold read_b64.
  rewrite (proj2 (String.eqb_neq _ _) NI), (proj2 (String.eqb_neq _ _) NM), R.
  destruct (of_Q_nearest (starts_minus s) q B) as [Fz Rz]. split; [exact Fz|].
  apply Rle_Qle. rewrite !Q2R_abs, !Q2R_minus. fold (rv (b64_of_Q (starts_minus s) q)). fold (rv y). rewrite Rz.
  destruct (round_N_pt radix2 fx (fun z => negb (Z.even z)) (Q2R q)) as [_ M].
  apply M, fin_format, F.
Qed.
