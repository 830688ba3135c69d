(** Sums of doubles from left to right: range, domination and error. *)
From Coq Require Import ZArith QArith Qpower Qreals Qabs Reals Lia Lra Psatz List Bool.
From Coq Require Floats.SpecFloat.
From Flocq Require Import Core BinarySingleNaN Relative Plus_error.
From Verif.Base Require Import B64 Num.
From Verif.Model Require Import FloatDrivers FloatMatrix.
From Verif.Spec Require Import FloatMatrixSpec.
From Verif.Proofs Require Import FloatFacts FloatArith.
Import ListNotations.
Local Open Scope R_scope.
Local Existing Instance prec53.
Local Existing Instance emax1024.

Notation u := ulp53.
Notation limb := (bpow radix2 900).
Definition eta : R := bpow radix2 (-1075).

Lemma u_pos : 0 < u. Proof. apply bpow_gt_0. Qed.
Lemma u_val : u = / 9007199254740992. Proof. unfold ulp53. simpl. lra. Qed.

Definition rsum (l : list R) : R := fold_right Rplus 0 l.

Definition okl (l : list b64) : Prop := forall x, In x l -> fin x /\ Rabs (rv x) <= limb.

Lemma big_limb k : (0 <= k <= 2 ^ 53)%Z -> IZR k * limb <= big.
Proof.
  intros H. replace big with (bpow radix2 100 * limb) by (rewrite <- bpow_plus; reflexivity).
  apply Rmult_le_compat_r; [apply bpow_ge_0|].
  apply Rle_trans with (IZR (2 ^ 53)); [apply IZR_le; lia|]. simpl. lra.
Qed.

Lemma add_range s x k : fin s -> fin x -> (0 <= k)%Z -> (k + 1 <= 2 ^ 53)%Z ->
  Rabs (rv s) <= IZR k * limb -> Rabs (rv x) <= limb ->
  fin (b64_add s x) /\ rv (b64_add s x) = rnd (rv s + rv x) /\ Rabs (rv (b64_add s x)) <= IZR (k + 1) * limb.
Proof.
  intros Fs Fx K0 K1 Hs Hx.
  assert (Rabs (rv s + rv x) <= IZR (k + 1) * limb) as H.
  { rewrite plus_IZR. pose proof (Rabs_triang (rv s) (rv x)). lra. }
  destruct (fin_add s x Fs Fx) as [F E].
  { eapply Rle_trans; [exact H|]. apply big_limb. lia. }
  split; auto. split; auto. rewrite E. apply rnd_mono_abs; auto. apply multiple_format; lia.
Qed.

Lemma fold_fin : forall l s k, okl l -> fin s -> (0 <= k)%Z -> (k + Z.of_nat (length l) <= 2 ^ 53)%Z ->
  Rabs (rv s) <= IZR k * limb ->
  fin (fold_left b64_add l s) /\ Rabs (rv (fold_left b64_add l s)) <= IZR (k + Z.of_nat (length l)) * limb.
Proof.
  induction l as [|x l IH]; intros s k O F K0 K1 H; cbn [fold_left length].
  - rewrite Z.add_0_r. auto.
  - cbn [length] in K1. destruct (O x (or_introl eq_refl)) as [Fx Hx].
    destruct (add_range s x k) as (A & B & C); auto; try lia.
    replace (k + Z.of_nat (S (length l)))%Z with ((k + 1) + Z.of_nat (length l))%Z by lia.
    apply IH; auto; try lia. intros y Hy. apply O; simpl; auto.
Qed.

Lemma sum_fin l : okl l -> (Z.of_nat (length l) <= 2 ^ 53)%Z ->
  fin (b64_sum l) /\ Rabs (rv (b64_sum l)) <= IZR (Z.of_nat (length l)) * limb.
Proof.
  intros O L. unfold b64_sum. apply (fold_fin l (b64_of_Z 0) 0); auto; try lia.
  - exact I.
  - change (b64_of_Z 0) with fzero. rewrite fzero_rv, Rabs_R0. lra.
Qed.

(** A partial sum is dominated by the sum of larger, nonnegative terms. *)
Lemma fold_dom (f g : nat -> b64) (p : nat -> bool) : forall l s t k,
  okl (map f l) -> okl (map g l) -> fin s -> fin t -> (0 <= k)%Z ->
  (k + Z.of_nat (length l) <= 2 ^ 53)%Z -> Rabs (rv s) <= IZR k * limb -> Rabs (rv t) <= IZR k * limb ->
  (forall i, In i l -> 0 <= rv (g i)) -> (forall i, In i l -> p i = true -> rv (f i) <= rv (g i)) ->
  rv s <= rv t ->
  rv (fold_left b64_add (map f (filter p l)) s) <= rv (fold_left b64_add (map g l) t).
Proof.
  induction l as [|i l IH]; intros s t k Of Og Fs Ft K0 K1 Hs Ht G P H; cbn [map filter fold_left]; auto.
  cbn [length] in K1.
  assert (okl (map f l)) as Of' by (intros y Hy; apply Of; simpl; auto).
  assert (okl (map g l)) as Og' by (intros y Hy; apply Og; simpl; auto).
  destruct (Og (g i)) as [Fg Hg]; [simpl; auto|].
  destruct (add_range t (g i) k) as (A & B & C); auto; try lia.
  pose proof (G i (or_introl eq_refl)) as Gi.
  destruct (p i) eqn:Pi.
  - cbn [map fold_left]. destruct (Of (f i)) as [Ff Hf]; [simpl; auto|].
    destruct (add_range s (f i) k) as (A' & B' & C'); auto; try lia.
    apply IH with (k := (k + 1)%Z); auto; try lia.
    + intros j Hj. apply G; simpl; auto.
    + intros j Hj. apply P; simpl; auto.
    + rewrite B, B'. apply rnd_le. pose proof (P i (or_introl eq_refl) Pi). lra.
  - apply IH with (k := (k + 1)%Z); auto; try lia.
    + rewrite plus_IZR. pose proof (bpow_ge_0 radix2 900). lra.
    + intros j Hj. apply G; simpl; auto.
    + intros j Hj. apply P; simpl; auto.
    + rewrite B. rewrite <- (rnd_id (rv s)) by now apply fin_format. apply rnd_le. lra.
Qed.

Lemma fold_dom_neg (f g : nat -> b64) (p : nat -> bool) : forall l s t k,
  okl (map f l) -> okl (map g l) -> fin s -> fin t -> (0 <= k)%Z ->
  (k + Z.of_nat (length l) <= 2 ^ 53)%Z -> Rabs (rv s) <= IZR k * limb -> Rabs (rv t) <= IZR k * limb ->
  (forall i, In i l -> 0 <= rv (g i)) -> (forall i, In i l -> p i = true -> - rv (f i) <= rv (g i)) ->
  - rv s <= rv t ->
  - rv (fold_left b64_add (map f (filter p l)) s) <= rv (fold_left b64_add (map g l) t).
Proof.
  induction l as [|i l IH]; intros s t k Of Og Fs Ft K0 K1 Hs Ht G P H; cbn [map filter fold_left]; auto.
  cbn [length] in K1.
  assert (okl (map f l)) as Of' by (intros y Hy; apply Of; simpl; auto).
  assert (okl (map g l)) as Og' by (intros y Hy; apply Og; simpl; auto).
  destruct (Og (g i)) as [Fg Hg]; [simpl; auto|].
  destruct (add_range t (g i) k) as (A & B & C); auto; try lia.
  pose proof (G i (or_introl eq_refl)) as Gi.
  destruct (p i) eqn:Pi.
  - cbn [map fold_left]. destruct (Of (f i)) as [Ff Hf]; [simpl; auto|].
    destruct (add_range s (f i) k) as (A' & B' & C'); auto; try lia.
    apply IH with (k := (k + 1)%Z); auto; try lia.
    + intros j Hj. apply G; simpl; auto.
    + intros j Hj. apply P; simpl; auto.
    + rewrite B, B'. rewrite <- round_NE_opp. apply rnd_le. pose proof (P i (or_introl eq_refl) Pi). lra.
  - apply IH with (k := (k + 1)%Z); auto; try lia.
    + rewrite plus_IZR. pose proof (bpow_ge_0 radix2 900). lra.
    + intros j Hj. apply G; simpl; auto.
    + intros j Hj. apply P; simpl; auto.
    + rewrite B. rewrite <- (rnd_id (rv s)) by now apply fin_format. rewrite <- round_NE_opp. apply rnd_le. lra.
Qed.

Lemma sum_dom (f g : nat -> b64) p l : okl (map f l) -> okl (map g l) -> (Z.of_nat (length l) <= 2 ^ 53)%Z ->
  (forall i, In i l -> 0 <= rv (g i)) -> (forall i, In i l -> p i = true -> rv (f i) <= rv (g i)) ->
  rv (b64_sum (map f (filter p l))) <= rv (b64_sum (map g l)).
Proof.
  intros. unfold b64_sum. change (b64_of_Z 0) with fzero. apply fold_dom with (k := 0%Z); auto; try lia;
    try exact I; rewrite ?fzero_rv, ?Rabs_R0; lra.
Qed.

Lemma sum_dom_neg (f g : nat -> b64) p l : okl (map f l) -> okl (map g l) -> (Z.of_nat (length l) <= 2 ^ 53)%Z ->
  (forall i, In i l -> 0 <= rv (g i)) -> (forall i, In i l -> p i = true -> - rv (f i) <= rv (g i)) ->
  - rv (b64_sum (map f (filter p l))) <= rv (b64_sum (map g l)).
Proof.
  intros. unfold b64_sum. change (b64_of_Z 0) with fzero. apply fold_dom_neg with (k := 0%Z); auto; try lia;
    try exact I; rewrite ?fzero_rv, ?Rabs_R0; lra.
Qed.

(** The rounding error of a sum. *)
Lemma fold_err : forall l s k a A, okl l -> fin s -> (0 <= k)%Z -> (k + Z.of_nat (length l) <= 2 ^ 40)%Z ->
  Rabs (rv s) <= IZR k * limb -> Rabs a <= A -> Rabs (rv s - a) <= 2 * IZR k * u * A ->
  Rabs (rv (fold_left b64_add l s) - (a + rsum (map rv l))) <=
  2 * IZR (k + Z.of_nat (length l)) * u * (A + rsum (map (fun x => Rabs (rv x)) l)).
Proof.
  induction l as [|x l IH]; intros s k a A O F K0 K1 H HA E; cbn [fold_left length map].
  - simpl. rewrite Z.add_0_r, !Rplus_0_r. auto.
  - cbn [length] in K1. destruct (O x (or_introl eq_refl)) as [Fx Hx].
    destruct (add_range s x k) as (P & Q & C); auto; try lia.
    replace (k + Z.of_nat (S (length l)))%Z with ((k + 1) + Z.of_nat (length l))%Z by lia.
    cbn [rsum fold_right]. fold (rsum (map rv l)). fold (rsum (map (fun x => Rabs (rv x)) l)).
    replace (a + (rv x + rsum (map rv l))) with ((a + rv x) + rsum (map rv l)) by ring.
    replace (A + (Rabs (rv x) + rsum (map (fun x => Rabs (rv x)) l)))
      with ((A + Rabs (rv x)) + rsum (map (fun x => Rabs (rv x)) l)) by ring.
    apply IH; auto; try lia.
    + intros y Hy. apply O; simpl; auto.
    + pose proof (Rabs_triang a (rv x)). lra.
    + rewrite Q. destruct (plus_err (rv s) (rv x)) as [_ PE]; try now apply fin_format.
      set (r := rnd (rv s + rv x)) in *. pose proof u_pos as U.
      assert (IZR k * u <= / 8192) as KU.
      { rewrite u_val. apply Rle_trans with (IZR (2 ^ 40) * / 9007199254740992).
        - apply Rmult_le_compat_r; [lra|]. apply IZR_le. lia.
        - simpl. lra. }
      assert (0 <= IZR k) as KP by (apply IZR_le; lia).
      assert (0 <= A) as A0 by (pose proof (Rabs_pos a); lra).
      assert (Rabs (rv s + rv x) <= A + Rabs (rv x) + 2 * IZR k * u * A) as S1.
      { replace (rv s + rv x) with (a + ((rv s - a) + rv x)) by ring.
        pose proof (Rabs_triang a ((rv s - a) + rv x)). pose proof (Rabs_triang (rv s - a) (rv x)). lra. }
      replace (r - (a + rv x)) with ((r - (rv s + rv x)) + (rv s - a)) by ring.
      pose proof (Rabs_triang (r - (rv s + rv x)) (rv s - a)) as T.
      rewrite plus_IZR. pose proof (Rabs_pos (rv x)) as X0.
      assert (u * Rabs (rv s + rv x) <= u * (A + Rabs (rv x) + 2 * IZR k * u * A)) as S2
        by (apply Rmult_le_compat_l; lra).
      assert (2 * IZR k * u * A <= / 4096 * A) as S3 by (apply Rmult_le_compat_r; lra).
      assert (u * (2 * IZR k * u * A) <= u * (/ 4096 * A)) as S4 by (apply Rmult_le_compat_l; lra).
      assert (0 <= u * A) by (apply Rmult_le_pos; lra).
      assert (0 <= u * Rabs (rv x)) by (apply Rmult_le_pos; lra).
      assert (0 <= IZR k * (u * Rabs (rv x))) by (apply Rmult_le_pos; lra).
      replace (2 * (IZR k + 1) * u * (A + Rabs (rv x)))
        with (2 * IZR k * u * A + 2 * (IZR k * (u * Rabs (rv x))) + 2 * (u * A) + 2 * (u * Rabs (rv x))) by ring.
      lra.
Qed.

Lemma sum_err l : okl l -> (Z.of_nat (length l) <= 2 ^ 40)%Z ->
  Rabs (rv (b64_sum l) - rsum (map rv l)) <=
  2 * IZR (Z.of_nat (length l)) * u * rsum (map (fun x => Rabs (rv x)) l).
Proof.
  intros O L. pose proof (fold_err l fzero 0 0 0 O I) as H. unfold b64_sum. change (b64_of_Z 0) with fzero.
  rewrite !Rplus_0_l in H. apply H; try lia; rewrite ?fzero_rv, ?Rminus_0_r, ?Rabs_R0; lra.
Qed.

Lemma mul_err x : Rabs (rnd x - x) <= u * Rabs x + eta.
Proof.
  destruct (error_N_FLT radix2 (-1074) 53 ltac:(lia) (fun x => negb (Z.even x)) x) as (e & h & E & H & _ & ->).
  replace (x * (1 + e) + h - x) with (e * x + h) by ring.
  pose proof (Rabs_triang (e * x) h) as T. rewrite Rabs_mult in T.
  assert (/ 2 * bpow radix2 (- (53) + 1) = u) as U by (unfold ulp53; simpl; lra).
  assert (/ 2 * bpow radix2 (-1074) = eta) as N.
  { unfold eta. replace (/ 2) with (bpow radix2 (-1)) by (simpl; lra). rewrite <- bpow_plus. reflexivity. }
  rewrite U in E. rewrite N in H.
  assert (Rabs e * Rabs x <= u * Rabs x) by (apply Rmult_le_compat_r; [apply Rabs_pos|auto]). lra.
Qed.

Lemma unit_err x : Rabs x <= 1 -> Rabs (rnd x - x) <= u.
Proof.
  intros H. apply Rle_trans with (/ 2 * ulp radix2 fx 1).
  - apply Rle_trans with (/ 2 * ulp radix2 fx x).
    + apply error_le_half_ulp. auto with typeclass_instances.
    + apply Rmult_le_compat_l; [lra|]. apply ulp_le; auto with typeclass_instances.
      now rewrite (Rabs_pos_eq 1) by lra.
  - change 1 with (bpow radix2 0). rewrite ulp_bpow. unfold ulp53. simpl. lra.
Qed.
