(** The PFA array in binary64: what the second loop computes, range and
    accuracy of the entries. *)
From Coq Require Import ZArith QArith Qpower Qreals Qabs Qminmax Reals Lia Lra Psatz List Bool Arith.
From Coq Require Floats.SpecFloat.
From Flocq Require Import Core BinarySingleNaN Relative Plus_error.
From Verif.Base Require Import B64 Num.
From Verif.Model Require Import Matrices FloatDrivers FloatMatrix FloatPfa.
From Verif.Spec Require Import MatrixSpec FloatMatrixSpec.
From Verif.Proofs Require Import NumFacts MatrixFacts FloatFacts FloatArith FloatSums FloatMatrixFacts FloatMatrixTop.
Import ListNotations.
Local Open Scope R_scope.

(** ** The loop over the intermediate species *)

Definition fshape (n : nat) (M : fmatrix) : Prop :=
  length M = n /\ forall i, (i < n)%nat -> length (nth i M nil) = n.

Lemma ftab_shape n f : fshape n (ftab n n f).
Proof.
  split; [unfold ftab; now rewrite map_length, seq_length|].
  intros i Hi. unfold ftab. rewrite nth_map_seq by auto. now rewrite map_length, seq_length.
Qed.

Lemma fset_shape n M i j v : fshape n M -> fshape n (fset M i j v).
Proof.
  intros [L R]. split; [unfold fset; now rewrite lset_length|].
  intros k Hk. unfold fset. destruct (Nat.eq_dec i k) as [->|N].
  - rewrite lset_nth_same by lia. rewrite lset_length. auto.
  - rewrite lset_nth_other by auto. auto.
Qed.

Lemma fget_fset n M i j v a b : fshape n M -> (i < n)%nat -> (j < n)%nat ->
  fget (fset M i j v) a b = if (Nat.eqb a i && Nat.eqb b j)%bool then v else fget M a b.
Proof.
  intros [L R] Hi Hj. unfold fget, fset. destruct (Nat.eqb_spec a i); subst; cbn [andb].
  - rewrite lset_nth_same by lia. destruct (Nat.eqb_spec b j); subst.
    + apply lset_nth_same. rewrite R; auto.
    + apply lset_nth_other. auto.
  - rewrite lset_nth_other by auto. reflexivity.
Qed.

(** An array with its diagonal cleared. *)
Definition off (p : nat -> nat -> b64) (a b : nat) : b64 := if Nat.eqb a b then fzero else p a b.

Definition through (p : nat -> nat -> b64) (a b k : nat) : b64 :=
  b64_sum (map (fun m => b64_mul (off p a m) (off p m b)) (seq 0 k)).

Lemma through_S p a b k : through p a b (S k) = b64_add (through p a b k) (b64_mul (off p a k) (off p k b)).
Proof. unfold through, b64_sum. rewrite seq_S, map_app, fold_left_app. reflexivity. Qed.

Definition cleared (n k : nat) (p : nat -> nat -> b64) (M : fmatrix) : Prop :=
  fshape n M /\ forall a b, (a < n)%nat -> (b < n)%nat ->
    fget M a b = if (Nat.eqb a b && Nat.ltb a k)%bool then fzero else p a b.

Lemma cleared_step n k p M : (k < n)%nat -> cleared n k p M -> cleared n (S k) p (fset (fset M k k fzero) k k fzero).
Proof.
  intros Hk [S H]. split; [now apply fset_shape, fset_shape|].
  intros a b Ha Hb. rewrite !(fget_fset n) by (auto; now apply fset_shape). rewrite H by auto.
  destruct (Nat.eqb_spec a k), (Nat.eqb_spec b k); cbn [andb]; subst.
  - rewrite Nat.eqb_refl. cbn [andb]. now rewrite (proj2 (Nat.ltb_lt k (Datatypes.S k)) ltac:(lia)).
  - now rewrite (proj2 (Nat.eqb_neq k b) ltac:(auto)).
  - now rewrite (proj2 (Nat.eqb_neq a k) ltac:(auto)).
  - destruct (Nat.eqb_spec a b); cbn [andb]; auto. subst.
    destruct (Nat.ltb_spec b k), (Nat.ltb_spec b (Datatypes.S k)); auto; lia.
Qed.

Lemma cleared_off n k p M a b : cleared n k p M -> (a < n)%nat -> (b < n)%nat -> (a < k \/ b < k)%nat ->
  fget M a b = off p a b.
Proof.
  intros [_ H] Ha Hb Hk. rewrite H by auto. unfold off. destruct (Nat.eqb_spec a b); cbn [andb]; auto.
  subst. now rewrite (proj2 (Nat.ltb_lt b k) ltac:(lia)).
Qed.

Record floop (n : nat) (p c : nat -> nat -> b64) (k : nat) (st : fpfa_arrays) : Prop := {
  fl_p1 : cleared n k p (fa_pro1 st);
  fl_c1 : cleared n k c (fa_con1 st);
  fl_p2 : forall a b, (a < n)%nat -> (b < n)%nat -> fget (fa_pro2 st) a b = through p a b k;
  fl_c2 : forall a b, (a < n)%nat -> (b < n)%nat -> fget (fa_con2 st) a b = through c a b k
}.

Lemma floop_step n p c k st : (k < n)%nat -> floop n p c k st -> floop n p c (S k) (fpfa_step n st k).
Proof.
  intros Hk []. pose proof (cleared_step n k p _ Hk fl_p3) as P. pose proof (cleared_step n k c _ Hk fl_c3) as C.
  unfold fpfa_step. constructor; cbn [fa_pro1 fa_con1 fa_pro2 fa_con2]; auto; intros a b Ha Hb; rewrite fget_ftab by auto;
    rewrite through_S.
  - rewrite fl_p4 by auto. now rewrite !(cleared_off n (S k) p _ _ _ P) by (auto; lia).
  - rewrite fl_c4 by auto. now rewrite !(cleared_off n (S k) c _ _ _ C) by (auto; lia).
Qed.

Lemma floop_all n p c k : (k <= n)%nat ->
  floop n p c k (fold_left (fpfa_step n) (seq 0 k)
    (mkFPfa (ftab n n p) (ftab n n c) (ftab n n (fun _ _ => fzero)) (ftab n n (fun _ _ => fzero)))).
Proof.
  induction k; intros H.
  - cbn [seq fold_left]. constructor; cbn [fa_pro1 fa_con1 fa_pro2 fa_con2].
    1,2: split; [apply ftab_shape|]; intros a b Ha Hb; rewrite fget_ftab by auto; now rewrite andb_false_r.
    all: intros a b Ha Hb; rewrite fget_ftab by auto; reflexivity.
  - rewrite seq_S, fold_left_app. apply floop_step; [lia|]. apply IHk. lia.
Qed.

(** ** Sums of doubles in [0,1] *)

Lemma IZR_format k : (0 <= k <= 2 ^ 53)%Z -> generic_format radix2 fx (IZR k).
Proof. intros H. pose proof (multiple_format k 0 H ltac:(lia)) as F. simpl bpow in F. now rewrite Rmult_1_r in F. Qed.

Definition within (x : b64) (k : Z) : Prop := fin x /\ 0 <= rv x <= IZR k.

Lemma add_within x y k l : within x k -> within y l -> (0 <= k + l <= 2 ^ 53)%Z ->
  within (b64_add x y) (k + l) /\ rv (b64_add x y) = rnd (rv x + rv y) /\
  Rabs (rv (b64_add x y) - (rv x + rv y)) <= u * IZR (k + l).
Proof.
  intros [Fx Bx] [Fy By] H. rewrite plus_IZR.
  assert (IZR (k + l) <= IZR (2 ^ 53)) as L by (apply IZR_le; lia). rewrite plus_IZR in L.
  destruct (fin_add x y Fx Fy) as [F V].
  { rewrite Rabs_pos_eq by lra. apply Rle_trans with (IZR (2 ^ 53)); [lra|].
    change (IZR (2 ^ 53)) with (bpow radix2 53). apply bpow_le. lia. }
  destruct (plus_err (rv x) (rv y)) as [_ E]; try now apply fin_format.
  assert (0 <= rnd (rv x + rv y) <= IZR k + IZR l) as B.
  { split.
    - rewrite <- (rnd_id 0) by apply generic_format_0. apply rnd_le. lra.
    - rewrite <- plus_IZR. rewrite <- (rnd_id (IZR (k + l))) by (apply IZR_format; lia).
      apply rnd_le. rewrite plus_IZR. lra. }
  split; [|split].
  - split; auto. now rewrite V, plus_IZR.
  - exact V.
  - rewrite V. eapply Rle_trans; [exact E|]. apply Rmult_le_compat_l; [apply Rlt_le, u_pos|].
    rewrite Rabs_pos_eq; lra.
Qed.

Lemma fold_within : forall l s k, (forall x, In x l -> within x 1) -> within s k -> (0 <= k)%Z ->
  (k + Z.of_nat (length l) <= 2 ^ 53)%Z -> within (fold_left b64_add l s) (k + Z.of_nat (length l)).
Proof.
  induction l as [|x l IH]; intros s k H S K0 K1; cbn [fold_left length] in *.
  - now rewrite Z.add_0_r.
  - replace (k + Z.of_nat (Datatypes.S (length l)))%Z with ((k + 1) + Z.of_nat (length l))%Z by lia.
    apply IH; try lia; [intros; apply H; simpl; auto|].
    apply add_within; auto; [apply H; simpl; auto|lia].
Qed.

Lemma sum_within l : (forall x, In x l -> within x 1) -> (Z.of_nat (length l) <= 2 ^ 53)%Z ->
  within (b64_sum l) (Z.of_nat (length l)).
Proof.
  intros H L. apply (fold_within l (b64_of_Z 0) 0); auto; try lia.
  split; [exact I|]. change (b64_of_Z 0) with fzero. rewrite fzero_rv. lra.
Qed.

Lemma unit_within x : unit_b64 x <-> within x 1.
Proof.
  unfold unit_b64, within, rv. split; intros [F [A B]]; split; auto; split.
  - apply Qle_Rle in A. now rewrite Q2R_0 in A.
  - apply Qle_Rle in B. replace (Q2R 1) with 1 in B by (unfold Q2R; simpl; lra). lra.
  - apply Rle_Qle. now rewrite Q2R_0.
  - apply Rle_Qle. replace (Q2R 1) with 1 by (unfold Q2R; simpl; lra). lra.
Qed.

Lemma mul_within x y : within x 1 -> within y 1 -> within (b64_mul x y) 1 /\
  Rabs (rv (b64_mul x y) - rv x * rv y) <= u.
Proof.
  intros [Fx Bx] [Fy By]. assert (0 <= rv x * rv y <= 1) as B by (split; nra).
  destruct (fin_mul x y Fx Fy) as [F V].
  { rewrite Rabs_pos_eq by lra. apply Rle_trans with 1; [lra|]. change 1 with (bpow radix2 0). apply bpow_le. lia. }
  split.
  - split; auto. rewrite V. apply (rnd_bounds _ 0); [lia|]. simpl. lra.
  - rewrite V. apply unit_err. rewrite Rabs_pos_eq; lra.
Qed.

Lemma okl_within l : (forall x, In x l -> within x 1) -> okl l.
Proof.
  intros H x Hx. destruct (H x Hx) as [F B]. split; auto. rewrite Rabs_pos_eq by lra.
  apply Rle_trans with 1; [lra|]. change 1 with (bpow radix2 0). apply bpow_le. lia.
Qed.

Lemma rsum_const {A} (c : R) (l : list A) : rsum (map (fun _ => c) l) = INR (length l) * c.
Proof.
  induction l as [|x l IH]; [simpl; lra|]. cbn [map length]. rewrite S_INR.
  change (c + rsum (map (fun _ => c) l) = (INR (length l) + 1) * c). rewrite IH. lra.
Qed.

Lemma through_within p a b k : (forall x y, unit_b64 (off p x y)) -> (Z.of_nat k <= 2 ^ 53)%Z ->
  within (through p a b k) (Z.of_nat k).
Proof.
  intros H L. unfold through.
  replace (Z.of_nat k) with (Z.of_nat (length (map (fun m => b64_mul (off p a m) (off p m b)) (seq 0 k))))
    by (now rewrite map_length, seq_length).
  apply sum_within; [|rewrite map_length, seq_length; auto].
  intros x Hx. apply in_map_iff in Hx. destruct Hx as (m & <- & _). apply mul_within; apply unit_within; auto.
Qed.

Lemma through_err p a b k (f : nat -> R) e : (forall x y, unit_b64 (off p x y)) -> (Z.of_nat k <= 2 ^ 40)%Z ->
  (forall m, (m < k)%nat -> Rabs (rv (off p a m) * rv (off p m b) - f m) <= e) ->
  Rabs (rv (through p a b k) - rsum (map f (seq 0 k))) <= INR k * (e + u) + 2 * INR k * INR k * u.
Proof.
  intros H L E. set (l := map (fun m => b64_mul (off p a m) (off p m b)) (seq 0 k)).
  assert (forall m, within (b64_mul (off p a m) (off p m b)) 1 /\
    Rabs (rv (b64_mul (off p a m) (off p m b)) - rv (off p a m) * rv (off p m b)) <= u) as W.
  { intros m. apply mul_within; apply unit_within; auto. }
  assert (forall x, In x l -> within x 1) as Wl.
  { intros x Hx. apply in_map_iff in Hx. destruct Hx as (m & <- & _). apply W. }
  assert (length l = k) as Ll by (unfold l; now rewrite map_length, seq_length).
  pose proof (sum_err l (okl_within l Wl)) as S. rewrite Ll in S. specialize (S L). rewrite <- INR_IZR_INZ in S.
  assert (rsum (map (fun x => Rabs (rv x)) l) <= INR k * 1) as T.
  { rewrite <- Ll, <- rsum_const. apply rsum_le. intros x Hx. destruct (Wl x Hx) as [_ B].
    rewrite Rabs_pos_eq; lra. }
  assert (Rabs (rsum (map rv l) - rsum (map f (seq 0 k))) <= INR k * (e + u)) as X.
  { unfold l. rewrite map_map, rsum_minus. eapply Rle_trans; [apply rsum_abs|].
    rewrite <- (seq_length k 0) at 2. rewrite <- rsum_const. apply rsum_le. intros m Hm. apply in_seq in Hm.
    destruct (W m) as [_ B]. specialize (E m ltac:(lia)).
    set (x := rv (b64_mul (off p a m) (off p m b))) in *. set (y := rv (off p a m) * rv (off p m b)) in *.
    replace (x - f m) with ((x - y) + (y - f m)) by ring.
    pose proof (Rabs_triang (x - y) (y - f m)). lra. }
  assert (2 * INR k * u * rsum (map (fun x => Rabs (rv x)) l) <= 2 * INR k * u * (INR k * 1)) as Y.
  { apply Rmult_le_compat_l; auto. pose proof (pos_INR k). pose proof u_pos. apply Rmult_le_pos; lra. }
  unfold through. fold l.
  replace (rv (b64_sum l) - rsum (map f (seq 0 k)))
    with ((rv (b64_sum l) - rsum (map rv l)) + (rsum (map rv l) - rsum (map f (seq 0 k)))) by ring.
  pose proof (Rabs_triang (rv (b64_sum l) - rsum (map rv l)) (rsum (map rv l) - rsum (map f (seq 0 k)))). lra.
Qed.

Lemma prod_err x y p q e : 0 <= x <= 1 -> 0 <= y <= 1 -> 0 <= p <= 1 -> 0 <= q <= 1 ->
  Rabs (x - p) <= e -> Rabs (y - q) <= e -> Rabs (x * y - p * q) <= 2 * e.
Proof.
  intros Hx Hy Hp Hq E1 E2. apply Rabs_le_inv in E1. apply Rabs_le_inv in E2.
  replace (x * y - p * q) with ((x - p) * y + p * (y - q)) by ring. apply Rabs_le.
  split; nra.
Qed.

(** ** First generation *)

Definition fmaxp (x : b64) : b64 := b64_max x fzero.
Definition fmaxn (x : b64) : b64 := b64_max (b64_opp x) fzero.

Lemma maxp_spec x : fin x -> fin (fmaxp x) /\ rv (fmaxp x) = rpos (rv x).
Proof.
  intros F. unfold fmaxp, rpos. rewrite Rmax_comm. rewrite <- fzero_rv. apply fin_max; auto. exact I.
Qed.
Lemma maxn_spec x : fin x -> fin (fmaxn x) /\ rv (fmaxn x) = rneg (rv x).
Proof.
  intros F. unfold fmaxn, rneg. destruct (fin_opp x F) as [F' V]. rewrite Rmax_comm. rewrite <- fzero_rv, <- V.
  apply fin_max; auto. exact I.
Qed.

Section Mod.
Variable K : fkinetics.
Hypothesis HM : moderate K.
Let n := nrx (exact K).

Definition all_of fphi a := b64_sum (map (fun i => fphi (fbase K a i)) (fvalid K)).
Definition part fphi a b := b64_add fzero (b64_sum (map (fun i => fphi (fbase K a i)) (fvalid_with K b))).
Definition pfa_den a := b64_max (all_of fmaxp a) (all_of fmaxn a).

Definition pro1 a b := fsafe_div (part fmaxp a b) (pfa_den a).
Definition con1 a b := fsafe_div (part fmaxn a b) (pfa_den a).

Lemma side phi fphi a b : (forall x, fin x -> fin (fphi x) /\ rv (fphi x) = phi (rv x)) ->
  (forall x, Rabs (phi x) <= Rabs x) -> (forall x, 0 <= phi x) ->
  fin (part fphi a b) /\ fin (all_of fphi a) /\ 0 <= rv (part fphi a b) <= rv (all_of fphi a) /\
  rv (part fphi a b) = rv (b64_sum (map (fun i => fphi (fbase K a i)) (fvalid_with K b))).
Proof.
  intros S A P. pose proof (valid_le K) as V. fold n in V. pose proof (with_le K b) as W.
  destruct (sum_ok K HM phi fphi a (fvalid_with K b) S A) as [F1 B1]; [fold n; lia|].
  destruct (sum_ok K HM phi fphi a (fvalid K) S A) as [F2 B2]; [fold n; lia|].
  destruct (add_zero _ F1 B1) as [F3 V3].
  assert (forall i, 0 <= rv (fphi (fbase K a i))) as NN.
  { intros i. destruct (base_fin K HM a i) as (F & _ & _). destruct (S _ F) as [_ E]. rewrite E. apply P. }
  split; [exact F3|]. split; [exact F2|]. split; [|exact V3]. unfold part, all_of. rewrite V3. split.
  - pose proof (sum_dom_neg (fun i => fphi (fbase K a i)) (fun _ => fzero) (fflag K b) (fvalid K)) as D.
    unfold fvalid_with. eapply Ropp_le_cancel. rewrite Ropp_0.
    replace 0 with (rv (b64_sum (map (fun _ => fzero) (fvalid K)))).
    + apply D; auto using valid53; [apply (phi_ok K HM phi fphi S A)| | |].
      * intros x Hx. apply in_map_iff in Hx. destruct Hx as (i & <- & _). split; [exact I|].
        rewrite fzero_rv, Rabs_R0. apply bpow_ge_0.
      * intros. rewrite fzero_rv. lra.
      * intros i _ _. rewrite fzero_rv. specialize (NN i). lra.
    + clear. induction (fvalid K) as [|x l IH]; [apply fzero_rv|exact IH].
  - unfold fvalid_with. apply sum_dom; auto using valid53.
    + apply (phi_ok K HM phi fphi S A).
    + apply (phi_ok K HM phi fphi S A).
    + intros. lra.
Qed.

Lemma den_facts a : fin (pfa_den a) /\ rv (pfa_den a) = Rmax (rv (all_of fmaxp a)) (rv (all_of fmaxn a)).
Proof.
  destruct (side rpos fmaxp a 0 maxp_spec pos_abs pos_nn) as (_ & F1 & _).
  destruct (side rneg fmaxn a 0 maxn_spec neg_abs neg_nn) as (_ & F2 & _). now apply fin_max.
Qed.

Lemma first_unit a b : unit_b64 (pro1 a b) /\ unit_b64 (con1 a b).
Proof.
  destruct (side rpos fmaxp a b maxp_spec pos_abs pos_nn) as (F1 & F1' & B1 & _).
  destruct (side rneg fmaxn a b maxn_spec neg_abs neg_nn) as (F2 & F2' & B2 & _).
  destruct (den_facts a) as [F3 V3].
  pose proof (Rmax_l (rv (all_of fmaxp a)) (rv (all_of fmaxn a))).
  pose proof (Rmax_r (rv (all_of fmaxp a)) (rv (all_of fmaxn a))).
  split; apply ratio_unit; auto; rewrite V3; lra.
Qed.

Lemma off_unit p : (forall a b, unit_b64 (p a b)) -> forall a b, unit_b64 (off p a b).
Proof. intros H a b. unfold off. destruct (Nat.eqb a b); auto. apply zero_unit. Qed.

Lemma first_err phi fphi qphi a b r :
  (forall x, fin x -> fin (fphi x) /\ rv (fphi x) = phi (rv x)) ->
  (forall x, Rabs (phi x) <= Rabs x) -> (forall x, 0 <= phi x) ->
  (forall x y, Rabs (phi x - phi y) <= Rabs (x - y)) ->
  (forall x, Q2R (qphi x) = phi (Q2R x)) -> (forall x, x == 0 -> qphi x == 0)%Q ->
  rv (all_of fphi a) <= rv (pfa_den a) ->
  rsum (map (fun i => phi (beta K a i)) (fvalid K)) <= Q2R (Qmax (PA (exact K) a) (CA (exact K) a)) ->
  is_ratio r (Qsum (fun i => if flag (exact K) b i then qphi (rate (exact K) a i) else 0%Q) n)
             (Qmax (PA (exact K) a) (CA (exact K) a)) ->
  (Q2R (Qmax (PA (exact K) a) (CA (exact K) a)) = 0 \/
   bpow radix2 (-900) <= Q2R (Qmax (PA (exact K) a) (CA (exact K) a))) ->
  Rabs (rv (fsafe_div (part fphi a b) (pfa_den a)) - Q2R r) <= (9 * INR n + 20) * u.
Proof.
  intros S A P Li Qp Q0 AD AQ R HD.
  pose proof (valid_le K) as V. fold n in V. pose proof (with_le K b) as W. pose proof u_pos as U. pose proof (pos_INR n) as N0.
  set (D := Q2R (Qmax (PA (exact K) a) (CA (exact K) a))) in *.
  assert (D = Rmax (Q2R (PA (exact K) a)) (Q2R (CA (exact K) a))) as ED by apply Q2R_max.
  pose proof (Rmax_l (Q2R (PA (exact K) a)) (Q2R (CA (exact K) a))) as M1.
  pose proof (Rmax_r (Q2R (PA (exact K) a)) (Q2R (CA (exact K) a))) as M2. rewrite <- ED in M1, M2.
  pose proof (tot_split K HM a) as TS.
  assert (tot K a <= 2 * D) as HT by lra.
  set (N := Q2R (Qsum (fun i => if flag (exact K) b i then qphi (rate (exact K) a i) else 0%Q) n)) in *.
  assert (N = rsum (map (fun i => phi (beta K a i)) (fvalid_with K b))) as EN.
  { unfold N, n. rewrite (sumR_with K HM).
    - f_equal. apply map_ext. intros i. apply Qp.
    - intros i H. apply Q0. now apply rate_zero. }
  destruct (side phi fphi a b S A P) as (F1 & F1' & B & E1).
  destruct (den_facts a) as [F2 E2].
  destruct HD as [Z|HD].
  - assert (tot K a = 0) as T0.
    { assert (0 <= tot K a) by (unfold tot; rewrite <- (rsum_zero (fun _ => 0) (fvalid K)) by auto; apply rsum_le; intros; apply Rabs_pos). lra. }
    assert (forall i, In i (fvalid K) -> beta K a i = 0) as BZ.
    { intros i Hi. pose proof (rsum_ge_one (fun i => Rabs (beta K a i)) (fvalid K) i (fun j _ => Rabs_pos _) Hi) as G.
      fold (tot K a) in G. rewrite T0 in G. destruct (Req_dec (beta K a i) 0) as [|X]; auto. apply Rabs_pos_lt in X. lra. }
    assert (rv (pfa_den a) = 0) as Dz.
    { rewrite E2. unfold all_of.
      rewrite (phi_sum_zero K HM rpos fmaxp maxp_spec pos_abs) by (auto; fold n; lia).
      rewrite (phi_sum_zero K HM rneg fmaxn maxn_spec neg_abs) by (auto; fold n; lia). apply Rmax_left. lra. }
    unfold fsafe_div. rewrite (proj2 (nz_false _ F2) Dz), fzero_rv, (zeroq _ _ _ R Z), Rminus_0_r, Rabs_R0.
    apply Rmult_le_pos; lra.
  - assert (0 < D) as D0 by (pose proof (bpow_gt_0 radix2 (-900)); lra).
    assert (0 <= N <= D) as HN.
    { rewrite EN. split.
      - rewrite <- (rsum_zero (fun _ => 0) (fvalid_with K b)) by auto. apply rsum_le; intros; apply P.
      - eapply Rle_trans; [|exact AQ]. apply rsum_filter_le. intros; apply P. }
    pose proof (final_err K _ eq_refl) as FE. eapply Rle_trans; [|exact FE].
    apply ratio_err with (N := N) (D := D); auto.
    + lra.
    + eapply mulq; eauto.
    + now apply eps_small.
    + rewrite E1, EN. apply (sum_bound K HM phi fphi a (fvalid_with K b) D S A Li); [fold n; lia| |exact HD].
      eapply Rle_trans; [now apply tot_with|auto].
    + rewrite E2, ED, (PA_R K HM), (CA_R K HM). rewrite <- (PA_R K HM), <- (CA_R K HM) at 2. rewrite <- ED. apply max_err.
      * apply (sum_bound K HM rpos fmaxp a (fvalid K) D maxp_spec pos_abs pos_lip); auto.
      * apply (sum_bound K HM rneg fmaxn a (fvalid K) D maxn_spec neg_abs neg_lip); auto.
Qed.

Lemma pro_err a b r :
  is_ratio r (Qsum (fun i => if flag (exact K) b i then pos (rate (exact K) a i) else 0%Q) n)
             (Qmax (PA (exact K) a) (CA (exact K) a)) ->
  (Q2R (Qmax (PA (exact K) a) (CA (exact K) a)) = 0 \/
   bpow radix2 (-900) <= Q2R (Qmax (PA (exact K) a) (CA (exact K) a))) ->
  Rabs (rv (pro1 a b) - Q2R r) <= (9 * INR n + 20) * u.
Proof.
  intros R HD. apply (first_err rpos fmaxp pos); auto using maxp_spec, pos_abs, pos_nn, pos_lip, Q2R_pos.
  - intros x H. now apply pos_0.
  - rewrite (proj2 (den_facts a)). apply Rmax_l.
  - rewrite <- (PA_R K HM), Q2R_max. apply Rmax_l.
Qed.

Lemma con_err a b r :
  is_ratio r (Qsum (fun i => if flag (exact K) b i then neg (rate (exact K) a i) else 0%Q) n)
             (Qmax (PA (exact K) a) (CA (exact K) a)) ->
  (Q2R (Qmax (PA (exact K) a) (CA (exact K) a)) = 0 \/
   bpow radix2 (-900) <= Q2R (Qmax (PA (exact K) a) (CA (exact K) a))) ->
  Rabs (rv (con1 a b) - Q2R r) <= (9 * INR n + 20) * u.
Proof.
  intros R HD. apply (first_err rneg fmaxn neg); auto using maxn_spec, neg_abs, neg_nn, neg_lip, Q2R_neg.
  - intros x H. rewrite neg_pos. apply pos_0. rewrite H. reflexivity.
  - rewrite (proj2 (den_facts a)). apply Rmax_r.
  - rewrite <- (CA_R K HM), Q2R_max. apply Rmax_r.
Qed.

(** ** Whole entries *)

Definition pfa_sum a b :=
  b64_add (b64_add (b64_add (pro1 a b) (con1 a b)) (through pro1 a b (fk_nsp K))) (through con1 a b (fk_nsp K)).

Lemma pfa_get a b : (a < fk_nsp K)%nat -> (b < fk_nsp K)%nat ->
  fget (f_pfa_matrix K) a b =
  match fvalid K with nil => fzero | _ => if Nat.eqb a b then fzero else pfa_sum a b end.
Proof.
  intros Ha Hb. unfold f_pfa_matrix. destruct (fvalid K) as [|v vs] eqn:V; [now rewrite fget_ftab|].
  rewrite <- V. rewrite fget_ftab0 by auto. destruct (Nat.eqb_spec a b) as [E|N]; auto.
  destruct (floop_all (fk_nsp K) pro1 con1 (fk_nsp K) (le_n _)).
  match goal with |- context [fold_left ?f ?l ?s0] =>
    change (fold_left f l s0) with (fold_left (fpfa_step (fk_nsp K)) (seq 0 (fk_nsp K))
      (mkFPfa (ftab (fk_nsp K) (fk_nsp K) pro1) (ftab (fk_nsp K) (fk_nsp K) con1)
         (ftab (fk_nsp K) (fk_nsp K) (fun _ _ => fzero)) (ftab (fk_nsp K) (fk_nsp K) (fun _ _ => fzero)))) end.
  rewrite fl_p4, fl_c4 by auto.
  rewrite (cleared_off _ _ _ _ _ _ fl_p3), (cleared_off _ _ _ _ _ _ fl_c3) by auto.
  unfold off. rewrite (proj2 (Nat.eqb_neq a b) N). reflexivity.
Qed.

Hypothesis HS : (Z.of_nat (fk_nsp K) <= 2 ^ 40)%Z.

Lemma gens a b : within (pro1 a b) 1 /\ within (con1 a b) 1 /\
  within (through pro1 a b (fk_nsp K)) (Z.of_nat (fk_nsp K)) /\
  within (through con1 a b (fk_nsp K)) (Z.of_nat (fk_nsp K)).
Proof.
  split; [apply unit_within, first_unit|]. split; [apply unit_within, first_unit|].
  split; (apply through_within; [apply off_unit; intros; apply first_unit|lia]).
Qed.

Lemma pfa_sum_facts a b : within (pfa_sum a b) (2 * Z.of_nat (fk_nsp K) + 2) /\
  Rabs (rv (pfa_sum a b) - (rv (pro1 a b) + rv (con1 a b) + rv (through pro1 a b (fk_nsp K)) +
    rv (through con1 a b (fk_nsp K)))) <= u * (3 * INR (fk_nsp K) + 6).
Proof.
  destruct (gens a b) as (G1 & G2 & G3 & G4). set (s := fk_nsp K) in *.
  destruct (add_within _ _ _ _ G1 G2 ltac:(lia)) as (W1 & _ & E1).
  destruct (add_within _ _ _ _ W1 G3 ltac:(lia)) as (W2 & _ & E2).
  destruct (add_within _ _ _ _ W2 G4 ltac:(lia)) as (W3 & _ & E3).
  split.
  - unfold pfa_sum. fold s. replace (2 * Z.of_nat s + 2)%Z with (1 + 1 + Z.of_nat s + Z.of_nat s)%Z by lia. exact W3.
  - unfold pfa_sum. fold s. rewrite !plus_IZR, <- INR_IZR_INZ in *.
    apply Rabs_le_inv in E1. apply Rabs_le_inv in E2. apply Rabs_le_inv in E3. apply Rabs_le. lra.
Qed.

Lemma pfa_within a b : (a < fk_nsp K)%nat -> (b < fk_nsp K)%nat ->
  within (fget (f_pfa_matrix K) a b) (2 * Z.of_nat (fk_nsp K) + 2).
Proof.
  intros Ha Hb. rewrite pfa_get by auto.
  assert (within fzero (2 * Z.of_nat (fk_nsp K) + 2)) as Z.
  { split; [exact I|]. rewrite fzero_rv. split; [lra|]. apply IZR_le. lia. }
  destruct (fvalid K); auto. destruct (Nat.eqb a b); auto. apply pfa_sum_facts.
Qed.

Lemma Qsum_R f k : Q2R (Qsum f k) = rsum (map (fun m => Q2R (f m)) (seq 0 k)).
Proof.
  assert (forall l x, rsum (l ++ [x]) = rsum l + x) as App.
  { intros l x. unfold rsum. induction l; simpl; lra. }
  induction k; [simpl; apply Q2R_0|]. cbn [Qsum]. rewrite Q2R_plus, IHk, seq_S, map_app. simpl map. now rewrite App.
Qed.

Lemma second_err p q a b e : (forall x y, unit_b64 (p x y)) -> (a < fk_nsp K)%nat -> (b < fk_nsp K)%nat -> a <> b ->
  (forall x y, (x < fk_nsp K)%nat -> (y < fk_nsp K)%nat -> x <> y -> 0 <= Q2R (q x y) <= 1 /\ Rabs (rv (p x y) - Q2R (q x y)) <= e) ->
  0 <= e ->
  Rabs (rv (through p a b (fk_nsp K)) - Q2R (second_gen (fk_nsp K) q a b)) <=
  INR (fk_nsp K) * (2 * e + u) + 2 * INR (fk_nsp K) * INR (fk_nsp K) * u.
Proof.
  intros Up Ha Hb Hab H He. unfold second_gen. rewrite Qsum_R. apply through_err; auto; [now apply off_unit|].
  intros m Hm. unfold off. rewrite (Nat.eqb_sym a m). destruct (Nat.eqb_spec m a) as [->|N1].
  - rewrite fzero_rv, Q2R_0, Rmult_0_l, Rminus_0_r, Rabs_R0. lra.
  - destruct (Nat.eqb_spec m b) as [->|N2].
    + rewrite fzero_rv, Q2R_0, Rmult_0_r, Rminus_0_r, Rabs_R0. lra.
    + rewrite Q2R_mult. destruct (H a m) as [B1 E1]; auto. destruct (H m b) as [B2 E2]; auto.
      apply prod_err; auto; apply unit_within; auto.
Qed.

Lemma pfa_err d r a b : indicator (exact K) d -> is_pfa (exact K) d r ->
  (forall x, (x < fk_nsp K)%nat -> Q2R (Qmax (PA (exact K) x) (CA (exact K) x)) = 0 \/
     bpow radix2 (-900) <= Q2R (Qmax (PA (exact K) x) (CA (exact K) x))) ->
  (a < fk_nsp K)%nat -> (b < fk_nsp K)%nat -> a <> b ->
  Rabs (rv (fget (f_pfa_matrix K) a b) - Q2R (r a b)) <=
  (4 * INR (fk_nsp K) + 2) * ((9 * INR n + 20) * u) +
  (4 * INR (fk_nsp K) * INR (fk_nsp K) + 5 * INR (fk_nsp K) + 6) * u.
Proof.
  intros HI (p & c & H1 & H2) NT Ha Hb Hab.
  assert (forall x y, (x < fk_nsp K)%nat -> (y < fk_nsp K)%nat -> x <> y ->
    is_ratio (p x y) (Qsum (fun i => if flag (exact K) y i then pos (rate (exact K) x i) else 0%Q) n)
             (Qmax (PA (exact K) x) (CA (exact K) x)) /\
    is_ratio (c x y) (Qsum (fun i => if flag (exact K) y i then neg (rate (exact K) x i) else 0%Q) n)
             (Qmax (PA (exact K) x) (CA (exact K) x))) as H1'.
  { intros x y Hx Hy Hxy. destruct (H1 x y Hx Hy Hxy) as [[A1 A2] [B1 B2]]. fold n in A2, B2. split; split; auto; intros Hz.
    - rewrite A2 by auto. apply Qsum_ext. intros i _.
      rewrite <- (pos_mul_ind (rate (exact K) x i)) by (destruct (flag (exact K) y i); auto).
      apply pos_wd. rewrite (indicator_flag (exact K) d y i HI). reflexivity.
    - rewrite B2 by auto. apply Qsum_ext. intros i _. rewrite !neg_pos.
      rewrite <- (pos_mul_ind (- rate (exact K) x i)) by (destruct (flag (exact K) y i); auto).
      apply pos_wd. rewrite (indicator_flag (exact K) d y i HI). ring. }
  set (e := (9 * INR n + 20) * u) in *. pose proof u_pos as U. pose proof (pos_INR n) as N0.
  assert (0 <= e) as He by (apply Rmult_le_pos; lra).
  assert (forall x y, (x < fk_nsp K)%nat -> (y < fk_nsp K)%nat -> x <> y ->
    (0 <= Q2R (p x y) <= 1 /\ Rabs (rv (pro1 x y) - Q2R (p x y)) <= e) /\
    (0 <= Q2R (c x y) <= 1 /\ Rabs (rv (con1 x y) - Q2R (c x y)) <= e)) as E.
  { intros x y Hx Hy Hxy. destruct (H1' x y Hx Hy Hxy) as [R1 R2].
    assert (forall q, (0 <= q <= 1)%Q -> 0 <= Q2R q <= 1) as B.
    { intros q [L1 L2]. apply Qle_Rle in L1. apply Qle_Rle in L2. rewrite Q2R_0 in L1.
      replace (Q2R 1) with 1 in L2 by (unfold Q2R; simpl; lra). lra. }
    split; split.
    - apply B. eapply pfa_first_bounds. exact R1.
    - apply pro_err; auto.
    - apply B. eapply pfa_first_bounds_c. exact R2.
    - apply con_err; auto. }
  rewrite pfa_get by auto. rewrite (proj2 (Nat.eqb_neq a b) Hab).
  rewrite (Qeq_eqR _ _ (H2 a b Ha Hb Hab)). rewrite !Q2R_plus. change (k_nsp (exact K)) with (fk_nsp K).
  set (s := fk_nsp K) in *.
  destruct (E a b Ha Hb Hab) as [[_ E1] [_ E2]].
  pose proof (second_err pro1 p a b e (fun x y => proj1 (first_unit x y)) Ha Hb Hab
    (fun x y Hx Hy Hxy => proj1 (E x y Hx Hy Hxy)) He) as E3.
  pose proof (second_err con1 c a b e (fun x y => proj2 (first_unit x y)) Ha Hb Hab
    (fun x y Hx Hy Hxy => proj2 (E x y Hx Hy Hxy)) He) as E4.
  fold s in E3, E4.
  destruct (pfa_sum_facts a b) as [_ E5]. fold s in E5.
  assert (Rabs (rv (pfa_sum a b) - (Q2R (p a b) + Q2R (c a b) + Q2R (second_gen s p a b) + Q2R (second_gen s c a b))) <=
    (4 * INR s + 2) * e + (4 * INR s * INR s + 5 * INR s + 6) * u) as G.
  { apply Rabs_le_inv in E1. apply Rabs_le_inv in E2. apply Rabs_le_inv in E3. apply Rabs_le_inv in E4.
    apply Rabs_le_inv in E5. apply Rabs_le. lra. }
  destruct (fvalid K) as [|v vs] eqn:V; [|exact G].
  (* without active reactions the sum of the zeros is what the formula gives *)
  assert (rv (pfa_sum a b) = 0) as Z.
  { assert (forall f x y, rv (fsafe_div (part f x y) (pfa_den x)) = 0) as Zf.
    { intros f x y. unfold fsafe_div, pfa_den, all_of. rewrite V. cbn [map].
      change (rv fzero = 0). apply fzero_rv. }
    assert (forall q k, (forall x y, rv (q x y) = 0) -> (forall x y, unit_b64 (q x y)) -> (k <= s)%nat -> rv (through q a b k) = 0) as Zt.
    { intros q k Hq Uq. induction k; intros Hk; [exact fzero_rv|]. rewrite through_S.
      assert (within (through q a b k) (Z.of_nat k)) as Wk by (apply through_within; [now apply off_unit|lia]).
      assert (forall x y, within (off q x y) 1) as Wo by (intros; apply unit_within; now apply off_unit).
      destruct (mul_within (off q a k) (off q k b) (Wo _ _) (Wo _ _)) as [[Fm Bm] _].
      assert (rv (b64_mul (off q a k) (off q k b)) = 0) as Mz.
      { destruct (Wo a k) as [Fa Ba]. destruct (Wo k b) as [Fb Bb].
        destruct (fin_mul _ _ Fa Fb) as [_ Vm].
        { rewrite Rabs_pos_eq by nra. apply Rle_trans with 1; [nra|]. change 1 with (bpow radix2 0). apply bpow_le. lia. }
        rewrite Vm. replace (rv (off q a k)) with 0.
        - rewrite Rmult_0_l. apply rnd_id, generic_format_0.
        - unfold off. destruct (Nat.eqb a k); [now rewrite fzero_rv|now rewrite Hq]. }
      destruct (add_within _ _ _ _ Wk (conj Fm Bm)) as (_ & Va & _); [lia|].
      rewrite Va, Mz, IHk by lia. rewrite Rplus_0_l. apply rnd_id, generic_format_0. }
    destruct (gens a b) as (G1 & G2 & G3 & G4). fold s in G3, G4.
    destruct (add_within _ _ _ _ G1 G2 ltac:(lia)) as (W1 & V1 & _).
    destruct (add_within _ _ _ _ W1 G3 ltac:(lia)) as (W2 & V2 & _).
    destruct (add_within _ _ _ _ W2 G4 ltac:(lia)) as (W3 & V3 & _).
    unfold pfa_sum. fold s. rewrite V3, V2, V1. unfold pro1 at 1, con1 at 1. rewrite !Zf.
    rewrite (Zt pro1 s), (Zt con1 s); auto; try (intros; apply Zf); try (intros; apply first_unit).
    repeat (rewrite Rplus_0_l, (rnd_id 0) by apply generic_format_0). reflexivity. }
  rewrite fzero_rv. now rewrite Z in G.
Qed.
End Mod.
