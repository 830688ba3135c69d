(** Range and accuracy of the entries of the two binary64 arrays. *)
From Coq Require Import ZArith QArith Qpower Qreals Qabs Qminmax Reals Lia Lra Psatz List Bool.
From Coq Require Floats.SpecFloat.
From Flocq Require Import Core BinarySingleNaN Relative Plus_error.
From Verif.Base Require Import B64 Num.
From Verif.Model Require Import Matrices FloatDrivers FloatMatrix.
From Verif.Spec Require Import MatrixSpec FloatMatrixSpec.
From Verif.Proofs Require Import NumFacts MatrixFacts FloatFacts FloatArith FloatSums FloatMatrixFacts.
Import ListNotations.
Local Open Scope R_scope.

Definition same {A} (x : A) : A := x.

Lemma id_spec (x : b64) : fin x -> fin (same x) /\ rv (same x) = same (rv x). Proof. auto. Qed.
Lemma id_abs (x : R) : Rabs (same x) <= Rabs x. Proof. unfold same. lra. Qed.
Lemma id_lip (x y : R) : Rabs (same x - same y) <= Rabs (x - y). Proof. unfold same. lra. Qed.

Lemma abs_abs x : Rabs (Rabs x) <= Rabs x. Proof. rewrite Rabs_Rabsolu. lra. Qed.
Lemma abs_lip x y : Rabs (Rabs x - Rabs y) <= Rabs (x - y). Proof. apply Rabs_triang_inv2. Qed.

Definition rpos (x : R) : R := Rmax 0 x.
Definition rneg (x : R) : R := Rmax 0 (- x).
Definition fpos (x : b64) : b64 := b64_max fzero x.
Definition fneg (x : b64) : b64 := b64_max fzero (b64_opp x).

Lemma pos_spec x : fin x -> fin (fpos x) /\ rv (fpos x) = rpos (rv x).
Proof. intros F. unfold fpos, rpos. rewrite <- fzero_rv. apply fin_max; auto. exact I. Qed.
Lemma neg_spec x : fin x -> fin (fneg x) /\ rv (fneg x) = rneg (rv x).
Proof.
  intros F. unfold fneg, rneg. destruct (fin_opp x F) as [F' V]. rewrite <- fzero_rv, <- V. apply fin_max; auto. exact I.
Qed.

Lemma pos_abs x : Rabs (rpos x) <= Rabs x.
Proof. unfold rpos, Rmax. destruct (Rle_dec 0 x); [lra|]. rewrite Rabs_R0. apply Rabs_pos. Qed.
Lemma neg_abs x : Rabs (rneg x) <= Rabs x.
Proof. unfold rneg. rewrite <- (Rabs_Ropp x). apply pos_abs. Qed.
Lemma pos_lip x y : Rabs (rpos x - rpos y) <= Rabs (x - y).
Proof.
  unfold rpos, Rmax. destruct (Rle_dec 0 x), (Rle_dec 0 y); unfold Rabs; repeat destruct Rcase_abs; lra.
Qed.
Lemma neg_lip x y : Rabs (rneg x - rneg y) <= Rabs (x - y).
Proof.
  unfold rneg. eapply Rle_trans; [apply (pos_lip (- x) (- y))|]. rewrite <- Rabs_Ropp. right. f_equal. ring.
Qed.
Lemma pos_neg x : rpos x + rneg x = Rabs x.
Proof. unfold rpos, rneg, Rmax, Rabs. destruct (Rle_dec 0 x), (Rle_dec 0 (-x)), (Rcase_abs x); lra. Qed.

Lemma pos_nn x : 0 <= rpos x. Proof. apply Rmax_l. Qed.
Lemma neg_nn x : 0 <= rneg x. Proof. apply Rmax_l. Qed.
Lemma pos_ge x : x <= rpos x. Proof. apply Rmax_r. Qed.
Lemma neg_ge x : - x <= rneg x. Proof. apply Rmax_r. Qed.

Lemma add_zero x : fin x -> Rabs (rv x) <= big -> fin (b64_add fzero x) /\ rv (b64_add fzero x) = rv x.
Proof.
  intros F B. destruct (fin_add fzero x) as [A V]; auto; [exact I|rewrite fzero_rv, Rplus_0_l; auto|].
  split; auto. rewrite V, fzero_rv, Rplus_0_l. apply rnd_id. now apply fin_format.
Qed.

Lemma max_err a b c d e : Rabs (a - c) <= e -> Rabs (b - d) <= e -> Rabs (Rmax a b - Rmax c d) <= e.
Proof.
  intros H1 H2. apply Rabs_le_inv in H1. apply Rabs_le_inv in H2. apply Rabs_le.
  unfold Rmax. destruct (Rle_dec a b), (Rle_dec c d); lra.
Qed.

Lemma rsum_opp {A} (f : A -> R) l : rsum (map (fun i => - f i) l) = - rsum (map f l).
Proof. unfold rsum. induction l as [|a l IH]; simpl; [lra|]. rewrite IH. lra. Qed.

Section Mod.
Variable K : fkinetics.
Hypothesis HM : moderate K.
Let n := nrx (exact K).

Lemma valid53 : (Z.of_nat (length (fvalid K)) <= 2 ^ 53)%Z.
Proof. pose proof (valid_le K). pose proof (n_small K HM). lia. Qed.

Lemma with_le b : (length (fvalid_with K b) <= length (fvalid K))%nat.
Proof.
  unfold fvalid_with. generalize (fvalid K). intros l. induction l; simpl; auto. destruct (fflag K b a); simpl; lia.
Qed.

Lemma sum_ok phi fphi k l : (forall x, fin x -> fin (fphi x) /\ rv (fphi x) = phi (rv x)) ->
  (forall x, Rabs (phi x) <= Rabs x) -> (length l <= n)%nat ->
  fin (b64_sum (map (fun i => fphi (fbase K k i)) l)) /\
  Rabs (rv (b64_sum (map (fun i => fphi (fbase K k i)) l))) <= big.
Proof.
  intros S A L. pose proof (n_small K HM) as NS. fold n in NS.
  destruct (sum_fin _ (phi_ok K HM phi fphi S A k l)) as [F B].
  { rewrite map_length. lia. }
  split; auto. eapply Rle_trans; [exact B|]. rewrite map_length. apply big_limb. lia.
Qed.

Definition drg_num a b := b64_add fzero (b64_sum (map (fun i => b64_abs (fbase K a i)) (fvalid_with K b))).
Definition drg_den a := b64_sum (map (fun i => b64_abs (fbase K a i)) (fvalid K)).
Definition gep_prod a := b64_sum (map (fun i => fpos (fbase K a i)) (fvalid K)).
Definition gep_dest a := b64_sum (map (fun i => fneg (fbase K a i)) (fvalid K)).
Definition gep_den a := b64_max (gep_prod a) (gep_dest a).
Definition gep_sum a b := b64_sum (map (fun i => same (fbase K a i)) (fvalid_with K b)).
Definition gep_num a b := b64_abs (b64_add fzero (gep_sum a b)).

Lemma drg_get a b : (a < fk_nsp K)%nat -> (b < fk_nsp K)%nat ->
  fget (f_drg_matrix K) a b = if Nat.eqb a b then fzero else fsafe_div (drg_num a b) (drg_den a).
Proof. intros. unfold f_drg_matrix. now rewrite fget_ftab0. Qed.

Lemma gep_get a b : (a < fk_nsp K)%nat -> (b < fk_nsp K)%nat ->
  fget (f_drgep_matrix K) a b = if Nat.eqb a b then fzero else fsafe_div (gep_num a b) (gep_den a).
Proof. intros. unfold f_drgep_matrix. now rewrite fget_ftab0. Qed.

Lemma drg_num_den a b : fin (drg_num a b) /\ fin (drg_den a) /\ 0 <= rv (drg_num a b) <= rv (drg_den a) /\
  rv (drg_num a b) = rv (b64_sum (map (fun i => b64_abs (fbase K a i)) (fvalid_with K b))).
Proof.
  pose proof (valid_le K) as V. fold n in V. pose proof (with_le b) as W.
  destruct (sum_ok Rabs b64_abs a (fvalid_with K b) fin_abs abs_abs) as [F1 B1]; [lia|].
  destruct (sum_ok Rabs b64_abs a (fvalid K) fin_abs abs_abs) as [F2 B2]; [lia|].
  destruct (add_zero _ F1 B1) as [F3 V3].
  assert (forall i, 0 <= rv (b64_abs (fbase K a i))) as NN.
  { intros i. destruct (base_fin K HM a i) as (F & _ & _). destruct (fin_abs _ F) as [_ E]. rewrite E. apply Rabs_pos. }
  split; [exact F3|]. split; [exact F2|]. split; [|exact V3]. unfold drg_num, drg_den. rewrite V3. split.
  - pose proof (sum_dom_neg (fun i => b64_abs (fbase K a i)) (fun _ => fzero) (fflag K b) (fvalid K)) as D.
    unfold fvalid_with. eapply Ropp_le_cancel. rewrite Ropp_0.
    replace 0 with (rv (b64_sum (map (fun _ => fzero) (fvalid K)))).
    + apply D; auto using valid53; [apply (phi_ok K HM Rabs b64_abs fin_abs abs_abs)| | |].
      * intros x Hx. apply in_map_iff in Hx. destruct Hx as (i & <- & _). split; [exact I|].
        rewrite fzero_rv, Rabs_R0. apply bpow_ge_0.
      * intros. rewrite fzero_rv. lra.
      * intros i _ _. rewrite fzero_rv. specialize (NN i). lra.
    + clear. induction (fvalid K) as [|x l IH]; [apply fzero_rv|exact IH].
  - unfold fvalid_with. apply sum_dom; auto using valid53.
    + apply (phi_ok K HM Rabs b64_abs fin_abs abs_abs).
    + apply (phi_ok K HM Rabs b64_abs fin_abs abs_abs).
    + intros. lra.
Qed.

Lemma gep_num_den a b : fin (gep_num a b) /\ fin (gep_den a) /\ 0 <= rv (gep_num a b) <= rv (gep_den a) /\
  rv (gep_num a b) = Rabs (rv (gep_sum a b)) /\ rv (gep_den a) = Rmax (rv (gep_prod a)) (rv (gep_dest a)).
Proof.
  pose proof (valid_le K) as V. fold n in V. pose proof (with_le b) as W.
  destruct (sum_ok same same a (fvalid_with K b) id_spec id_abs) as [F1 B1]; [lia|].
  destruct (sum_ok rpos fpos a (fvalid K) pos_spec pos_abs) as [F2 B2]; [lia|].
  destruct (sum_ok rneg fneg a (fvalid K) neg_spec neg_abs) as [F3 B3]; [lia|].
  destruct (add_zero _ F1 B1) as [F4 V4]. destruct (fin_abs _ F4) as [F5 V5].
  destruct (fin_max _ _ F2 F3) as [F6 V6].
  split; [exact F5|]. split; [exact F6|].
  assert (rv (gep_num a b) = Rabs (rv (gep_sum a b))) as E1.
  { unfold gep_num, gep_sum. rewrite V5. now rewrite V4. }
  assert (rv (gep_den a) = Rmax (rv (gep_prod a)) (rv (gep_dest a))) as E2 by exact V6.
  split; [|auto]. split; [rewrite E1; apply Rabs_pos|]. rewrite E1, E2.
  assert (rv (gep_sum a b) <= rv (gep_prod a)) as D1.
  { unfold gep_sum, gep_prod, fvalid_with. apply sum_dom; auto using valid53.
    - apply (phi_ok K HM same same id_spec id_abs).
    - apply (phi_ok K HM rpos fpos pos_spec pos_abs).
    - intros i _. destruct (base_fin K HM a i) as (F & _ & _). destruct (pos_spec _ F) as [_ E]. rewrite E. apply pos_nn.
    - intros i _ _. destruct (base_fin K HM a i) as (F & _ & _). destruct (pos_spec _ F) as [_ E]. rewrite E. apply pos_ge. }
  assert (- rv (gep_sum a b) <= rv (gep_dest a)) as D2.
  { unfold gep_sum, gep_dest, fvalid_with. apply sum_dom_neg; auto using valid53.
    - apply (phi_ok K HM same same id_spec id_abs).
    - apply (phi_ok K HM rneg fneg neg_spec neg_abs).
    - intros i _. destruct (base_fin K HM a i) as (F & _ & _). destruct (neg_spec _ F) as [_ E]. rewrite E. apply neg_nn.
    - intros i _ _. destruct (base_fin K HM a i) as (F & _ & _). destruct (neg_spec _ F) as [_ E]. rewrite E. apply neg_ge. }
  pose proof (Rmax_l (rv (gep_prod a)) (rv (gep_dest a))). pose proof (Rmax_r (rv (gep_prod a)) (rv (gep_dest a))).
  apply Rabs_le. lra.
Qed.

Lemma zero_unit : unit_b64 fzero.
Proof. split; [exact I|]. simpl. split; discriminate. Qed.

Lemma drg_unit a b : (a < fk_nsp K)%nat -> (b < fk_nsp K)%nat -> unit_b64 (fget (f_drg_matrix K) a b).
Proof.
  intros Ha Hb. rewrite drg_get by auto. destruct (Nat.eqb a b); [apply zero_unit|].
  destruct (drg_num_den a b) as (F1 & F2 & B & _). now apply ratio_unit.
Qed.

Lemma gep_unit a b : (a < fk_nsp K)%nat -> (b < fk_nsp K)%nat -> unit_b64 (fget (f_drgep_matrix K) a b).
Proof.
  intros Ha Hb. rewrite gep_get by auto. destruct (Nat.eqb a b); [apply zero_unit|].
  destruct (gep_num_den a b) as (F1 & F2 & B & _). now apply ratio_unit.
Qed.

(** ** Accuracy *)

Definition tot (a : nat) : R := rsum (map (fun i => Rabs (beta K a i)) (fvalid K)).

Lemma tot_with a b : rsum (map (fun i => Rabs (beta K a i)) (fvalid_with K b)) <= tot a.
Proof. apply rsum_filter_le. intros; apply Rabs_pos. Qed.

Lemma tiny D : bpow radix2 (-900) <= D -> 2 * INR n * eta <= u * D.
Proof.
  intros H. pose proof (n_small K HM) as NS. fold n in NS.
  apply Rle_trans with (bpow radix2 41 * bpow radix2 (-1075)).
  - unfold eta. apply Rmult_le_compat_r; [apply bpow_ge_0|]. rewrite INR_IZR_INZ.
    apply IZR_le in NS. simpl in *. lra.
  - rewrite <- bpow_plus. simpl Zplus. apply Rle_trans with (u * bpow radix2 (-900)).
    + unfold ulp53. rewrite <- bpow_plus. apply bpow_le. lia.
    + apply Rmult_le_compat_l; [apply bpow_ge_0|auto].
Qed.

Lemma eps_small : 0 <= (4 * INR n + 9) * u <= / 100.
Proof.
  pose proof (n_small K HM) as NS. fold n in NS. apply IZR_le in NS. rewrite <- INR_IZR_INZ in NS.
  pose proof (pos_INR n). pose proof u_pos. split; [apply Rmult_le_pos; lra|].
  rewrite u_val. simpl in NS. lra.
Qed.

Lemma sum_bound phi fphi a l D : (forall x, fin x -> fin (fphi x) /\ rv (fphi x) = phi (rv x)) ->
  (forall x, Rabs (phi x) <= Rabs x) -> (forall x y, Rabs (phi x - phi y) <= Rabs (x - y)) ->
  (length l <= n)%nat -> rsum (map (fun i => Rabs (beta K a i)) l) <= 2 * D -> bpow radix2 (-900) <= D ->
  Rabs (rv (b64_sum (map (fun i => fphi (fbase K a i)) l)) - rsum (map (fun i => phi (beta K a i)) l)) <=
  (4 * INR n + 9) * u * D.
Proof.
  intros S A Li L T HD. pose proof (phi_sum K HM phi fphi S A Li a l L) as P. fold n in P.
  pose proof (tiny D HD) as TI. pose proof u_pos as U. pose proof (pos_INR n) as N0.
  assert ((2 * INR n + 4) * u * rsum (map (fun i => Rabs (beta K a i)) l) <= (2 * INR n + 4) * u * (2 * D)) as X.
  { apply Rmult_le_compat_l; auto. apply Rmult_le_pos; lra. }
  lra.
Qed.

Lemma final_err e : e = (4 * INR n + 9) * u -> 203 / 100 * e + u <= (9 * INR n + 20) * u.
Proof.
  intros ->. pose proof u_pos as U. pose proof (pos_INR n) as N0.
  assert (0 <= INR n * u) by (apply Rmult_le_pos; lra). lra.
Qed.

Lemma mulq (r : Q) (N D : R) den num : is_ratio r num den -> Q2R num = N -> Q2R den = D -> 0 < D -> Q2R r * D = N.
Proof.
  intros [_ H] <- <- P. rewrite <- Q2R_mult. apply Qeq_eqR. apply H. intros C. rewrite (Qeq_eqR _ _ C), Q2R_0 in P. lra.
Qed.

Lemma zeroq (r : Q) den num : is_ratio r num den -> Q2R den = 0 -> Q2R r = 0.
Proof.
  intros [H _] E. rewrite <- Q2R_0. apply Qeq_eqR. apply H. apply eqR_Qeq. now rewrite E, Q2R_0.
Qed.

Lemma sumR f : (forall i, rop (exact K) i == 0 -> f i == 0)%Q ->
  Q2R (Qsum f n) = rsum (map (fun i => Q2R (f i)) (fvalid K)).
Proof.
  intros H. rewrite <- Q2R_sumQ, <- (valid_same K HM). symmetry. apply Qeq_eqR. now apply sum_valid.
Qed.

Lemma sumR_with f b : (forall i, rop (exact K) i == 0 -> f i == 0)%Q ->
  Q2R (Qsum (fun i => if flag (exact K) b i then f i else 0%Q) n) = rsum (map (fun i => Q2R (f i)) (fvalid_with K b)).
Proof.
  intros H. rewrite <- Q2R_sumQ, <- (valid_with_same K HM). symmetry. apply Qeq_eqR. now apply sum_valid_with.
Qed.

Lemma Q2R_pos x : Q2R (pos x) = rpos (Q2R x).
Proof. unfold pos, rpos. rewrite Q2R_max, Q2R_0. apply Rmax_comm. Qed.
Lemma Q2R_neg x : Q2R (neg x) = rneg (Q2R x).
Proof. unfold neg, rneg. rewrite Q2R_max, Q2R_0, Q2R_opp. apply Rmax_comm. Qed.

Lemma PA_R a : Q2R (PA (exact K) a) = rsum (map (fun i => rpos (beta K a i)) (fvalid K)).
Proof.
  unfold PA. fold n. rewrite sumR.
  - f_equal. apply map_ext. intros i. apply Q2R_pos.
  - intros i H. apply pos_0. now apply rate_zero.
Qed.

Lemma CA_R a : Q2R (CA (exact K) a) = rsum (map (fun i => rneg (beta K a i)) (fvalid K)).
Proof.
  unfold CA. fold n. rewrite sumR.
  - f_equal. apply map_ext. intros i. apply Q2R_neg.
  - intros i H. rewrite neg_pos. apply pos_0. rewrite rate_zero by auto. reflexivity.
Qed.

Lemma tot_split a : tot a = Q2R (PA (exact K) a) + Q2R (CA (exact K) a).
Proof.
  rewrite PA_R, CA_R, <- rsum_plus. unfold tot. f_equal. apply map_ext. intros. now rewrite pos_neg.
Qed.

Lemma gep_err a b r : (a < fk_nsp K)%nat -> (b < fk_nsp K)%nat -> a <> b ->
  is_ratio r (Qabs (Qsum (fun i => if flag (exact K) b i then rate (exact K) a i else 0%Q) n))
             (Qmax (PA (exact K) a) (CA (exact K) a)) ->
  (Q2R (Qmax (PA (exact K) a) (CA (exact K) a)) = 0 \/
   bpow radix2 (-900) <= Q2R (Qmax (PA (exact K) a) (CA (exact K) a))) ->
  Rabs (rv (fget (f_drgep_matrix K) a b) - Q2R r) <= (9 * INR n + 20) * u.
Proof.
  intros Ha Hb Hab R HD. rewrite gep_get by auto. rewrite (proj2 (Nat.eqb_neq a b) Hab).
  pose proof (valid_le K) as V. fold n in V. pose proof (with_le b) as W. pose proof u_pos as U. pose proof (pos_INR n) as N0.
  set (D := Q2R (Qmax (PA (exact K) a) (CA (exact K) a))) in *.
  assert (D = Rmax (Q2R (PA (exact K) a)) (Q2R (CA (exact K) a))) as ED by apply Q2R_max.
  pose proof (Rmax_l (Q2R (PA (exact K) a)) (Q2R (CA (exact K) a))) as M1.
  pose proof (Rmax_r (Q2R (PA (exact K) a)) (Q2R (CA (exact K) a))) as M2. rewrite <- ED in M1, M2.
  pose proof (tot_split a) as TS.
  assert (tot a <= 2 * D) as HT by lra.
  set (N := Q2R (Qabs (Qsum (fun i => if flag (exact K) b i then rate (exact K) a i else 0%Q) n))) in *.
  assert (N = Rabs (rsum (map (fun i => same (beta K a i)) (fvalid_with K b)))) as EN.
  { unfold N. rewrite Q2R_abs. f_equal. rewrite sumR_with; [reflexivity|]. intros i H. now apply rate_zero. }
  destruct (gep_num_den a b) as (F1 & F2 & B & E1 & E2).
  destruct HD as [Z|HD].
  - (* no rates at all *)
    assert (tot a = 0) as T0.
    { assert (0 <= tot a) by (unfold tot; rewrite <- (rsum_zero (fun _ => 0) (fvalid K)) by auto; apply rsum_le; intros; apply Rabs_pos). lra. }
    assert (forall i, In i (fvalid K) -> beta K a i = 0) as BZ.
    { intros i Hi. pose proof (rsum_ge_one (fun i => Rabs (beta K a i)) (fvalid K) i (fun j _ => Rabs_pos _) Hi) as G.
      fold (tot a) in G. rewrite T0 in G. destruct (Req_dec (beta K a i) 0) as [|X]; auto. apply Rabs_pos_lt in X. lra. }
    assert (rv (gep_den a) = 0) as Dz.
    { rewrite E2. unfold gep_prod, gep_dest.
      rewrite (phi_sum_zero K HM rpos fpos pos_spec pos_abs) by (auto; lia).
      rewrite (phi_sum_zero K HM rneg fneg neg_spec neg_abs) by (auto; lia). apply Rmax_left. lra. }
    unfold fsafe_div. rewrite (proj2 (nz_false _ F2) Dz), fzero_rv, (zeroq _ _ _ R Z), Rminus_0_r, Rabs_R0.
    apply Rmult_le_pos; lra.
  - assert (0 < D) as D0 by (pose proof (bpow_gt_0 radix2 (-900)); lra).
    assert (0 <= N <= D) as HN.
    { split; [rewrite EN; apply Rabs_pos|].
      assert (rsum (map (fun i => same (beta K a i)) (fvalid_with K b)) <= Q2R (PA (exact K) a)) as A1.
      { rewrite PA_R. eapply Rle_trans; [|apply (rsum_filter_le _ (fflag K b)); intros; apply pos_nn].
        apply rsum_le. intros; apply pos_ge. }
      assert (- rsum (map (fun i => same (beta K a i)) (fvalid_with K b)) <= Q2R (CA (exact K) a)) as A2.
      { rewrite CA_R. eapply Rle_trans; [|apply (rsum_filter_le _ (fflag K b)); intros; apply neg_nn].
        fold (fvalid_with K b). 
        replace (- rsum (map (fun i => same (beta K a i)) (fvalid_with K b)))
          with (rsum (map (fun i => - beta K a i) (fvalid_with K b))).
        - apply rsum_le. intros; apply neg_ge.
        - apply rsum_opp. }
      rewrite EN. apply Rabs_le. lra. }
    pose proof (final_err _ eq_refl) as FE. eapply Rle_trans; [|exact FE].
    apply ratio_err with (N := N) (D := D); auto.
    + eapply mulq; eauto.
    + apply eps_small.
    + rewrite E1, EN. eapply Rle_trans; [apply Rabs_triang_inv2|].
      unfold gep_sum. apply (sum_bound same same a (fvalid_with K b) D id_spec id_abs id_lip); [lia| |exact HD].
      eapply Rle_trans; [apply tot_with|auto].
    + rewrite E2, ED, PA_R, CA_R. rewrite <- PA_R, <- CA_R at 2. rewrite <- ED. apply max_err.
      * apply (sum_bound rpos fpos a (fvalid K) D pos_spec pos_abs pos_lip); auto.
      * apply (sum_bound rneg fneg a (fvalid K) D neg_spec neg_abs neg_lip); auto.
Qed.

Lemma drg_err a b r : (a < fk_nsp K)%nat -> (b < fk_nsp K)%nat -> a <> b ->
  is_ratio r (Qsum (fun i => if flag (exact K) b i then Qabs (rate (exact K) a i) else 0%Q) n)
             (Qsum (fun i => Qabs (rate (exact K) a i)) n) ->
  (Q2R (Qsum (fun i => Qabs (rate (exact K) a i)) n) = 0 \/
   bpow radix2 (-900) <= Q2R (Qsum (fun i => Qabs (rate (exact K) a i)) n)) ->
  Rabs (rv (fget (f_drg_matrix K) a b) - Q2R r) <= (9 * INR n + 20) * u.
Proof.
  intros Ha Hb Hab R HD. rewrite drg_get by auto. rewrite (proj2 (Nat.eqb_neq a b) Hab).
  pose proof (valid_le K) as V. fold n in V. pose proof (with_le b) as W. pose proof u_pos as U. pose proof (pos_INR n) as N0.
  set (D := Q2R (Qsum (fun i => Qabs (rate (exact K) a i)) n)) in *.
  assert (D = rsum (map (fun i => Rabs (beta K a i)) (fvalid K))) as ED.
  { unfold D. rewrite sumR.
    - f_equal. apply map_ext. intros i. apply Q2R_abs.
    - intros i H. apply Qabs_0. now apply rate_zero. }
  fold (tot a) in ED.
  set (N := Q2R (Qsum (fun i => if flag (exact K) b i then Qabs (rate (exact K) a i) else 0%Q) n)) in *.
  assert (N = rsum (map (fun i => Rabs (beta K a i)) (fvalid_with K b))) as EN.
  { unfold N. rewrite sumR_with.
    - f_equal. apply map_ext. intros i. apply Q2R_abs.
    - intros i H. apply Qabs_0. now apply rate_zero. }
  destruct (drg_num_den a b) as (F1 & F2 & B & E1).
  assert (0 <= tot a) as TP by (unfold tot; rewrite <- (rsum_zero (fun _ => 0) (fvalid K)) by auto; apply rsum_le; intros; apply Rabs_pos).
  destruct HD as [Z|HD].
  - assert (tot a = 0) as T0 by lra.
    assert (forall i, In i (fvalid K) -> beta K a i = 0) as BZ.
    { intros i Hi. pose proof (rsum_ge_one (fun i => Rabs (beta K a i)) (fvalid K) i (fun j _ => Rabs_pos _) Hi) as G.
      fold (tot a) in G. rewrite T0 in G. destruct (Req_dec (beta K a i) 0) as [|X]; auto. apply Rabs_pos_lt in X. lra. }
    assert (rv (drg_den a) = 0) as Dz.
    { unfold drg_den. apply (phi_sum_zero K HM Rabs b64_abs fin_abs abs_abs); auto. }
    unfold fsafe_div. rewrite (proj2 (nz_false _ F2) Dz), fzero_rv, (zeroq _ _ _ R Z), Rminus_0_r, Rabs_R0.
    apply Rmult_le_pos; lra.
  - assert (0 < D) as D0 by (pose proof (bpow_gt_0 radix2 (-900)); lra).
    pose proof (tot_with a b) as TW.
    assert (0 <= N <= D) as HN.
    { rewrite EN, ED. split; [|auto]. rewrite <- (rsum_zero (fun _ => 0) (fvalid_with K b)) by auto.
      apply rsum_le; intros; apply Rabs_pos. }
    pose proof (final_err _ eq_refl) as FE. eapply Rle_trans; [|exact FE].
    apply ratio_err with (N := N) (D := D); auto.
    + eapply mulq; eauto.
    + apply eps_small.
    + rewrite E1, EN.
      apply (sum_bound Rabs b64_abs a (fvalid_with K b) D fin_abs abs_abs abs_lip); [lia|lra|exact HD].
    + rewrite ED at 1.
      apply (sum_bound Rabs b64_abs a (fvalid K) D fin_abs abs_abs abs_lip); auto. fold (tot a). lra.
Qed.
End Mod.
