(** The sample numerics satisfy what is asked of them; runs of the sample. *)
From Coq Require Import List QArith Qabs Qround Qcanon Qfield Bool Arith Lia Lqa ZArith Znumtheory Sorted.
From Verif.Base Require Import Py Num XNum.
From Verif.Model Require Import Simulation Sensitivity Psr.
From Verif.Spec Require Import PsrSpec PsrSamples.
From Verif.Proofs Require Import NumFacts PsrFacts PsrNum PsrMarch.
Import ListNotations.
Local Open Scope Q_scope.

Lemma sup_bounds : norm_bounds sup_norm.
Proof.
  intros v c. induction v as [|x v IH]; intros H; constructor.
  - simpl in H. unfold xmax in H.
    destruct (is_nan (xabs x)) eqn:N1; [simpl in H; discriminate|].
    destruct (is_nan (sup_norm v)) eqn:N2; [simpl in H; discriminate|].
    assert (xlt (xabs x) (Fin c) = true) as L.
    { destruct (xlt (xabs x) (sup_norm v)) eqn:E; [|assumption]. eapply xlt_trans_fin; eassumption. }
    destruct x; simpl in L; try discriminate. exists q. split; auto. apply Qlt_bool_iff. assumption.
  - apply IH. simpl in H. unfold xmax in H. fold (sup_norm v) in H.
    destruct (is_nan (xabs x)) eqn:N1; [simpl in H; discriminate|].
    destruct (is_nan (sup_norm v)) eqn:N2; [simpl in H; discriminate|].
    destruct (xlt (xabs x) (sup_norm v)) eqn:E; [assumption|].
    apply xlt_false_le in E; auto. eapply xle_lt_trans; eassumption.
Qed.

Lemma sup_finite v : (forall x, In x v -> exists q, x = Fin q) ->
  exists r, sup_norm v = Fin r /\ forall q, In (Fin q) v -> Qabs q <= r.
Proof.
  induction v as [|x v IH]; intros F.
  - exists 0. split; [reflexivity|]. contradiction.
  - destruct IH as (r & E & B); [intros; apply F; right; assumption|].
    destruct (F x) as (q & ->); [left; reflexivity|].
    simpl. fold (sup_norm v). rewrite E. unfold xmax. simpl.
    destruct (Qlt_bool (Qabs q) r) eqn:L.
    + apply Qlt_bool_iff in L. exists r. split; auto. intros p [H|H]; [injection H as ->; lra|auto].
    + apply Qlt_bool_false in L. exists (Qabs q). split; auto.
      intros p [H|H]; [injection H as ->; lra|]. apply B in H. lra.
Qed.

Lemma sup_positive : norm_positive sup_norm.
Proof.
  intros v F (q & I & N). destruct (sup_finite v F) as (r & E & B). exists r. split; auto.
  apply B in I. destruct (Qlt_le_dec 0 (Qabs q)) as [|C]; [lra|]. exfalso. apply N.
  pose proof (Qabs_nonneg q). assert (Qabs q == 0) as Z by lra.
  destruct q as [n d]. unfold Qeq, Qabs in *. simpl in *. lia.
Qed.

Lemma rat_exp_log : exp_and_log rat_exp rat_log.
Proof.
  assert (forall a b, a < b -> b < 0 -> / (1 - 10 * a) < / (1 - 10 * b)) as NN.
  { intros a b A B. apply Qmult_lt_l with (z := 1 - 10 * a); [lra|]. rewrite Qmult_inv_r by lra.
    apply Qmult_lt_r with (z := 1 - 10 * b); [lra|].
    rewrite <- Qmult_assoc, (Qmult_comm (/ _)), Qmult_inv_r by lra. lra. }
  assert (forall a, a < 0 -> 0 < / (1 - 10 * a) < 1) as NP.
  { intros a L. split; [apply Qinv_lt_0_compat; lra|].
    apply Qmult_lt_l with (z := 1 - 10 * a); [lra|]. rewrite Qmult_inv_r by lra. lra. }
  assert (forall a b, a < b -> xlt (rat_exp (Fin a)) (rat_exp (Fin b)) = true) as ST.
  { intros a b L. unfold rat_exp. destruct (Qle_bool 0 a) eqn:EA, (Qle_bool 0 b) eqn:EB;
      rewrite ?Qle_bool_iff, ?Qle_bool_false in *; apply xlt_fin; try lra.
    - specialize (NP a EA). lra.
    - apply NN; assumption. }
  split; [|split; [|split; [exact ST|]]].
  - intros a. unfold rat_exp. destruct (Qle_bool 0 a) eqn:E; rewrite ?Qle_bool_iff, ?Qle_bool_false in E.
    + eexists. split; [reflexivity|]. lra.
    + eexists. split; [reflexivity|]. apply (NP a E).
  - intros a b L. destruct (Qlt_le_dec a b) as [C|C]; [apply xlt_le; auto|].
    assert (a == b) as Q by lra.
    unfold rat_exp. destruct (Qle_bool 0 a) eqn:EA, (Qle_bool 0 b) eqn:EB;
      rewrite ?Qle_bool_iff, ?Qle_bool_false in *; try lra; apply xle_fin; [lra|].
    assert (/ (1 - 10 * a) == / (1 - 10 * b)) as -> by (rewrite Q; reflexivity). lra.
  - intros t T. unfold rat_log. destruct (Qle_bool 1 t) eqn:E; rewrite ?Qle_bool_iff, ?Qle_bool_false in E.
    + eexists. split; [reflexivity|]. unfold rat_exp.
      assert (Qle_bool 0 (t - 1) = true) as -> by (apply Qle_bool_iff; lra). apply xeq_fin. lra.
    + eexists. split; [reflexivity|]. unfold rat_exp.
      assert (1 < / t) as I.
      { apply Qmult_lt_l with (z := t); [lra|]. rewrite Qmult_inv_r by lra. lra. }
      assert ((1 - / t) / 10 < 0) as N by (unfold Qdiv; setoid_replace (/ 10) with (1 # 10) by reflexivity; lra).
      assert (Qle_bool 0 ((1 - / t) / 10) = false) as -> by (apply Qle_bool_false; exact N).
      apply xeq_fin. field. split; [lra|]. intros Z.
      assert (10 * t - 10 * (t - 1) == 0 -> False) by lra. lra.
Qed.

Lemma Qred_square p : 0 < p -> exists a b, Qred p = a # b /\ (0 < a)%Z /\ Qred (p * p) = (a * a) # (b * b).
Proof.
  intros P. destruct (Qred p) as [a b] eqn:E. exists a, b. split; auto.
  assert (p == a # b) as Q by (rewrite <- E; symmetry; apply Qred_correct).
  assert (0 < a)%Z as A.
  { assert (0 < a # b) as L by (rewrite <- Q; assumption). unfold Qlt in L. simpl in L. lia. }
  split; auto.
  assert (Z.gcd a (Zpos b) = 1)%Z as GC.
  { change (Z.gcd (Qnum (a # b)) (QDen (a # b)) = 1)%Z. apply Qred_identity2. rewrite <- E. apply Qred_involutive. }
  transitivity (Qred ((a * a) # (b * b))).
  - apply Qred_complete. rewrite Q. reflexivity.
  - apply Qred_identity. simpl. apply Zgcd_1_rel_prime. apply Zgcd_1_rel_prime in GC.
    change (Zpos (b * b)) with (Zpos b * Zpos b)%Z.
    apply rel_prime_mult; apply rel_prime_sym; apply rel_prime_mult; apply rel_prime_sym; exact GC.
Qed.

Lemma rat_root : square_root rat_sqrt.
Proof.
  split.
  - intros q H. simpl. eauto.
  - intros p q P Q. unfold rat_sqrt. rewrite (Qred_complete _ _ Q).
    destruct (Qred_square p P) as (a & b & E & A & ->). cbn [Qnum Qden].
    rewrite Z.sqrt_square by lia. change (Zpos (b * b)) with (Zpos b * Zpos b)%Z.
    rewrite Z.sqrt_square by lia. apply xeq_fin. simpl. rewrite <- E. apply Qred_correct.
Qed.

Lemma look_up_length f x0 l : forall x, look_up f x0 l = Some x -> length x = length x0.
Proof.
  induction l as [|y l IH]; intros x; cbn [look_up]; [discriminate|].
  destruct ((length y =? length x0)%nat) eqn:E; cbn [andb]; [|apply IH].
  destruct (xlt _ _); cbn [andb]; [|apply IH].
  destruct (xlt _ _); [|apply IH]. intros H. injection H as <-. now apply Nat.eqb_eq.
Qed.

Lemma toy_honest : honest toy_root.
Proof.
  intros f x0 x fx H. unfold toy_root in H.
  destruct (look_up f x0 known_points) as [y|] eqn:E.
  - apply look_up_length in E. injection H as <- <-. auto.
  - discriminate.
Qed.

Lemma no_solve_columns : one_per_column no_solve.
Proof. intros cols b s H. discriminate. Qed.

Lemma toy_consistent k : consistent (toy_gas k).
Proof.
  split; [reflexivity|]. split; [reflexivity|]. split; [|split].
  - intros Y T H. simpl in H. injection H as <- _. reflexivity.
  - intros Y T w r H. simpl in H. destruct Y as [|[y| | |] [|? ?]]; try discriminate.
    destruct T; try discriminate. injection H as <- _. reflexivity.
  - intros Y T h H. simpl in H. destruct Y as [|[y| | |] [|? ?]]; try discriminate.
    destruct T; try discriminate. eauto.
Qed.

Lemma toy_sensible stop k : sensible (toy_args stop k).
Proof. unfold sensible. simpl. conj; try lra; discriminate. Qed.

Lemma default_sensible : sensible default_args.
Proof. unfold sensible. simpl. conj; try lra; discriminate. Qed.

Lemma swapped_sensible : sensible swapped_args.
Proof. unfold sensible. simpl. conj; try lra; discriminate. Qed.

(** ** Runs *)

Lemma stop_run :
  summary (toy_trace 50 (toy_args true 20)) =
  Some ([1000000; 500000; 289091; 204117; 158424; 130073; 110989; 97580; 88158; 82183; 80017; 82086],
        [80017; 97580; 88158])%Z.
Proof. vm_compute. reflexivity. Qed.

Lemma full_run :
  summary (toy_trace 50 (with_stop false (toy_args true 12))) =
  Some ([1000000; 500000; 289091; 204117; 158424; 130073; 110989; 97580; 88158; 82183; 80017; 82086; 83416; 84710],
        [80017; 97580; 88158])%Z.
Proof. vm_compute. reflexivity. Qed.

Lemma late_run :
  summary (toy_trace 20 (toy_args true 20)) =
  Some ([1000000; 500000; 348459; 277644; 239727; 217855; 204429; 200013; 205962], [200013; 200013; 200013])%Z.
Proof. vm_compute. reflexivity. Qed.

Lemma swapped_run :
  summary (toy_trace 50 swapped_args) = Some ([500000; 1000000], [500000; 500000; 500000])%Z.
Proof. vm_compute. reflexivity. Qed.

Lemma short_run : toy_trace 20 (toy_args true 7) = Raise RuntimeError.
Proof. vm_compute. reflexivity. Qed.

Lemma newton_run :
  damped_newton sup_norm one_solve (square_eq 2) (1 # 1000000) 50 [Fin 1] =
    ([Fin (14142135624000000000000000000000000000000 # 10000000000000000000000000000000000000000)], true) /\
  snd (damped_newton sup_norm one_solve (square_eq (-1)) (1 # 1000000) 50 [Fin 1]) = false /\
  snd (damped_newton sup_norm one_solve (square_eq 2) (1 # 1000000) 2 [Fin 1]) = false.
Proof. vm_compute. auto. Qed.

Lemma newton_stuck : stuck sup_norm one_solve (square_eq (-1)) [Fin 0].
Proof. left. vm_compute. reflexivity. Qed.

Lemma toy_numerics : numerics sup_norm rat_exp rat_log rat_sqrt no_solve toy_root.
Proof.
  split; [exact sup_bounds|]. split; [exact sup_positive|]. split; [exact toy_honest|].
  split; [exact no_solve_columns|]. split; [exact rat_exp_log|exact rat_root].
Qed.

Lemma tiny_run :
  exists branch c, toy_trace 20 tiny_args = Ok (branch, c) /\ descending (map fst branch) /\
    pp_tau (pc_ext c) = Fin (1 # 2).
Proof.
  remember (toy_trace 20 tiny_args) as r eqn:E. vm_compute in E. subst r.
  eexists. eexists. split; [reflexivity|]. split; [|reflexivity].
  cbn [map fst]. repeat constructor.
Qed.
