(** Facts about the damped Newton iteration and the corrector. *)
From Coq Require Import List QArith Qabs Bool Arith Lia Lqa Sorted.
From Verif.Base Require Import Py Num XNum.
From Verif.Model Require Import Simulation Sensitivity Psr.
From Verif.Spec Require Import PsrSpec.
Import ListNotations.
Local Open Scope nat_scope.

(** ** The finite differences *)

Lemma lset_split : forall (u : vec) j x, j < length u -> lset u j x = firstn j u ++ x :: skipn (S j) u.
Proof.
  induction u; intros j x H; simpl in H; [lia|].
  destruct j; simpl; [reflexivity|]. rewrite IHu by lia. reflexivity.
Qed.

Lemma width_ok : forall u j, width u j = xmul (Fin (1 # 10000000)) (max1 (xabs (vget u j))).
Proof.
  intros u j. unfold width, vget, max1. destruct (nth j u NaN); try reflexivity.
  cbn [xabs xlt]. destruct (Qlt_bool 1 (Qabs q)); reflexivity.
Qed.

Lemma map_map2 : forall g (h : xnum -> xnum) a b,
  map h (map2 g a b) = map (fun p => h (g (fst p) (snd p))) (combine a b).
Proof. intros. unfold map2. rewrite map_map. reflexivity. Qed.

Lemma fd_ok : forall f u, map (fd_column f u (f u)) (seq 0 (length u)) = quotients f u.
Proof.
  intros f u. unfold quotients. apply map_ext_in. intros j Hj. apply in_seq in Hj.
  unfold fd_column, vdiv, vsub. rewrite map_map2. rewrite <- width_ok.
  unfold moved. rewrite lset_split by lia. reflexivity.
Qed.

(** ** The line search *)

Section N.
Variable norm : vec -> xnum.
Variable solve : list vec -> vec -> option vec.
Variable f : vec -> vec.

Lemma damped_ok : forall u s k, vadd u (vscale (Fin (half_power k)) s) = damped u s k.
Proof.
  intros u s k. unfold vadd, map2, vscale, damped.
  revert s. induction u; intros [|b s]; simpl; try reflexivity. f_equal. apply IHu.
Qed.

Lemma search_some : forall u s m k lam,
  line_search norm f u s (norm (f u)) m (half_power k) = Some lam ->
  exists k', k <= k' < k + m /\ lam = half_power k' /\ improves norm f u s k' /\
             (forall j, k <= j < k' -> ~ improves norm f u s j).
Proof.
  intros u s m. induction m; intros k lam H; simpl in H; [discriminate|].
  rewrite damped_ok in H. destruct (xlt _ _) eqn:E.
  - injection H as <-. exists k. repeat split; try lia; auto.
  - change (half_power k * (1 # 2))%Q with (half_power (S k)) in H.
    apply IHm in H. destruct H as (k' & B & L & I & N).
    exists k'. repeat split; try lia; auto.
    intros j Hj. destruct (Nat.eq_dec j k) as [->|].
    + unfold improves. rewrite E. discriminate.
    + apply N. lia.
Qed.

Lemma search_none : forall u s m k,
  line_search norm f u s (norm (f u)) m (half_power k) = None ->
  forall j, k <= j < k + m -> ~ improves norm f u s j.
Proof.
  intros u s m. induction m; intros k H j Hj; [lia|]. simpl in H.
  rewrite damped_ok in H. destruct (xlt _ _) eqn:E; [discriminate|].
  change (half_power k * (1 # 2))%Q with (half_power (S k)) in H.
  destruct (Nat.eq_dec j k) as [->|].
  - unfold improves. rewrite E. discriminate.
  - apply (IHm _ H). lia.
Qed.

(** ** The iteration *)

Lemma newton_cases : forall tol maxit u x b,
  damped_newton norm solve f tol maxit u = (x, b) ->
  exists n, newton_steps norm solve f n u x /\
    ((n < maxit /\ xlt (norm (f x)) (Fin tol) = true /\ b = true) \/
     (n < maxit /\ xlt (norm (f x)) (Fin tol) = false /\ b = false /\ stuck norm solve f x) \/
     (n = maxit /\ b = xlt (norm (f x)) (Fin (tol * 100)))).
Proof.
  intros tol maxit. induction maxit; intros u x b H; cbn [damped_newton] in H.
  - injection H as <- <-. exists 0. split; [constructor|]. auto.
  - destruct (xlt (norm (f u)) (Fin tol)) eqn:E.
    + injection H as <- <-. exists 0. split; [constructor|]. left. repeat split; [lia|assumption].
    + rewrite fd_ok in H. fold (direction solve f u) in H.
      destruct (direction solve f u) as [s|] eqn:D.
      * destruct (line_search norm f u s (norm (f u)) 20 1) as [lam|] eqn:L.
        -- apply (search_some u s 20 0) in L. destruct L as (k & B & -> & I & N).
           rewrite damped_ok in H. apply IHmaxit in H. destruct H as (n & S & C).
           exists (Datatypes.S n). split.
           ++ apply (one_step norm solve f n u s k x); auto; try lia.
              intros j Hj. apply N. lia.
           ++ destruct C as [(A1 & A2 & A3)|[(A1 & A2 & A3 & A4)|(A1 & A2)]].
              ** left. repeat split; auto; lia.
              ** right. left. repeat split; auto; lia.
              ** right. right. split; auto.
        -- injection H as <- <-. exists 0. split; [constructor|]. right. left.
           repeat split; try lia; auto. right. exists s. split; auto.
           intros k Hk. apply (search_none u s 20 0 L). lia.
      * injection H as <- <-. exists 0. split; [constructor|]. right. left.
        repeat split; try lia; auto. left. assumption.
Qed.

Lemma xlt_trans_fin : forall a b c, xlt a b = true -> xlt b c = true -> xlt a c = true.
Proof.
  intros [p| | |] [q| | |] [r| | |]; simpl; auto; try discriminate.
  unfold Qlt_bool. rewrite !negb_true_iff. intros H K.
  destruct (Qle_bool r p) eqn:E; [|reflexivity]. exfalso.
  apply Qle_bool_iff in E.
  assert (A : ~ (q <= p)%Q) by (intro; apply Qle_bool_iff in H0; congruence).
  assert (B : ~ (r <= q)%Q) by (intro; apply Qle_bool_iff in H0; congruence).
  lra.
Qed.

Lemma steps_descend : forall n u x, newton_steps norm solve f n u x ->
  (n = 0 /\ x = u) \/ xlt (norm (f x)) (norm (f u)) = true.
Proof.
  intros n u x H. induction H; [left; auto|]. right.
  destruct IHnewton_steps as [(-> & ->)|IH]; [assumption|].
  eapply xlt_trans_fin; eassumption.
Qed.

Lemma xlt_fin_le : forall a p q, xlt a (Fin p) = true -> (p <= q)%Q -> xlt a (Fin q) = true.
Proof.
  intros [r| | |] p q; simpl; auto; try discriminate.
  unfold Qlt_bool. rewrite !negb_true_iff. intros H K.
  destruct (Qle_bool q r) eqn:E; [|reflexivity]. apply Qle_bool_iff in E.
  assert (p <= r)%Q by lra. apply Qle_bool_iff in H0. congruence.
Qed.

Lemma newton_converged : forall tol maxit u x,
  (0 <= tol)%Q -> damped_newton norm solve f tol maxit u = (x, true) ->
  xlt (norm (f x)) (Fin (tol * 100)) = true.
Proof.
  intros tol maxit u x T H. apply newton_cases in H.
  destruct H as (n & _ & [(A1 & A2 & A3)|[(A1 & A2 & A3 & A4)|(A1 & A2)]]); try discriminate; auto.
  apply (xlt_fin_le _ tol); [assumption|lra].
Qed.

Lemma damped_length : forall u s k, length s = length u -> length (damped u s k) = length u.
Proof. intros. unfold damped. rewrite map_length, combine_length. lia. Qed.

Lemma steps_length : one_per_column solve -> forall n u x,
  newton_steps norm solve f n u x -> length x = length u.
Proof.
  intros O n u x H. induction H; [reflexivity|].
  rewrite IHnewton_steps. apply damped_length. apply O in H.
  rewrite H. unfold quotients. rewrite map_length, seq_length. reflexivity.
Qed.

Lemma ok_inj {A} (a b : A) : Ok a = Ok b -> a = b.
Proof. congruence. Qed.

Variable root : (vec -> vec) -> vec -> res (bool * vec * vec).

Lemma corrected : honest root -> one_per_column solve -> forall x0 x,
  correct norm solve root f x0 = Ok (x, true) ->
  xlt (norm (f x)) (Fin (1 # 10000000)) = true /\ length x = length x0.
Proof.
  intros HR HS x0 x H. unfold correct in H.
  destruct (root f x0) as [[[s y] fy]|e|] eqn:R; cbn [bind] in H; try discriminate.
  destruct (s && xlt (norm fy) (Fin (1 # 10000000))) eqn:E.
  - injection H as <-. apply andb_true_iff in E. destruct E as (-> & E).
    apply HR in R. destruct R as (-> & L). auto.
  - apply ok_inj in H. split.
    + apply newton_converged in H; [|unfold newton_tol; lra].
      apply (xlt_fin_le _ _ (1 # 10000000)) in H; [assumption|]. unfold newton_tol. lra.
    + apply newton_cases in H. destruct H as (n & S & _). apply (steps_length HS) in S. assumption.
Qed.

End N.
