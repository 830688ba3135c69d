(** Facts about rational sums and arrays. *)
From Coq Require Import List QArith Qminmax Qabs Bool Arith Lia Lqa.
From Verif.Base Require Import Num.
From Verif.Spec Require Import MatrixSpec.
Import ListNotations.
Local Open Scope Q_scope.

Lemma Qlt_bool_iff a b : Qlt_bool a b = true <-> a < b.
Proof.
  unfold Qlt_bool. rewrite negb_true_iff. split; intros H.
  - apply Qnot_le_lt. intros K. apply Qle_bool_iff in K. congruence.
  - destruct (Qle_bool b a) eqn:E; auto. apply Qle_bool_iff in E. lra.
Qed.

Lemma Qlt_bool_false a b : Qlt_bool a b = false <-> b <= a.
Proof.
  unfold Qlt_bool. rewrite negb_false_iff. apply Qle_bool_iff.
Qed.

Lemma Qle_bool_false a b : Qle_bool a b = false <-> b < a.
Proof.
  split; intros H.
  - apply Qnot_le_lt. intros K. apply Qle_bool_iff in K. congruence.
  - destruct (Qle_bool a b) eqn:E; auto. apply Qle_bool_iff in E. lra.
Qed.

Lemma Qnz_iff a : Qnz a = true <-> ~ a == 0.
Proof.
  unfold Qnz. rewrite negb_true_iff. split.
  - intros H K. apply Qeq_bool_iff in K. congruence.
  - intros H. destruct (Qeq_bool a 0) eqn:E; auto. apply Qeq_bool_iff in E. tauto.
Qed.

Lemma Qnz_false a : Qnz a = false <-> a == 0.
Proof. unfold Qnz. rewrite negb_false_iff. apply Qeq_bool_iff. Qed.

Lemma Qmaxb_max a b : Qmaxb a b == Qmax a b.
Proof.
  unfold Qmaxb. destruct (Qle_bool a b) eqn:E.
  - apply Qle_bool_iff in E. symmetry. now apply Q.max_r.
  - apply Qle_bool_false in E. symmetry. apply Q.max_l. lra.
Qed.

Lemma sumQ_app l l' : sumQ (l ++ l') == sumQ l + sumQ l'.
Proof. induction l; simpl; [lra|]. rewrite IHl. lra. Qed.

Lemma sumQ_ext_in {A} (f g : A -> Q) l :
  (forall x, In x l -> f x == g x) -> sumQ (map f l) == sumQ (map g l).
Proof.
  induction l; simpl; intros H; [lra|]. rewrite H by auto. rewrite IHl; [lra|]. auto.
Qed.

Lemma sumQ_filter {A} (f : A -> Q) p l :
  sumQ (map f (filter p l)) == sumQ (map (fun i => if p i then f i else 0) l).
Proof. induction l; simpl; [lra|]. destruct (p a); simpl; rewrite IHl; lra. Qed.

Lemma sumQ_seq f n : sumQ (map f (seq 0 n)) == Qsum f n.
Proof.
  induction n; [simpl; lra|]. rewrite seq_S, map_app, sumQ_app, IHn. simpl. lra.
Qed.

Lemma Qsum_ext f g n : (forall i, (i < n)%nat -> f i == g i) -> Qsum f n == Qsum g n.
Proof.
  induction n; simpl; intros H; [lra|]. rewrite IHn by (intros; apply H; lia).
  rewrite H by lia. lra.
Qed.

Lemma Qsum_le f g n : (forall i, (i < n)%nat -> f i <= g i) -> Qsum f n <= Qsum g n.
Proof.
  induction n; simpl; intros H; [lra|].
  assert (Qsum f n <= Qsum g n) by (apply IHn; intros; apply H; lia).
  assert (f n <= g n) by (apply H; lia). lra.
Qed.

Lemma Qsum_nonneg f n : (forall i, (i < n)%nat -> 0 <= f i) -> 0 <= Qsum f n.
Proof.
  induction n; simpl; intros H; [lra|].
  assert (0 <= Qsum f n) by (apply IHn; intros; apply H; lia).
  assert (0 <= f n) by (apply H; lia). lra.
Qed.

Lemma Qsum_scale c f n : Qsum (fun i => c * f i) n == c * Qsum f n.
Proof. induction n; simpl; [lra|]. rewrite IHn. lra. Qed.

Lemma Qsum_plus f g n : Qsum (fun i => f i + g i) n == Qsum f n + Qsum g n.
Proof. induction n; simpl; [lra|]. rewrite IHn. lra. Qed.

Lemma Qsum_zero f n : (forall i, (i < n)%nat -> f i == 0) -> Qsum f n == 0.
Proof.
  induction n; simpl; intros H; [lra|]. rewrite IHn by (intros; apply H; lia).
  rewrite H by lia. lra.
Qed.

(** Arrays. *)
Lemma nth_map_seq {A} (f : nat -> A) n i d : (i < n)%nat -> nth i (map f (seq 0 n)) d = f i.
Proof.
  intros H. rewrite nth_indep with (d' := f 0%nat) by (rewrite map_length, seq_length; auto).
  rewrite map_nth. now rewrite seq_nth.
Qed.

Lemma mget_mtab n m f i j : (i < n)%nat -> (j < m)%nat -> mget (mtab n m f) i j = f i j.
Proof.
  intros Hi Hj. unfold mget, mtab. rewrite nth_map_seq by auto.
  rewrite nth_map_seq by auto. reflexivity.
Qed.

Definition shape (n m : nat) (M : matrix) : Prop :=
  length M = n /\ forall row, In row M -> length row = m.

Lemma mtab_shape n m f : shape n m (mtab n m f).
Proof.
  split.
  - unfold mtab. now rewrite map_length, seq_length.
  - intros row H. unfold mtab in H. apply in_map_iff in H. destruct H as (i & E & _).
    subst. now rewrite map_length, seq_length.
Qed.

Lemma lset_length {A} (l : list A) i v : length (lset l i v) = length l.
Proof. revert i. induction l; destruct i; simpl; auto. Qed.

Lemma lset_nth_same {A} (l : list A) i v d : (i < length l)%nat -> nth i (lset l i v) d = v.
Proof. revert i. induction l; destruct i; simpl; intros; try lia; auto. apply IHl. lia. Qed.

Lemma lset_nth_other {A} (l : list A) i j v d : i <> j -> nth j (lset l i v) d = nth j l d.
Proof.
  revert i j. induction l; destruct i, j; simpl; intros; try lia; auto.
Qed.

Lemma lset_in {A} (l : list A) i v x : In x (lset l i v) -> x = v \/ In x l.
Proof.
  revert i. induction l; destruct i; simpl; intros H; auto.
  - destruct H; auto.
  - destruct H as [H|H]; auto. apply IHl in H. tauto.
Qed.

Lemma shape_row n m M i : shape n m M -> (i < n)%nat -> length (nth i M nil) = m.
Proof. intros [L H] Hi. apply H. apply nth_In. lia. Qed.

Lemma mset_shape n m M i j v : shape n m M -> (i < n)%nat -> shape n m (mset M i j v).
Proof.
  intros S Hi. pose proof S as [L H]. split.
  - unfold mset. now rewrite lset_length.
  - intros row Hr. apply lset_in in Hr. destruct Hr as [Hr|Hr]; auto.
    subst. rewrite lset_length. eapply shape_row; eauto.
Qed.

Lemma mget_mset_same n m M i j v : shape n m M -> (i < n)%nat -> (j < m)%nat ->
  mget (mset M i j v) i j = v.
Proof.
  intros S Hi Hj. unfold mget, mset. rewrite lset_nth_same by (destruct S; lia).
  apply lset_nth_same. erewrite shape_row; eauto.
Qed.

Lemma mget_mset_other M i j v a b : (a <> i \/ b <> j) ->
  mget (mset M i j v) a b = mget M a b.
Proof.
  intros H. unfold mget, mset. destruct (Nat.eq_dec i a) as [->|N].
  - destruct (le_lt_dec (length M) a) as [L|L].
    + rewrite !nth_overflow with (l := lset _ _ _) by (rewrite lset_length; auto).
      rewrite (nth_overflow M) by auto. reflexivity.
    + rewrite lset_nth_same by auto. apply lset_nth_other. lia.
  - rewrite lset_nth_other by auto. reflexivity.
Qed.

Lemma mget_mset n m M i j v a b : shape n m M -> (i < n)%nat -> (j < m)%nat ->
  mget (mset M i j v) a b = if (Nat.eqb a i && Nat.eqb b j)%bool then v else mget M a b.
Proof.
  intros S Hi Hj. destruct (Nat.eqb_spec a i), (Nat.eqb_spec b j); simpl; subst;
    try (apply mget_mset_other; auto; fail).
  eapply mget_mset_same; eauto.
Qed.
