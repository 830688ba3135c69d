(** Facts about numbers and vectors that the tracing needs. *)
From Coq Require Import List QArith Qabs Bool Arith Lia Lqa Sorted.
From Verif.Base Require Import Py Num XNum.
From Verif.Model Require Import Simulation Sensitivity Psr.
From Verif.Spec Require Import PsrSpec.
From Verif.Proofs Require Import NumFacts.
Import ListNotations.
Local Open Scope Q_scope.

(** ** Finite results come from finite arguments *)

Lemma xadd_fin a b q : xadd a b = Fin q -> exists x y, a = Fin x /\ b = Fin y /\ q = x + y.
Proof. destruct a, b; simpl; intros H; try discriminate. injection H as <-. eauto. Qed.

Lemma xsub_fin a b q : xsub a b = Fin q -> exists x y, a = Fin x /\ b = Fin y /\ q = x - y.
Proof. destruct a, b; simpl; intros H; try discriminate. injection H as <-. eauto. Qed.

Lemma sgn_inf_not_fin q p c : sgn_inf q PInf NInf NaN = Fin p -> c.
Proof. unfold sgn_inf. destruct (Qlt_bool 0 q), (Qlt_bool q 0); discriminate. Qed.

Lemma sgn_inf_not_fin' q p c : sgn_inf q NInf PInf NaN = Fin p -> c.
Proof. unfold sgn_inf. destruct (Qlt_bool 0 q), (Qlt_bool q 0); discriminate. Qed.

Lemma xmul_fin a b q : xmul a b = Fin q -> exists x y, a = Fin x /\ b = Fin y /\ q = x * y.
Proof.
  destruct a, b; simpl; intros H; try discriminate;
    try (apply (sgn_inf_not_fin _ _ _ H)); try (apply (sgn_inf_not_fin' _ _ _ H)).
  injection H as <-. eauto.
Qed.

Lemma xdiv_fin a b q : xdiv a b = Fin q -> exists x, a = Fin x.
Proof.
  destruct a; intros H; eauto; destruct b; simpl in H; try discriminate;
    destruct (Qlt_bool q0 0); discriminate.
Qed.

(** ** Order *)

Lemma xle_fin a b : xle (Fin a) (Fin b) = true <-> a <= b.
Proof. simpl. apply Qle_bool_iff. Qed.
Lemma xlt_fin a b : xlt (Fin a) (Fin b) = true <-> a < b.
Proof. simpl. apply Qlt_bool_iff. Qed.
Lemma xeq_fin a b : xeq (Fin a) (Fin b) = true <-> a == b.
Proof.
  unfold xeq. rewrite andb_true_iff, !xle_fin. split; [intros (A & B); lra|intros E; lra].
Qed.

Lemma xle_trans a b c : xle a b = true -> xle b c = true -> xle a c = true.
Proof.
  destruct a, b, c; simpl; auto; try discriminate.
  rewrite !Qle_bool_iff. lra.
Qed.

Lemma xlt_le_trans a b c : xlt a b = true -> xle b c = true -> xlt a c = true.
Proof.
  destruct a, b, c; simpl; auto; try discriminate.
  rewrite !Qle_bool_iff, !Qlt_bool_iff. lra.
Qed.

Lemma xle_lt_trans a b c : xle a b = true -> xlt b c = true -> xlt a c = true.
Proof.
  destruct a, b, c; simpl; auto; try discriminate.
  rewrite !Qle_bool_iff, !Qlt_bool_iff. lra.
Qed.

Lemma xlt_le a b : xlt a b = true -> xle a b = true.
Proof.
  destruct a, b; simpl; auto; try discriminate. rewrite Qle_bool_iff, Qlt_bool_iff. lra.
Qed.

Lemma xeq_le a b : xeq a b = true -> xle a b = true /\ xle b a = true.
Proof. unfold xeq. apply andb_true_iff. Qed.

Lemma xlt_false_le a b : is_nan a = false -> is_nan b = false -> xlt a b = false -> xle b a = true.
Proof.
  destruct a, b; simpl; auto; try discriminate. intros _ _. rewrite Qle_bool_iff, Qlt_bool_false. lra.
Qed.

(** ** The index of the smallest *)

Lemma argmin_from_spec : forall l pre best v,
  (best < length pre)%nat -> nth best pre NaN = v ->
  Forall (fun x => is_nan x = false) (pre ++ l) ->
  (forall j, (j < length pre)%nat ->
     xle v (nth j pre NaN) = true /\ ((j < best)%nat -> xlt v (nth j pre NaN) = true)) ->
  first_smallest (pre ++ l) (argmin_from (length pre) best v l).
Proof.
  induction l as [|x l IH]; intros pre best v B V N H; cbn [argmin_from].
  - rewrite app_nil_r in *. unfold first_smallest. split; [assumption|].
    intros j J. rewrite V. apply H. assumption.
  - assert (is_nan v = false) as Nv.
    { subst v. rewrite Forall_forall in N. apply N. apply in_or_app. left. apply nth_In. assumption. }
    assert (is_nan x = false) as Nx.
    { rewrite Forall_forall in N. apply N. apply in_or_app. right. left. reflexivity. }
    rewrite Nv, Nx. cbn [orb].
    replace (pre ++ x :: l) with ((pre ++ [x]) ++ l) in * by (rewrite <- app_assoc; reflexivity).
    assert (length (pre ++ [x]) = S (length pre)) as L by (rewrite app_length; simpl; lia).
    assert (nth (length pre) (pre ++ [x]) NaN = x) as NX
      by (rewrite app_nth2 by lia; rewrite Nat.sub_diag; reflexivity).
    destruct (xlt x v) eqn:E.
    + rewrite <- L. apply IH; auto; [rewrite L; lia|].
      intros j J. rewrite L in J. destruct (Nat.eq_dec j (length pre)) as [->|].
      * rewrite NX. split; [|lia]. destruct x; simpl in *; try discriminate; auto.
        apply Qle_bool_iff. lra.
      * rewrite app_nth1 by lia. destruct (H j ltac:(lia)) as (H1 & H2).
        split; intros; [apply xlt_le|]; eapply xlt_le_trans; eauto.
    + rewrite <- L. apply IH; auto; [rewrite L; lia| |].
      * rewrite app_nth1 by lia. assumption.
      * intros j J. rewrite L in J. destruct (Nat.eq_dec j (length pre)) as [->|].
        -- rewrite NX. split; [|lia]. apply xlt_false_le; auto.
        -- rewrite app_nth1 by lia. apply H. lia.
Qed.

Lemma argmin_spec l : l <> [] -> Forall (fun x => is_nan x = false) l -> first_smallest l (argmin l).
Proof.
  destruct l as [|x l]; [congruence|]. intros _ N. unfold argmin.
  change 1%nat with (length [x]). apply (argmin_from_spec l [x] 0 x); auto.
  intros j J. simpl in J. assert (j = 0)%nat as -> by lia. simpl. split; [|lia].
  inversion N as [|? ? Nx]; subst. destruct x; simpl in *; try discriminate; auto. apply Qle_bool_iff. lra.
Qed.

Lemma argmin_from_lt l : forall i best v, (best < i)%nat -> (argmin_from i best v l < i + length l)%nat.
Proof.
  induction l as [|x l IH]; intros i best v H; cbn [argmin_from length]; [lia|].
  destruct (is_nan v); [lia|]. destruct (is_nan x || xlt x v)%bool.
  - specialize (IH (S i) i x ltac:(lia)). lia.
  - specialize (IH (S i) best v ltac:(lia)). lia.
Qed.

Lemma argmin_lt l : l <> [] -> (argmin l < length l)%nat.
Proof.
  destruct l as [|x l]; [congruence|]. intros _. unfold argmin. apply (argmin_from_lt l 1 0 x). lia.
Qed.

(** ** Sorted lists *)

Section Sorted.
Variable R : xnum -> xnum -> bool.
Hypothesis T : forall a b c, R a b = true -> R b c = true -> R a c = true.

Lemma sorted_snoc l a b :
  StronglySorted (fun x y => R x y = true) (l ++ [a]) -> R a b = true ->
  StronglySorted (fun x y => R x y = true) (l ++ [a; b]).
Proof.
  induction l as [|x l IH]; simpl; intros S H.
  - repeat constructor. assumption.
  - inversion S as [|? ? S' F]; subst. constructor; [apply IH; assumption|].
    rewrite Forall_forall in *. intros y Y. apply in_app_or in Y. destruct Y as [Y|[<-|[<-|[]]]].
    + apply F. apply in_or_app. auto.
    + apply F. apply in_or_app. right. left. reflexivity.
    + apply (T _ a); [|assumption]. apply F. apply in_or_app. right. left. reflexivity.
Qed.

Lemma sorted_snoc_last l a : StronglySorted (fun x y => R x y = true) (l ++ [a]) ->
  forall x, In x l -> R x a = true.
Proof.
  induction l as [|y l IH]; simpl; intros S x; [contradiction|]. intros [<-|I].
  - inversion S as [|? ? S' F]; subst. rewrite Forall_forall in F. apply F. apply in_or_app. right. left. reflexivity.
  - inversion S; subst. apply IH; assumption.
Qed.
End Sorted.

(** ** Vectors *)

Definition finite_vec (v : vec) : Prop := forall x, In x v -> exists q, x = Fin q.

Lemma map2_length g a b : length a = length b -> length (map2 g a b) = length b.
Proof. intros H. unfold map2. rewrite map_length, combine_length. lia. Qed.

Lemma map2_nth g a b i x y : nth_error a i = Some x -> nth_error b i = Some y ->
  nth_error (map2 g a b) i = Some (g x y).
Proof.
  revert b i. induction a as [|p a IH]; intros [|q b] [|i]; simpl; try discriminate.
  - intros A B. injection A as ->. injection B as ->. reflexivity.
  - intros A B. apply IH; assumption.
Qed.

Lemma nth_error_some {A} (l : list A) i : (i < length l)%nat -> exists x, nth_error l i = Some x.
Proof. intros H. destruct (nth_error l i) eqn:E; eauto. apply nth_error_None in E. lia. Qed.

Lemma vget_nth v i : (i < length v)%nat -> nth_error v i = Some (vget v i).
Proof. intros H. unfold vget. apply nth_error_nth'. assumption. Qed.

Lemma finite_vget v i : finite_vec v -> (i < length v)%nat -> exists q, vget v i = Fin q.
Proof. intros F H. apply F. unfold vget. apply nth_In. assumption. Qed.

Lemma vget_vsub a b i : length a = length b -> (i < length a)%nat ->
  vget (vsub a b) i = xsub (vget a i) (vget b i).
Proof.
  intros L H. unfold vget at 1. apply nth_error_nth. apply map2_nth; apply vget_nth; lia.
Qed.

Lemma vget_vdiv v c i : (i < length v)%nat -> vget (vdiv v c) i = xdiv (vget v i) c.
Proof.
  intros H. unfold vget at 1. apply nth_error_nth. unfold vdiv.
  apply (map_nth_error (fun x => xdiv x c)). apply vget_nth. assumption.
Qed.

Lemma finite_vsub a b : length a = length b -> finite_vec a -> finite_vec b -> finite_vec (vsub a b).
Proof.
  revert b. induction a as [|x a IH]; intros [|y b] L FA FB z; simpl; try contradiction.
  intros [<-|I].
  - destruct (FA x) as (p & ->); [left; reflexivity|]. destruct (FB y) as (q & ->); [left; reflexivity|].
    simpl. eauto.
  - apply (IH b); [injection L as L; exact L| | |exact I].
    + intros w W. apply FA. right. exact W.
    + intros w W. apply FB. right. exact W.
Qed.

(** A finite scalar product has finite factors; and it is zero when one of
    the vectors is. *)
Lemma dot_fin : forall t d q, length t = length d -> dot t d = Fin q -> finite_vec d.
Proof.
  induction t as [|x t IH]; intros [|y d] q L H z; simpl; try contradiction; simpl in L; try discriminate.
  unfold dot, vmul, map2 in H. simpl in H. apply xadd_fin in H. destruct H as (a & b & A & B & _).
  apply xmul_fin in A. destruct A as (? & y' & _ & -> & _).
  intros [<-|I]; [eauto|]. apply (IH d b); auto.
Qed.

Lemma dot_zero : forall t d q, dot t d = Fin q -> (forall p, In (Fin p) d -> p == 0) -> q == 0.
Proof.
  induction t as [|x t IH]; intros [|y d] q H Z; try (simpl in H; injection H as <-; reflexivity).
  unfold dot, vmul, map2 in H. simpl in H. apply xadd_fin in H. destruct H as (a & b & A & B & ->).
  apply xmul_fin in A. destruct A as (p & y' & _ & -> & ->).
  rewrite (IH d b B) by (intros; apply Z; right; assumption).
  rewrite (Z y') by (left; reflexivity). lra.
Qed.

(** The sign of a finite number. *)
Lemma xsign_fin q :
  (0 < q /\ xsign (Fin q) = Fin 1) \/ (q < 0 /\ xsign (Fin q) = Fin (-1)) \/ (q == 0 /\ xsign (Fin q) = Fin 0).
Proof.
  simpl. destruct (Qlt_bool 0 q) eqn:A.
  - left. apply Qlt_bool_iff in A. auto.
  - destruct (Qlt_bool q 0) eqn:B.
    + right. left. apply Qlt_bool_iff in B. auto.
    + right. right. apply Qlt_bool_false in A. apply Qlt_bool_false in B. split; [lra|reflexivity].
Qed.

Lemma qmin2_le a b c : c <= a -> c <= b -> c <= qmin2 a b.
Proof. unfold qmin2. destruct (Qlt_bool b a); auto. Qed.
