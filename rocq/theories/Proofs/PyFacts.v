(** Facts about the Python building blocks. *)
From Coq Require Import String List Bool Arith Lia.
From Verif.Base Require Import Py.
Import ListNotations.

Lemma str_in_iff x l : str_in x l = true <-> In x l.
Proof.
  unfold str_in. rewrite existsb_exists. split.
  - intros [y [Hy E]]. apply String.eqb_eq in E. now subst.
  - intros H. exists x. split; auto. apply String.eqb_refl.
Qed.

Lemma str_in_false x l : str_in x l = false <-> ~ In x l.
Proof.
  rewrite <- str_in_iff. destruct (str_in x l); split; congruence.
Qed.

Lemma str_in_spec x l : reflect (In x l) (str_in x l).
Proof.
  destruct (str_in x l) eqn:E; constructor.
  - now apply str_in_iff.
  - now apply str_in_false.
Qed.

Lemma set_of_in x l : In x (set_of l) <-> In x l.
Proof. apply nodup_In. Qed.

Lemma set_of_nodup l : NoDup (set_of l).
Proof. apply NoDup_nodup. Qed.

Section Dict.
Context {V : Type}.
Implicit Types d : dict V.

Lemma dget_dset_same k v d : dget k (dset k v d) = Some v.
Proof.
  induction d as [|[k' v'] t IH]; simpl.
  - now rewrite String.eqb_refl.
  - destruct (String.eqb k k') eqn:E; simpl; rewrite E; auto.
Qed.

Lemma dget_dset_other k k2 v d : k <> k2 -> dget k2 (dset k v d) = dget k2 d.
Proof.
  intros H. induction d as [|[k' v'] t IH]; simpl.
  - destruct (String.eqb_spec k2 k); congruence.
  - destruct (String.eqb_spec k k'); simpl.
    + subst. destruct (String.eqb_spec k2 k'); congruence.
    + destruct (String.eqb_spec k2 k'); auto.
Qed.

Lemma dget_dset k k2 v d :
  dget k2 (dset k v d) = if String.eqb k2 k then Some v else dget k2 d.
Proof.
  destruct (String.eqb_spec k2 k).
  - subst. apply dget_dset_same.
  - apply dget_dset_other. congruence.
Qed.

Lemma dget_in k v d : dget k d = Some v -> In (k, v) d.
Proof.
  induction d as [|[k' v'] t IH]; simpl; try congruence.
  destruct (String.eqb_spec k k').
  - intros E; inversion E; subst; auto.
  - auto.
Qed.

Lemma dget_none k d : dget k d = None <-> ~ In k (dkeys d).
Proof.
  induction d as [|[k' v'] t IH]; simpl.
  - split; auto.
  - destruct (String.eqb_spec k k').
    + subst. split; [congruence|]. intros H; exfalso; apply H; auto.
    + rewrite IH. split; intros H; [intros [E|E]; congruence|].
      intros E; apply H; auto.
Qed.

Lemma dget_some_key k d : In k (dkeys d) <-> exists v, dget k d = Some v.
Proof.
  destruct (dget k d) as [v|] eqn:E.
  - split; eauto. intros _. apply dget_in in E.
    unfold dkeys. now apply (in_map fst) in E.
  - split; [|intros [v Hv]; congruence].
    intros H. apply dget_none in E. contradiction.
Qed.

Lemma dmem_iff k d : dmem k d = true <-> In k (dkeys d).
Proof.
  rewrite dget_some_key. unfold dmem. destruct (dget k d); split; intros H; eauto.
  - congruence.
  - destruct H; congruence.
Qed.

Lemma in_dget k v d : NoDup (dkeys d) -> In (k, v) d -> dget k d = Some v.
Proof.
  induction d as [|[k' v'] t IH]; simpl; [tauto|].
  intros ND [E|E].
  - inversion E; subst. now rewrite String.eqb_refl.
  - inversion ND; subst. destruct (String.eqb_spec k k').
    + subst. exfalso. apply H1. unfold dkeys. now apply (in_map fst) in E.
    + auto.
Qed.

Lemma dset_keys k v d : dkeys (dset k v d) =
  if dmem k d then dkeys d else dkeys d ++ [k].
Proof.
  induction d as [|[k' v'] t IH]; auto.
  simpl. unfold dmem. simpl. destruct (String.eqb_spec k k').
  - reflexivity.
  - simpl. rewrite IH. unfold dmem. destruct (dget k t); auto.
Qed.

Lemma dset_nodup k v d : NoDup (dkeys d) -> NoDup (dkeys (dset k v d)).
Proof.
  intros H. rewrite dset_keys. destruct (dmem k d) eqn:E; auto.
  assert (~ In k (dkeys d)) as N. { rewrite <- dmem_iff. congruence. }
  clear E. induction (dkeys d) as [|a l IH]; simpl.
  - constructor; auto; constructor.
  - inversion H; subst. constructor.
    + rewrite in_app_iff. simpl. intros [A|[A|[]]]; auto. subst. apply N. simpl; auto.
    + apply IH; auto. intros A. apply N. simpl; auto.
Qed.

End Dict.

Lemma mapM_ok {A B} (f : A -> res B) l ys :
  mapM f l = Ok ys <-> Forall2 (fun x y => f x = Ok y) l ys.
Proof.
  revert ys. induction l as [|x t IH]; simpl; intros ys.
  - split; intros H; inversion H; auto.
  - destruct (f x) eqn:E; simpl.
    + destruct (mapM f t) eqn:E2; simpl.
      * split; intros H.
        -- inversion H; subst. constructor; auto. now apply IH.
        -- inversion H; subst. assert (Ok a0 = Ok l') by now apply IH.
           congruence.
      * split; intros H; [congruence|]. inversion H; subst.
        apply IH in H4. congruence.
      * split; intros H; [congruence|]. inversion H; subst.
        apply IH in H4. congruence.
    + split; intros H; [congruence|]. inversion H; subst. congruence.
    + split; intros H; [congruence|]. inversion H; subst. congruence.
Qed.

Lemma mapM_ext {A B} (f g : A -> res B) l :
  (forall x, In x l -> f x = g x) -> mapM f l = mapM g l.
Proof.
  induction l; simpl; intros H; auto.
  rewrite H; auto. rewrite IHl; auto.
Qed.

Lemma mapM_length {A B} (f : A -> res B) l ys : mapM f l = Ok ys -> length ys = length l.
Proof.
  rewrite mapM_ok. induction 1; simpl; auto.
Qed.
