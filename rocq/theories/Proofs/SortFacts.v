(** The stable sort of [compare_models]. *)
From Coq Require Import String List Bool Arith Sorting.Permutation Sorting.Sorted Ascii NArith.
From Verif.Model Require Import Compare.
Import ListNotations.
Local Open Scope string_scope.

Lemma insert_perm {A} (lt : A -> A -> bool) x l : Permutation (x :: l) (insert lt x l).
Proof.
  induction l as [|y t IH]; cbn; [apply Permutation_refl|].
  destruct (lt y x); [|apply Permutation_refl].
  eapply perm_trans; [apply perm_swap|]. constructor. exact IH.
Qed.
Lemma sorted_perm {A} (lt : A -> A -> bool) l : Permutation l (sorted lt l).
Proof.
  induction l as [|x t IH]; cbn; [constructor|].
  eapply perm_trans; [apply perm_skip, IH|apply insert_perm].
Qed.
Lemma sorted_length {A} (lt : A -> A -> bool) l : length (sorted lt l) = length l.
Proof. symmetry. apply Permutation_length, sorted_perm. Qed.

(** An ascending list stays as it is. *)
Lemma sorted_same {A} (lt : A -> A -> bool) l :
  StronglySorted (fun x y => lt y x = false) l -> sorted lt l = l.
Proof.
  induction 1 as [|x t S IH F]; cbn; [reflexivity|]. change (fold_right (insert lt) [] t) with (sorted lt t). rewrite IH.
  destruct t as [|y u]; cbn; [reflexivity|]. inversion F; subst. rewrite H1. reflexivity.
Qed.

(** Ascending orders by a string key. *)
Section Key.
Context {A : Type} (key : A -> string).
Let lt (x y : A) : bool := String.ltb (key x) (key y).
Let le (x y : A) : Prop := String.leb (key x) (key y) = true.

Lemma compare_refl_s s : String.compare s s = Eq.
Proof. induction s as [|c t IH]; cbn; [reflexivity|]. unfold Ascii.compare. rewrite N.compare_refl. exact IH. Qed.
Lemma compare_trans s t u :
  (String.compare s t = Lt \/ String.compare s t = Eq) -> (String.compare t u = Lt \/ String.compare t u = Eq) ->
  String.compare s u = Lt \/ String.compare s u = Eq.
Proof.
  revert t u. induction s as [|a s IH]; intros [|b t] [|c u]; cbn; auto; try (intros [E|E]; discriminate); try (intros _ [E|E]; discriminate).
  unfold Ascii.compare.
  destruct (N.compare_spec (N_of_ascii a) (N_of_ascii b)) as [E|L|G];
    destruct (N.compare_spec (N_of_ascii b) (N_of_ascii c)) as [E'|L'|G']; intros H H';
    try (destruct H; discriminate); try (destruct H'; discriminate).
  - rewrite E, E', N.compare_refl. eauto.
  - rewrite E. apply N.compare_lt_iff in L'. rewrite L'. auto.
  - rewrite <- E'. apply N.compare_lt_iff in L. rewrite L. auto.
  - assert (X := N.lt_trans _ _ _ L L'). apply N.compare_lt_iff in X. rewrite X. auto.
Qed.
Lemma leb_iff s t : String.leb s t = true <-> String.compare s t = Lt \/ String.compare s t = Eq.
Proof. unfold String.leb. destruct (String.compare s t); intuition discriminate. Qed.
Lemma leb_trans s t u : String.leb s t = true -> String.leb t u = true -> String.leb s u = true.
Proof. rewrite !leb_iff. apply compare_trans. Qed.
Lemma leb_antisym s t : String.leb s t = true -> String.leb t s = true -> s = t.
Proof.
  rewrite !leb_iff, (String.compare_antisym t s). intros H H'.
  apply String.compare_eq_iff. destruct (String.compare s t); cbn in *; intuition discriminate.
Qed.
Lemma ltb_false s t : String.ltb s t = false <-> String.leb t s = true.
Proof.
  unfold String.ltb, String.leb. rewrite (String.compare_antisym t s).
  destruct (String.compare s t); cbn; intuition discriminate.
Qed.
Lemma ltb_leb s t : String.ltb s t = true -> String.leb s t = true.
Proof. unfold String.ltb, String.leb. destruct (String.compare s t); auto. Qed.

Lemma insert_sorted x l : StronglySorted le l -> StronglySorted le (insert lt x l).
Proof.
  induction 1 as [|y t S IH F]; cbn; [constructor; constructor|].
  destruct (lt y x) eqn:E.
  - constructor; [exact IH|]. rewrite Forall_forall in F |- *. intros z I.
    apply (Permutation_in _ (Permutation_sym (insert_perm lt x t))) in I.
    destruct I as [<-|I]; [apply ltb_leb, E|auto].
  - apply ltb_false in E. constructor; [constructor; auto|]. constructor; [exact E|].
    rewrite Forall_forall in *. intros z I. specialize (F z I). unfold le in *. eapply leb_trans; eauto.
Qed.
Lemma sorted_sorted l : StronglySorted le (sorted lt l).
Proof. induction l; cbn; [constructor|]. apply insert_sorted. assumption. Qed.

(** With distinct keys there is only one ascending order. *)
Lemma order_unique l l' :
  NoDup (map key l) -> Permutation l l' -> StronglySorted le l -> StronglySorted le l' -> l = l'.
Proof.
  revert l'. induction l as [|x t IH]; intros l' N P S S'.
  - apply Permutation_nil in P. auto.
  - destruct l' as [|y u]; [apply Permutation_sym, Permutation_nil in P; discriminate|].
    assert (E : x = y).
    { assert (I : In x (y :: u)) by (eapply Permutation_in; [exact P|left; reflexivity]).
      assert (J : In y (x :: t)) by (eapply Permutation_in; [apply Permutation_sym; exact P|left; reflexivity]).
      destruct I as [->|I]; [reflexivity|]. destruct J as [->|J]; [reflexivity|].
      inversion S as [|? ? _ F]; subst. inversion S' as [|? ? _ F']; subst.
      rewrite Forall_forall in F, F'. specialize (F y J). specialize (F' x I). unfold le in *.
      assert (K := leb_antisym _ _ F F'). cbn in N. inversion N; subst. exfalso. apply H1.
      rewrite K. apply in_map. exact J. }
    subst y. f_equal. apply IH.
    + cbn in N. inversion N; auto.
    + eapply Permutation_cons_inv; exact P.
    + inversion S; auto.
    + inversion S'; auto.
Qed.
Lemma sorted_unique l l' :
  NoDup (map key l) -> Permutation l l' -> sorted lt l = sorted lt l'.
Proof.
  intros N P. apply order_unique.
  - eapply Permutation_NoDup; [|exact N]. apply Permutation_map, sorted_perm.
  - eapply perm_trans; [apply Permutation_sym, sorted_perm|]. eapply perm_trans; [exact P|apply sorted_perm].
  - apply sorted_sorted.
  - apply sorted_sorted.
Qed.
End Key.
