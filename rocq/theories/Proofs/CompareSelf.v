(** A model compared with itself. *)
From Coq Require Import String List Bool Arith QArith Qabs Lqa Lia Sorting.Permutation Sorting.Sorted.
From Verif.Base Require Import Py Num XNum.
From Verif.Model Require Import Chem Metrics Compare.
From Verif.Spec Require Import CompareSpec.
From Verif.Proofs Require Import SortFacts CompareFacts.
Import ListNotations.
Local Open Scope string_scope.

Lemma xeq_self x : xeq x x = true <-> x <> NaN.
Proof.
  destruct x as [q| | |]; cbn; try (intuition discriminate). split; [discriminate|]. intros _.
  apply xeq_iff. cbn. reflexivity.
Qed.
Lemma combine_self {A} (l : list A) : combine l l = map (fun x => (x, x)) l.
Proof. induction l; cbn; congruence. Qed.
Lemma forallb_self {A} (f : A * A -> bool) l :
  forallb f (combine l l) = true <-> forall x, In x l -> f (x, x) = true.
Proof.
  rewrite combine_self, forallb_forall. split.
  - intros H x I. apply H. apply in_map_iff. eauto.
  - intros H p I. apply in_map_iff in I. destruct I as [x [<- I]]. auto.
Qed.
Lemma bcast_self c : bcast c c = Ok (combine c c).
Proof. unfold bcast. rewrite Nat.eqb_refl. reflexivity. Qed.
(** Closeness that holds for a number and itself. *)
Section Closeness.
Variable close : xnum -> xnum -> bool.
Hypothesis close_self : forall x, close x x = true <-> x <> NaN.
Local Notation allclose2 := (Compare.allclose2 close).
Local Notation allclose := (Compare.allclose close).
Local Notation species_match := (Compare.species_match close).
Local Notation arr_match := (Compare.arr_match close).
Local Notation rate_match := (Compare.rate_match close).
Local Notation reaction_match := (Compare.reaction_match close).
Local Notation reactions_match := (Compare.reactions_match close).

Lemma allclose_self c : allclose c c = Ok true <-> ~ In NaN c.
Proof.
  unfold Compare.allclose. rewrite bcast_self. cbn [bind]. split.
  - intros H. apply Ok_inj in H. rewrite forallb_self in H. intros I. specialize (H _ I). apply close_self in H. contradiction.
  - intros H. f_equal. apply forallb_self. intros x I. cbn [fst snd]. apply close_self. intros ->. contradiction.
Qed.
Lemma allclose2_self d : allclose2 d d = Ok true <-> ~ In NaN (concat d).
Proof.
  unfold Compare.allclose2, rows_of_both. rewrite Nat.eqb_refl. cbn [bind]. rewrite mapM_all. split.
  - intros H I. apply in_concat in I. destruct I as [r [J I]].
    specialize (H (r, r)). cbn [fst snd] in H. rewrite combine_self in H.
    apply allclose_self in H; [contradiction|]. apply in_map_iff. eauto.
  - intros H p I. rewrite combine_self in I. apply in_map_iff in I. destruct I as [r [<- I]]. cbn [fst snd].
    apply allclose_self. intros J. apply H. apply in_concat. eauto.
Qed.
Lemma dict_eq_self {V} (eqv : V -> V -> bool) d :
  keys_distinct d -> dict_eq eqv d d = true <-> forall v, In v (map snd d) -> eqv v v = true.
Proof.
  intros N. unfold dict_eq. rewrite Nat.eqb_refl, andb_true_l, forallb_forall. split.
  - intros H v I. apply in_map_iff in I. destruct I as [[k w] [<- I]]. specialize (H _ I). cbn in *.
    rewrite (In_dget k w d N I) in H. exact H.
  - intros H [k v] I. cbn. rewrite (In_dget k v d N I). apply H. apply in_map_iff. exists (k, v). auto.
Qed.
Lemma dict_Q_self d : keys_distinct d -> dict_eq Qeq_bool d d = true.
Proof. intros N. apply dict_eq_self; [exact N|]. intros v _. apply Qeq_bool_iff. reflexivity. Qed.

Lemma not_in_app {A} (x : A) l l' : ~ In x (l ++ l') <-> ~ In x l /\ ~ In x l'.
Proof. rewrite in_app_iff. tauto. Qed.

Lemma arr_self a : arr_match a a = true <-> ~ In NaN (arr_numbers a).
Proof.
  unfold Compare.arr_match, arr_numbers. rewrite !andb_true_iff, !close_self. cbn.
  split; [intros [[A B] C] [E|[E|[E|[]]]]; congruence|]. intros H. repeat split; intros E; apply H; auto.
Qed.

Lemma species_self s :
  keys_distinct (cs_comp s) -> (forall d, cs_transport s = Some d -> keys_distinct d) ->
  species_match s s = true <-> ~ In NaN (species_numbers s).
Proof.
  intros N1 N2. unfold Compare.species_match, species_numbers.
  rewrite String.eqb_refl, dict_Q_self by exact N1. rewrite !andb_true_l, andb_true_iff, not_in_app.
  assert (AB : forall A B C D : Prop, (A <-> C) -> (B <-> D) -> (A /\ B <-> C /\ D)) by tauto. apply AB; clear AB.
  2:{ unfold transport_match, opt. destruct (cs_transport s) as [d|]; [|cbn; intuition].
      assert (N := N2 d eq_refl). rewrite forallb_forall. split.
      - intros H I. apply in_concat in I. destruct I as [l [J I]]. apply in_map_iff in J. destruct J as [[k v] [<- J]].
        specialize (H _ J). cbn in H, I. rewrite (In_dget k v d N J) in H. destruct v; cbn in I; try contradiction.
        destruct I as [->|[]]. discriminate.
      - intros H [k v] I. cbn. rewrite (In_dget k v d N I). apply tval_eq_iff. destruct v; cbn; auto.
        apply xeq_iff, xeq_self. intros ->. apply H. apply in_concat. exists [NaN]. split; [|left; reflexivity].
        apply in_map_iff. exists (k, TNum NaN). auto. }
  cbn [forallb map concat app]. rewrite !andb_true_iff, !close_self. cbn [In]. split.
  - intros H. intuition congruence.
  - intros H. repeat split; intros E; apply H; rewrite E; tauto.
Qed.

Lemma rate_self r :
  (rt_low r <> None -> rt_high r <> None) -> rate_match r r = Ok true <-> ~ In NaN (rate_numbers r).
Proof.
  intros H. unfold Compare.rate_match, rate_numbers. rewrite String.eqb_refl. cbn [negb].
  destruct (rt_low r) as [l|].
  - destruct (rt_high r) as [h|]; [|exfalso; apply H; congruence]. cbn [attr bind opt].
    rewrite unless_false_iff, !not_in_app.
    assert (X : forall b, Ok b = Ok true <-> b = true) by (intros b; split; [congruence|intros ->; reflexivity]).
    rewrite X, andb_true_iff, !arr_self. destruct (rt_falloff r) as [c|]; cbn [opt id].
    + rewrite allclose_self. tauto.
    + cbn. tauto.
  - destruct (rt_plog r) as [t|].
    + split.
      * intros E. apply Ok_inj in E. apply andb_true_iff in E. destruct E as [_ E].
        rewrite forallb_self in E. intros I. apply in_concat in I. destruct I as [a [J I]].
        apply in_map_iff in J. destruct J as [e [<- J]]. apply (sorted_in (fun x y : Q * arr => Qlt_bool (fst x) (fst y))) in J.
        specialize (E e J). cbv beta in E. apply andb_true_iff in E. destruct E as [_ E]. apply arr_self in E. contradiction.
      * intros E. f_equal. rewrite Nat.eqb_refl, andb_true_l. apply forallb_self. intros e J.
        apply andb_true_iff. split; [apply close_self; discriminate|]. apply arr_self. intros I. apply E.
        apply in_concat. exists (arr_numbers (snd e)). split; [|exact I]. apply in_map_iff. exists e.
        apply sorted_in in J. auto.
    + destruct (rt_cheb r) as [c|].
      * rewrite !unless_false_iff, !allclose_self, allclose2_self, !not_in_app. reflexivity.
      * assert (X : forall b, Ok b = Ok true <-> b = true) by (intros b; split; [congruence|intros ->; reflexivity]).
        rewrite X, arr_self. destruct (rt_arr r); cbn [arr_or_zero opt]; [reflexivity|].
        cbn. intuition discriminate.
Qed.

Lemma third_self t :
  (forall c, t = Some c -> keys_distinct (co_effs c)) ->
  third_match t t = true <-> ~ In NaN (opt (fun c => co_default c :: map snd (co_effs c)) t).
Proof.
  intros N. destruct t as [c|]; cbn [third_match opt]; [|cbn; intuition].
  rewrite andb_true_iff, xeq_self, dict_eq_self by auto. cbn [In]. split.
  - intros [A B] [E|I]; [auto|]. specialize (B _ I). discriminate.
  - intros H. split; [intros E; auto|]. intros v I. apply xeq_self. intros ->. auto.
Qed.

Lemma reaction_self r : fine r -> reaction_match r r = Ok true <-> ~ In NaN (reaction_numbers r).
Proof.
  intros [[S1 S1'] E1 P1 L1]. unfold Compare.reaction_match, reaction_numbers.
  rewrite !unless_false_iff, not_in_app, rate_self, <- third_self by auto.
  rewrite String.eqb_refl, !dict_Q_self, eqb_reflx by auto. cbn [andb].
  assert (X : forall b, Ok b = Ok true <-> b = true) by (intros b; split; [congruence|intros ->; reflexivity]).
  rewrite !X. tauto.
Qed.

Lemma compare_with_self m : well_formed m -> compare_with close m m = Ok true <-> no_nan m.
Proof.
  intros W. unfold compare_with, no_nan. rewrite !Nat.eqb_refl. cbn [negb]. rewrite not_in_app.
  assert (S : forallb (fun p => species_match (fst p) (snd p))
      (combine (sorted by_name (so_species m)) (sorted by_name (so_species m))) = true <->
      ~ In NaN (concat (map species_numbers (so_species m)))).
  { rewrite forallb_self. cbn [fst snd]. split.
    - intros H I. apply in_concat in I. destruct I as [l [J I]]. apply in_map_iff in J. destruct J as [s [<- J]].
      apply species_self in I; auto.
      + apply (wf_comp m W s J).
      + intros d. apply (wf_attrs m W s d J).
      + apply H, sorted_in, J.
    - intros H s J. apply sorted_in in J. apply species_self.
      + apply (wf_comp m W s J).
      + intros d. apply (wf_attrs m W s d J).
      + intros I. apply H. apply in_concat. exists (species_numbers s). split; [apply in_map; exact J|exact I]. }
  assert (R : reactions_match (combine (sorted by_equation (so_reactions m)) (sorted by_equation (so_reactions m))) = Ok true <->
      ~ In NaN (concat (map reaction_numbers (so_reactions m)))).
  { rewrite reactions_match_iff, combine_self. split.
    - intros H I. apply in_concat in I. destruct I as [l [J I]]. apply in_map_iff in J. destruct J as [r [<- J]].
      assert (F := wf_fine m r W J). apply (reaction_self r F) in I; auto.
      apply (H (r, r)). apply in_map_iff. exists r. split; [reflexivity|]. apply sorted_in, J.
    - intros H p J. apply in_map_iff in J. destruct J as [r [<- J]]. apply sorted_in in J. cbn [fst snd].
      assert (F := wf_fine m r W J). apply (reaction_self r F). intros I. apply H. apply in_concat.
      exists (reaction_numbers r). split; [apply in_map; exact J|exact I]. }
  destruct (forallb _ _); cbn [negb].
  - rewrite R. tauto.
  - split; [discriminate|]. intros [A _]. apply S in A. discriminate.
Qed.

End Closeness.

Lemma isclose_by_self k x : (0 <= k)%Q -> isclose_by k x x = true <-> x <> NaN.
Proof.
  intros K. destruct x as [q| | |]; [|cbn; intuition discriminate..]. split; [discriminate|]. intros _. unfold isclose_by.
  apply Qle_bool_iff. setoid_replace (q - q)%Q with 0%Q by ring. unfold atol, rtol.
  assert (H := Qabs_nonneg q). change (Qabs 0) with 0%Q. nra.
Qed.
Lemma isclose_self x : isclose x x = true <-> x <> NaN.
Proof.
  destruct x as [q| | |]; [|cbn; intuition discriminate..]. split; [discriminate|]. intros _. unfold isclose.
  apply Qle_bool_iff. setoid_replace (q - q)%Q with 0%Q by ring. unfold atol, rtol.
  assert (H := Qabs_nonneg q). change (Qabs 0) with 0%Q. lra.
Qed.
Lemma compare_self m : well_formed m -> compare_models m m = Ok true <-> no_nan m.
Proof. apply compare_with_self. exact isclose_self. Qed.
