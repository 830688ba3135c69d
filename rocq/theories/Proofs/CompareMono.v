(** A weaker test of closeness accepts more models. *)
From Coq Require Import String List Bool Arith QArith Lia.
From Verif.Base Require Import Py XNum.
From Verif.Model Require Import Chem Metrics Compare.
From Verif.Spec Require Import CompareSpec CompareDoubleSpec.
From Verif.Proofs Require Import SortFacts CompareFacts.
Import ListNotations.

Lemma bcast_in a b ps p : bcast a b = Ok ps -> In p ps -> In (fst p) a /\ In (snd p) b.
Proof.
  unfold bcast. destruct (Nat.eqb _ _).
  - intros E I. injection E as <-. now apply combine_In2.
  - destruct a as [|x [|x' a]], b as [|y [|y' b]]; try discriminate; intros E I; apply Ok_inj in E; subst ps;
      try contradiction; apply in_map_iff in I; destruct I as (z & <- & I); cbn [fst snd] in *; split; auto; now left.
Qed.
Lemma rows_in_both a b ps p : rows_of_both a b = Ok ps -> In p ps -> In (fst p) a /\ In (snd p) b.
Proof.
  unfold rows_of_both. destruct (Nat.eqb _ _).
  - intros E I. injection E as <-. now apply combine_In2.
  - destruct a as [|x [|x' a]], b as [|y [|y' b]]; try discriminate; intros E I; apply Ok_inj in E; subst ps;
      try contradiction; apply in_map_iff in I; destruct I as (z & <- & I); cbn [fst snd] in *; split; auto; now left.
Qed.

Section Mono.
Variables close1 close2 : xnum -> xnum -> bool.
Variable D : xnum -> Prop.
Hypothesis D0 : D (Fin 0).
Hypothesis weaker : forall x y, D x -> D y -> close1 x y = true -> close2 x y = true.

Lemma forallb_mono {A} (f g : A -> bool) l : (forall x, In x l -> f x = true -> g x = true) -> forallb f l = true -> forallb g l = true.
Proof. rewrite !forallb_forall. auto. Qed.

Lemma allclose_mono a b : (forall x, In x a -> D x) -> (forall x, In x b -> D x) ->
  allclose close1 a b = Ok true -> allclose close2 a b = Ok true.
Proof.
  intros A B. unfold allclose. destruct (bcast a b) as [ps|e|] eqn:E; cbn [bind]; try discriminate.
  intros H. apply Ok_inj in H. f_equal. revert H. apply forallb_mono. intros p I.
  destruct (bcast_in _ _ _ _ E I). apply weaker; auto.
Qed.

Lemma allclose2_mono a b : (forall x, In x (concat a) -> D x) -> (forall x, In x (concat b) -> D x) ->
  allclose2 close1 a b = Ok true -> allclose2 close2 a b = Ok true.
Proof.
  intros A B. unfold allclose2. destruct (rows_of_both a b) as [ps|e|] eqn:E; cbn [bind]; try discriminate.
  rewrite !mapM_all. intros H p I. destruct (rows_in_both _ _ _ _ E I) as (Ia & Ib).
  apply allclose_mono; [intros x J; apply A|intros x J; apply B|auto]; apply in_concat; eauto.
Qed.

Lemma arr_mono a b : (forall x, In x (arr_numbers a) -> D x) -> (forall x, In x (arr_numbers b) -> D x) ->
  arr_match close1 a b = true -> arr_match close2 a b = true.
Proof.
  intros A B. unfold arr_match. rewrite !andb_true_iff. intros ((X & Y) & Z).
  split; [split|]; (eapply weaker; [apply A|apply B|assumption]); simpl; auto.
Qed.

Lemma species_mono s t : (forall x, In x (thermo_values s) -> D x) -> (forall x, In x (thermo_values t) -> D x) ->
  species_match close1 s t = true -> species_match close2 s t = true.
Proof.
  intros A B. unfold species_match. rewrite !andb_true_iff. intros (((X & Y) & Z) & W). split; auto. split; auto. revert Z.
  apply forallb_mono. intros T I. rewrite !andb_true_iff. intros ((P & Q) & R).
  assert (forall u z, In z [cs_cp u T; cs_h u T; cs_s u T] -> In z (thermo_values u)) as G.
  { intros u z J. apply in_concat. eexists. split; [apply in_map; exact I|exact J]. }
  split; [split|]; (eapply weaker; [apply A, G|apply B, G|assumption]); simpl; auto.
Qed.

Ltac inside := unfold rate_values; rewrite !in_app_iff;
  repeat match goal with E : ?f = Some _ |- context [?f] => rewrite E end; cbn [opt id]; auto 10.

Lemma rate_mono r s : (forall x, In x (rate_values r) -> D x) -> (forall x, In x (rate_values s) -> D x) ->
  rate_match close1 r s = Ok true -> rate_match close2 r s = Ok true.
Proof.
  intros A B. unfold rate_match. destruct (negb _); [discriminate|].
  assert (forall t o, (forall x, In x (rate_values t) -> D x) -> rt_arr t = o -> forall x, In x (arr_numbers (arr_or_zero o)) -> D x) as AZ.
  { intros t o T <- x I. destruct (rt_arr t) eqn:E; [apply T; inside|]. simpl in I. destruct I as [<-|[<-|[<-|[]]]]; exact D0. }
  assert (Ok (arr_match close1 (arr_or_zero (rt_arr r)) (arr_or_zero (rt_arr s))) = Ok true ->
          Ok (arr_match close2 (arr_or_zero (rt_arr r)) (arr_or_zero (rt_arr s))) = Ok true) as ARR.
  { intros H. apply Ok_inj in H. f_equal. revert H. apply arr_mono; eauto. }
  assert ((match rt_cheb r, rt_cheb s with
     | Some c1, Some c2 => unless_false (allclose close1 (ch_P c1) (ch_P c2))
         (unless_false (allclose close1 (ch_T c1) (ch_T c2)) (allclose2 close1 (ch_data c1) (ch_data c2)))
     | _, _ => Ok (arr_match close1 (arr_or_zero (rt_arr r)) (arr_or_zero (rt_arr s)))
     end) = Ok true ->
    (match rt_cheb r, rt_cheb s with
     | Some c1, Some c2 => unless_false (allclose close2 (ch_P c1) (ch_P c2))
         (unless_false (allclose close2 (ch_T c1) (ch_T c2)) (allclose2 close2 (ch_data c1) (ch_data c2)))
     | _, _ => Ok (arr_match close2 (arr_or_zero (rt_arr r)) (arr_or_zero (rt_arr s)))
     end) = Ok true) as CHEB.
  { destruct (rt_cheb r) as [c|] eqn:E1, (rt_cheb s) as [d|] eqn:E2; auto.
    rewrite !unless_false_iff. intros (X & Y & Z).
    split; [|split]; [eapply allclose_mono; [| |exact X]|eapply allclose_mono; [| |exact Y]|eapply allclose2_mono; [| |exact Z]];
      intros x I; [apply A|apply B|apply A|apply B|apply A|apply B]; inside; rewrite !in_app_iff; auto 10. }
  assert ((match rt_plog r, rt_plog s with
     | Some t1, Some t2 =>
         Ok (Nat.eqb (length t1) (length t2) &&
             forallb (fun e => close1 (Fin (fst (fst e))) (Fin (fst (snd e))) && arr_match close1 (snd (fst e)) (snd (snd e)))
               (combine (sorted (fun x y : Q * arr => Num.Qlt_bool (fst x) (fst y)) t1)
                        (sorted (fun x y : Q * arr => Num.Qlt_bool (fst x) (fst y)) t2)))
     | _, _ => match rt_cheb r, rt_cheb s with
       | Some c1, Some c2 => unless_false (allclose close1 (ch_P c1) (ch_P c2))
           (unless_false (allclose close1 (ch_T c1) (ch_T c2)) (allclose2 close1 (ch_data c1) (ch_data c2)))
       | _, _ => Ok (arr_match close1 (arr_or_zero (rt_arr r)) (arr_or_zero (rt_arr s)))
       end
     end) = Ok true ->
    (match rt_plog r, rt_plog s with
     | Some t1, Some t2 =>
         Ok (Nat.eqb (length t1) (length t2) &&
             forallb (fun e => close2 (Fin (fst (fst e))) (Fin (fst (snd e))) && arr_match close2 (snd (fst e)) (snd (snd e)))
               (combine (sorted (fun x y : Q * arr => Num.Qlt_bool (fst x) (fst y)) t1)
                        (sorted (fun x y : Q * arr => Num.Qlt_bool (fst x) (fst y)) t2)))
     | _, _ => match rt_cheb r, rt_cheb s with
       | Some c1, Some c2 => unless_false (allclose close2 (ch_P c1) (ch_P c2))
           (unless_false (allclose close2 (ch_T c1) (ch_T c2)) (allclose2 close2 (ch_data c1) (ch_data c2)))
       | _, _ => Ok (arr_match close2 (arr_or_zero (rt_arr r)) (arr_or_zero (rt_arr s)))
       end
     end) = Ok true) as PLOG.
  { destruct (rt_plog r) as [t1|] eqn:E1, (rt_plog s) as [t2|] eqn:E2; auto.
    intros H. apply Ok_inj in H. f_equal. apply andb_true_iff in H. destruct H as (L & H). apply andb_true_iff. split; auto.
    revert H. apply forallb_mono. intros p I. apply combine_In2 in I. destruct I as (I & J). apply sorted_in in I. apply sorted_in in J.
    assert (forall x, In x (Fin (fst (fst p)) :: arr_numbers (snd (fst p))) -> D x) as DA.
    { intros x K. apply A. unfold rate_values. rewrite !in_app_iff, E1. cbn [opt]. right. right. right. left.
      apply in_concat. eexists. split; [apply in_map; exact I|exact K]. }
    assert (forall x, In x (Fin (fst (snd p)) :: arr_numbers (snd (snd p))) -> D x) as DB.
    { intros x K. apply B. unfold rate_values. rewrite !in_app_iff, E2. cbn [opt]. right. right. right. left.
      apply in_concat. eexists. split; [apply in_map; exact J|exact K]. }
    rewrite !andb_true_iff. intros (X & Y). split; [eapply weaker; [apply DA; now left|apply DB; now left|exact X]|].
    revert Y. apply arr_mono; intros x K; [apply DA|apply DB]; now right. }
  destruct (rt_low r) as [l1|] eqn:E1; [|exact PLOG]. destruct (rt_low s) as [l2|] eqn:E2; [|exact PLOG].
  destruct (rt_high r) as [h1|] eqn:E3; cbn [attr bind]; [|discriminate].
  destruct (rt_high s) as [h2|] eqn:E4; cbn [attr bind]; [|discriminate].
  rewrite !unless_false_iff. intros (X & Y). split.
  - apply Ok_inj in X. f_equal. revert X. rewrite !andb_true_iff. intros (X1 & X2).
    split; [revert X1|revert X2]; apply arr_mono; intros x I; [apply A|apply B|apply A|apply B]; inside.
  - destruct (rt_falloff r) as [c|] eqn:E5; auto. destruct (rt_falloff s) as [d|] eqn:E6; auto.
    revert Y. apply allclose_mono; intros x I; [apply A|apply B]; inside.
Qed.

Lemma compare_mono m1 m2 :
  (forall m s x, m = m1 \/ m = m2 -> In s (so_species m) -> In x (thermo_values s) -> D x) ->
  (forall m r x, m = m1 \/ m = m2 -> In r (so_reactions m) -> In x (rate_values (cr_rate r)) -> D x) ->
  compare_with close1 m1 m2 = Ok true -> compare_with close2 m1 m2 = Ok true.
Proof.
  intros S R. unfold compare_with. destruct (negb _); [discriminate|]. destruct (negb _); [discriminate|].
  destruct (forallb (fun p => species_match close1 _ _) _) eqn:F; cbn [negb]; [|discriminate].
  assert (forallb (fun p => species_match close2 (fst p) (snd p))
    (combine (sorted by_name (so_species m1)) (sorted by_name (so_species m2))) = true) as ->.
  { revert F. apply forallb_mono. intros p I. apply combine_In2 in I. destruct I as (I & J). apply sorted_in in I. apply sorted_in in J.
    apply species_mono; intros x; [apply (S m1 (fst p))|apply (S m2 (snd p))]; auto. }
  cbn [negb]. rewrite !reactions_match_iff. intros H p I. specialize (H p I).
  apply combine_In2 in I. destruct I as (I & J). apply sorted_in in I. apply sorted_in in J.
  revert H. unfold reaction_match. rewrite !unless_false_iff. intros (X & Y & Z). split; auto. split; auto.
  revert Y. apply rate_mono; intros x; [apply (R m1 (fst p))|apply (R m2 (snd p))]; auto.
Qed.
End Mono.
