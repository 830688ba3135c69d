(** Concrete comparisons. *)
From Coq Require Import String List Bool QArith Sorting.Permutation Sorting.Sorted.
From Verif.Base Require Import Py XNum.
From Verif.Model Require Import Chem Compare.
From Verif.Spec Require Import CompareSpec CompareSamples.
From Verif.Proofs Require Import SortFacts CompareFacts CompareSelf.
Import ListNotations.
Local Open Scope string_scope.

(** Well-formedness of a concrete model, by computation. *)
Fixpoint nodupb (l : list string) : bool :=
  match l with nil => true | x :: t => negb (str_in x t) && nodupb t end.
Lemma nodupb_ok l : nodupb l = true -> NoDup l.
Proof.
  induction l as [|x t IH]; cbn; [constructor|]. rewrite andb_true_iff, negb_true_iff. intros [A B]. constructor; [|auto].
  intros I. unfold str_in in A. assert (X : existsb (String.eqb x) t = true) by (apply existsb_exists; exists x; split; [exact I|apply String.eqb_refl]).
  congruence.
Qed.
Fixpoint ascendb (t : list (Q * arr)) : bool :=
  match t with nil => true | x :: u => forallb (fun y => Qle_bool (fst x) (fst y)) u && ascendb u end.
Lemma ascendb_ok t : ascendb t = true -> ascending t.
Proof.
  induction t as [|x u IH]; cbn; [constructor|]. rewrite andb_true_iff. intros [A B]. constructor; [apply IH; exact B|].
  apply Forall_forall. intros y I. rewrite forallb_forall in A. apply Qle_bool_iff. auto.
Qed.
Definition some {A} (f : A -> bool) (o : option A) : bool := match o with Some a => f a | None => true end.
Definition keysb {V} (d : dict V) : bool := nodupb (map fst d).
Definition wfb (m : csolution) : bool :=
  nodupb (map cs_name (so_species m)) &&
  forallb (fun s => keysb (cs_comp s) && some keysb (cs_transport s)) (so_species m) &&
  forallb (fun r => keysb (cr_reactants r) && keysb (cr_products r) && some (fun c => keysb (co_effs c)) (cr_third r) &&
                    some ascendb (rt_plog (cr_rate r)) &&
                    match rt_low (cr_rate r), rt_high (cr_rate r) with Some _, None => false | _, _ => true end)
          (so_reactions m).
Lemma wfb_ok m : wfb m = true -> well_formed m.
Proof.
  unfold wfb. rewrite !andb_true_iff, !forallb_forall. intros [[N S] R]. constructor.
  - apply nodupb_ok, N.
  - intros s I. specialize (S s I). apply andb_true_iff in S. apply nodupb_ok, S.
  - intros s d I E. specialize (S s I). rewrite andb_true_iff, E in S. apply nodupb_ok, S.
  - intros r I. specialize (R r I). rewrite !andb_true_iff in R. split; apply nodupb_ok, R.
  - intros r c I E. specialize (R r I). rewrite !andb_true_iff, E in R. apply nodupb_ok, R.
  - intros r t I E. specialize (R r I). rewrite !andb_true_iff, E in R. apply ascendb_ok, R.
  - intros r I A B. specialize (R r I). rewrite !andb_true_iff, B in R.
    destruct (rt_low (cr_rate r)); [destruct R; discriminate|apply A; reflexivity].
Qed.
Lemma no_nan_ok m : well_formed m -> compare_models m m = Ok true -> no_nan m.
Proof. intros W. apply compare_self. exact W. Qed.
Ltac by_run := vm_compute; reflexivity.
Ltac wf := apply wfb_ok; by_run.
Ltac nonan := apply no_nan_ok; [wf|by_run].

Lemma accepted_case :
  well_formed small_gas /\ well_formed small_gas' /\
  NoDup (map cr_equation (so_reactions small_gas)) /\ NoDup (map cr_equation (so_reactions small_gas')) /\
  compare_models small_gas small_gas' = Ok true /\
  compare_models small_gas (with_reactions [h2_o 38701; h_oh troe4]) = Ok false.
Proof.
  split; [wf|]. split; [wf|]. split; [apply nodupb_ok; by_run|]. split; [apply nodupb_ok; by_run|].
  split; by_run.
Qed.
Lemma self_case :
  well_formed small_gas /\ no_nan small_gas /\
  compare_models (with_reactions [h_oh [NaN]]) (with_reactions [h_oh [NaN]]) = Ok false.
Proof. split; [wf|]. split; [nonan|by_run]. Qed.
Lemma order_case :
  let m := with_reactions [h2_o 38700; h_oh troe4] in
  let m' := mkCSol "gas" ["H"; "O"] [oh; h; o; h2] [h_oh troe4; h2_o 38700] in
  NoDup (map cs_name (so_species m)) /\ NoDup (map cr_equation (so_reactions m)) /\
  Permutation (so_species m) (so_species m') /\ Permutation (so_reactions m) (so_reactions m') /\
  compare_models small_gas m = Ok true /\ compare_models small_gas m' = Ok true.
Proof.
  intros m m'. split; [apply nodupb_ok; by_run|]. split; [apply nodupb_ok; by_run|].
  split; [apply (Permutation_rev [h2; o; h; oh])|]. split; [apply perm_swap|]. split; by_run.
Qed.
Lemma duplicates_matter :
  exists m l, Permutation (so_reactions m) l /\ well_formed m /\ no_nan m /\
    compare_models m (mkCSol (so_name m) (so_elements m) (so_species m) l) = Ok false.
Proof.
  exists (with_reactions [ho2 1; ho2 2]), [ho2 2; ho2 1].
  split; [apply perm_swap|]. split; [wf|]. split; [nonan|by_run].
Qed.
Lemma not_symmetric :
  exists r1 r2 t1 t2,
    (forall m, In m [with_reactions [r1]; with_reactions [r2]; with_species [t1]; with_species [t2]] -> well_formed m /\ no_nan m) /\
    compare_models (with_reactions [r1]) (with_reactions [r2]) = Ok true /\
    compare_models (with_reactions [r2]) (with_reactions [r1]) = Ok false /\
    cs_transport t1 = None /\ cs_transport t2 <> None /\
    compare_models (with_species [t1]) (with_species [t2]) = Ok true /\
    compare_models (with_species [t2]) (with_species [t1]) = Ok false.
Proof.
  exists (h2_o 100000), (h2_o (100001 + (1 # 200000))), (sp "H2" [("H", 2%Q)] (-1) None), h2.
  split; [intros m [<-|[<-|[<-|[<-|[]]]]]; (split; [wf|nonan])|].
  split; [by_run|]. split; [by_run|]. split; [reflexivity|]. split; [discriminate|]. split; by_run.
Qed.
Lemma different_match :
  (exists r1 r2, well_formed (with_reactions [r1]) /\ well_formed (with_reactions [r2]) /\
     cr_equation r1 = "OH <=> H + O" /\ cr_equation r2 = "OH => H + O" /\
     compare_models (with_reactions [r1]) (with_reactions [r2]) = Ok true) /\
  (exists A1 A2, (A1 == 5 * A2)%Q /\ ~ (A2 == 0)%Q /\
     well_formed (with_reactions [h2_o A1]) /\ well_formed (with_reactions [h2_o A2]) /\
     compare_models (with_reactions [h2_o A1]) (with_reactions [h2_o A2]) = Ok true).
Proof.
  split.
  - exists both_ways, one_way. split; [wf|]. split; [wf|]. split; [reflexivity|]. split; [reflexivity|by_run].
  - exists (10 # 1000000000)%Q, (2 # 1000000000)%Q. split; [reflexivity|]. split; [discriminate|].
    split; [wf|]. split; [wf|by_run].
Qed.
Lemma troe_lengths :
  exists c1 c2, length c1 = 3%nat /\ length c2 = 4%nat /\
    well_formed (with_reactions [h_oh c1]) /\ well_formed (with_reactions [h_oh c2]) /\
    compare_models (with_reactions [h_oh c1]) (with_reactions [h_oh c2]) = Raise ValueError.
Proof.
  exists troe3, troe4. split; [reflexivity|]. split; [reflexivity|]. split; [wf|]. split; [wf|by_run].
Qed.
