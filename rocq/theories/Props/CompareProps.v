(** Property theorems about [compare_models]: C42. *)
From Coq Require Import String List Bool QArith Sorting.Permutation Sorting.Sorted.
From Verif.Base Require Import Py XNum.
From Verif.Model Require Import Chem Compare.
From Verif.Spec Require Import CompareSpec CompareSamples.
From Verif.Proofs Require Import SortFacts CompareFacts CompareSelf CompareEx.
Import ListNotations.
Local Open Scope string_scope.

(** C42: the answer is True exactly if the models have the same species names,
    species of the same name agree, and the reactions agree pairwise when both
    lists are put in the order of their equations. *)
Theorem models_accepted_iff :
  forall m1 m2,
    well_formed m1 -> well_formed m2 ->
    NoDup (map cr_equation (so_reactions m1)) -> NoDup (map cr_equation (so_reactions m2)) ->
    compare_models m1 m2 = Ok true <-> equivalent m1 m2.
Proof. exact compare_iff. Qed.
Print Assumptions models_accepted_iff.

Example models_accepted_iff_case :
  well_formed small_gas /\ well_formed small_gas' /\
  NoDup (map cr_equation (so_reactions small_gas)) /\ NoDup (map cr_equation (so_reactions small_gas')) /\
  compare_models small_gas small_gas' = Ok true /\
  compare_models small_gas (with_reactions [h2_o 38701; h_oh troe4]) = Ok false.
Proof. exact accepted_case. Qed.

(** C42: a model matches itself unless one of the compared numbers is NaN. *)
Theorem model_matches_itself :
  forall m, well_formed m -> compare_models m m = Ok true <-> no_nan m.
Proof. exact compare_self. Qed.
Print Assumptions model_matches_itself.

Example model_matches_itself_case :
  well_formed small_gas /\ no_nan small_gas /\
  compare_models (with_reactions [h_oh [NaN]]) (with_reactions [h_oh [NaN]]) = Ok false.
Proof. exact self_case. Qed.

(** C42: the outcome, also an exception, does not depend on the order of
    species nor, if the equations are distinct, on that of reactions. *)
Theorem order_does_not_matter :
  forall m1 m2 m1' m2',
    NoDup (map cs_name (so_species m1)) -> NoDup (map cs_name (so_species m2)) ->
    NoDup (map cr_equation (so_reactions m1)) -> NoDup (map cr_equation (so_reactions m2)) ->
    Permutation (so_species m1) (so_species m1') -> Permutation (so_species m2) (so_species m2') ->
    Permutation (so_reactions m1) (so_reactions m1') -> Permutation (so_reactions m2) (so_reactions m2') ->
    compare_models m1 m2 = compare_models m1' m2'.
Proof. exact (compare_order isclose). Qed.
Print Assumptions order_does_not_matter.

Example order_does_not_matter_case :
  let m := with_reactions [h2_o 38700; h_oh troe4] in
  let m' := mkCSol "gas" ["H"; "O"] [oh; h; o; h2] [h_oh troe4; h2_o 38700] in
  NoDup (map cs_name (so_species m)) /\ NoDup (map cr_equation (so_reactions m)) /\
  Permutation (so_species m) (so_species m') /\ Permutation (so_reactions m) (so_reactions m') /\
  compare_models small_gas m = Ok true /\ compare_models small_gas m' = Ok true.
Proof. exact order_case. Qed.

(** C42: with duplicate reactions the order matters. *)
Theorem order_of_duplicates_matters_refuted :
  exists m l, Permutation (so_reactions m) l /\ well_formed m /\ no_nan m /\
    compare_models m (mkCSol (so_name m) (so_elements m) (so_species m) l) = Ok false.
Proof. exact duplicates_matter. Qed.
Print Assumptions order_of_duplicates_matters_refuted.

(** C42: the answer depends on which model comes first: two rates that differ
    by about 1e-5, or a species without and with transport data. *)
Theorem symmetric_refuted :
  exists r1 r2 t1 t2,
    (forall m, In m [with_reactions [r1]; with_reactions [r2]; with_species [t1]; with_species [t2]] -> well_formed m /\ no_nan m) /\
    compare_models (with_reactions [r1]) (with_reactions [r2]) = Ok true /\
    compare_models (with_reactions [r2]) (with_reactions [r1]) = Ok false /\
    cs_transport t1 = None /\ cs_transport t2 <> None /\
    compare_models (with_species [t1]) (with_species [t2]) = Ok true /\
    compare_models (with_species [t2]) (with_species [t1]) = Ok false.
Proof. exact not_symmetric. Qed.
Print Assumptions symmetric_refuted.

(** C56: a reversible reaction matches an irreversible one, and two
    pre-exponential factors of which one is five times the other match if both
    are small. *)
Theorem different_models_match_refuted :
  (exists r1 r2, well_formed (with_reactions [r1]) /\ well_formed (with_reactions [r2]) /\
     cr_equation r1 = "OH <=> H + O" /\ cr_equation r2 = "OH => H + O" /\
     compare_models (with_reactions [r1]) (with_reactions [r2]) = Ok true) /\
  (exists A1 A2, (A1 == 5 * A2)%Q /\ ~ (A2 == 0)%Q /\
     well_formed (with_reactions [h2_o A1]) /\ well_formed (with_reactions [h2_o A2]) /\
     compare_models (with_reactions [h2_o A1]) (with_reactions [h2_o A2]) = Ok true).
Proof. exact different_match. Qed.
Print Assumptions different_models_match_refuted.

(** C57: comparing a falloff reaction that has three Troe parameters with one
    that has four, all else being equal, raises ValueError. *)
Theorem troe_lengths_raise_refuted :
  exists c1 c2, length c1 = 3%nat /\ length c2 = 4%nat /\
    well_formed (with_reactions [h_oh c1]) /\ well_formed (with_reactions [h_oh c2]) /\
    compare_models (with_reactions [h_oh c1]) (with_reactions [h_oh c2]) = Raise ValueError.
Proof. exact troe_lengths. Qed.
Print Assumptions troe_lengths_raise_refuted.
