(** [compare_models] with doubles (C101). *)
From Coq Require Import String List Bool QArith Sorting.Permutation.
From Verif.Base Require Import Py XNum.
From Verif.Model Require Import Chem Compare CompareDouble.
From Verif.Spec Require Import CompareSpec CompareSamples CompareDoubleSpec CompareDoubleSamples.
From Verif.Proofs Require Import CompareFacts CompareDoubleFacts CompareDoubleEx.
Import ListNotations.

(** C101: models that are accepted agree up to the tolerances times 1 + 2^-50,
    and models that agree up to the tolerances times 1 - 2^-50 are accepted. *)
Theorem double_comparison_accepts :
  forall m1 m2,
    well_formed m1 -> well_formed m2 ->
    NoDup (map cr_equation (so_reactions m1)) -> NoDup (map cr_equation (so_reactions m2)) ->
    double_values m1 -> double_values m2 ->
    (double_compare m1 m2 = Ok true -> equivalent_by (1 + (2 # 1) ^ (-50)) m1 m2) /\
    (equivalent_by (1 - (2 # 1) ^ (-50)) m1 m2 -> double_compare m1 m2 = Ok true).
Proof. exact double_accepts. Qed.
Print Assumptions double_comparison_accepts.

Example double_comparison_accepts_case :
  (forall A, In A [38700; 38701; 38700 + (1 # 4)] -> well_formed (even_gas A) /\ double_values (even_gas A) /\
     NoDup (map cr_equation (so_reactions (even_gas A)))) /\
  double_compare (even_gas 38700) (even_gas (38700 + (1 # 4))) = Ok true /\
  double_compare (even_gas 38700) (even_gas 38701) = Ok false.
Proof. exact double_case. Qed.

(** C101: a model matches itself unless one of the compared numbers is NaN. *)
Theorem double_model_matches_itself :
  forall m, well_formed m -> double_values m -> double_compare m m = Ok true <-> no_nan m.
Proof. exact double_self. Qed.
Print Assumptions double_model_matches_itself.

(** C101: the order of species and reactions does not matter. *)
Theorem double_order_does_not_matter :
  forall m1 m2 m1' m2',
    NoDup (map cs_name (so_species m1)) -> NoDup (map cs_name (so_species m2)) ->
    NoDup (map cr_equation (so_reactions m1)) -> NoDup (map cr_equation (so_reactions m2)) ->
    Permutation (so_species m1) (so_species m1') -> Permutation (so_species m2) (so_species m2') ->
    Permutation (so_reactions m1) (so_reactions m1') -> Permutation (so_reactions m2) (so_reactions m2') ->
    double_compare m1 m2 = double_compare m1' m2'.
Proof. exact (compare_order double_close). Qed.
Print Assumptions double_order_does_not_matter.

Example double_order_does_not_matter_case :
  double_compare (even_gas 38700) (mkCSol "gas" ["H"; "O"]%string [oh; h; o; h2] [even_oh; even_h2_o 38700; even_h_oh]) = Ok true /\
  double_compare (with_reactions [h_oh [NaN]]) (with_reactions [h_oh [NaN]]) = Ok false.
Proof. split; vm_compute; reflexivity. Qed.

(** C101: rounding can decide: pre-exponential factors of 0 and of the double
    1e-8 match with doubles, although they differ by more than 10^-8. *)
Theorem double_comparison_exact_refuted :
  exists m1 m2, well_formed m1 /\ well_formed m2 /\ double_values m1 /\ double_values m2 /\
    double_compare m1 m2 = Ok true /\ compare_models m1 m2 = Ok false.
Proof. exact double_edge. Qed.
Print Assumptions double_comparison_exact_refuted.
