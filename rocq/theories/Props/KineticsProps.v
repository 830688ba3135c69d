(** The coefficients that the drivers compare with thresholds (C108). *)
From Coq Require Import String List QArith ZArith Bool Arith.
From Verif.Base Require Import Py Num XNum B64.
From Verif.Model Require Import Mech Matrices FloatDrivers.
From Verif.Spec Require Import Samples MatrixSpec DriverSpec FloatSpec FloatMatrixSpec FloatRunSpec KineticsSpec.
From Verif.Proofs Require Import KineticsFacts KineticsEx.
Import ListNotations.
Local Open Scope Q_scope.

(** C108: the arrays that the drivers search at the sampled states are the
    coefficients of docs/theory.rst for the stoichiometric coefficients that
    the reactions of the model list and the sampled rates. *)
Theorem searched_coefficients_documented :
  forall me m ws,
    Forall2 (fun w Mx => exists K, describes m w K /\ documented me K (mget Mx)) ws (matrices me m ws).
Proof. exact used_documented. Qed.
Print Assumptions searched_coefficients_documented.

(** C108: the same for the exact coefficients to which C88 and C105 compare the
    drivers with doubles. *)
Theorem reference_coefficients_documented :
  forall me m rops, double_coefficients m ->
    Forall2 (fun rop Mx => exists K, describes m (map b64_val rop) K /\ documented me K (mget Mx)) rops (xmatrices me m rops).
Proof. exact fused_documented. Qed.
Print Assumptions reference_coefficients_documented.

(** The first rows at two states of [toy].  H is turned over at the rates 2, 0,
    3, 2 and 2 times 4; H2 is in the last three reactions. *)
Example searched_coefficients_documented_case :
  map (fun me => map (fun Mx => map Qred (nth 0 Mx [])) (matrices me toy [[2; 0; 3; (-2); 4]; [0; 1; 0; 0; 0]])) [DRG; DRGEP] =
  [[[0; 7#15; 7#15; 0; 13#15; 0]; [0; 1; 1; 0; 0; 0]];
   [[0; 3#13; 3#13; 0; 9#13; 0]; [0; 1; 1; 0; 0; 0]]].
Proof. vm_compute. reflexivity. Qed.

(** A becomes B at the rate 3 and C at the rate 97. *)
Example reference_coefficients_documented_case :
  double_coefficients fork /\
  map (fun me => map (map (map Qred)) (xmatrices me fork [[b64_of_Z 3; b64_of_Z 97]])) [DRG; PFA; DRGEP] =
  repeat [[[0; 3#100; 97#100]; [1; 0; 0]; [1; 0; 0]]] 3.
Proof. split; [exact fork_doubles|vm_compute; reflexivity]. Qed.
