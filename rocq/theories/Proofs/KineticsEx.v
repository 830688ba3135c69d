(** A model with coefficients that are doubles. *)
From Coq Require Import String List QArith ZArith Bool.
From Verif.Base Require Import Py Num XNum B64.
From Verif.Model Require Import Mech Matrices FloatDrivers.
From Verif.Spec Require Import Samples DriverSpec FloatSpec FloatMatrixSpec KineticsSpec.
Import ListNotations.
Local Open Scope string_scope.

Lemma fork_doubles : double_coefficients fork.
Proof.
  intros r s v I H. exists (b64_of_Z 1). split; [reflexivity|].
  assert (v = 1%Q) as ->; [|reflexivity].
  simpl in I. destruct I as [<-|[<-|[]]]; cbn [rx rx_products rx_reactants dget] in H; destruct H as [H|H];
    match type of H with (if ?b then _ else _) = _ => destruct b; [|discriminate] end; congruence.
Qed.
