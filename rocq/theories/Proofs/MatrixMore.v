(** Packaged matrix facts and the concrete cases. *)
From Coq Require Import String List QArith Qabs Bool Arith Lqa.
From Verif.Base Require Import Py Num.
From Verif.Model Require Import Mech Matrices.
From Verif.Spec Require Import MatrixSpec Samples.
From Verif.Proofs Require Import NumFacts MatrixFacts.
Import ListNotations.
Local Open Scope Q_scope.

(** Mechanism [toy] at a state with one idle reaction and rates of both signs. *)
Definition toy_kin : kinetics := kin_of toy [2; 0; 3; (-2); 4].

Lemma shape_adjacency n M : shape n n M -> (forall a, (a < n)%nat -> mget M a a = 0) ->
  adjacency_shape n M.
Proof.
  intros [H1 H2] H3. split; [auto|]. split; [auto|]. intros a Ha. rewrite H3 by auto. reflexivity.
Qed.

Lemma drg_full K d : indicator K d ->
  adjacency_shape (k_nsp K) (create_drg_matrix K) /\ is_drg K d (mget (create_drg_matrix K)).
Proof.
  intros D. split; [|now apply drg_correct]. destruct (drg_shape K). now apply shape_adjacency.
Qed.

Lemma drgep_full K d : indicator K d ->
  adjacency_shape (k_nsp K) (create_drgep_matrix K) /\ is_drgep K d (mget (create_drgep_matrix K)).
Proof.
  intros D. split; [|now apply drgep_correct]. destruct (drgep_shape K). now apply shape_adjacency.
Qed.

Lemma pfa_full K d : indicator K d ->
  adjacency_shape (k_nsp K) (create_pfa_matrix K) /\ is_pfa K d (mget (create_pfa_matrix K)).
Proof.
  intros D. split; [|now apply pfa_correct]. destruct (pfa_shape K). now apply shape_adjacency.
Qed.

Lemma flag_indicator K : indicator K (fun b i => if flag K b i then 1 else 0).
Proof.
  intros b i. rewrite <- flag_iff. destruct (flag K b i); split; intros H; try reflexivity; congruence.
Qed.

Lemma toy_drg : exists d, indicator toy_kin d /\
    map Qred (nth 0 (create_drg_matrix toy_kin) []) = [0; 7#15; 7#15; 0; 13#15; 0].
Proof. eexists. split; [apply flag_indicator|]. vm_compute. reflexivity. Qed.

Lemma toy_drgep : exists d, indicator toy_kin d /\
    map Qred (nth 0 (create_drgep_matrix toy_kin) []) = [0; 3#13; 3#13; 0; 9#13; 0].
Proof. eexists. split; [apply flag_indicator|]. vm_compute. reflexivity. Qed.

Lemma toy_pfa : exists d, indicator toy_kin d /\
    map Qred (nth 0 (create_pfa_matrix toy_kin) []) = [0; 67#52; 35#26; 0; 87#52; 0].
Proof. eexists. split; [apply flag_indicator|]. vm_compute. reflexivity. Qed.
