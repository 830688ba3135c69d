(** A directory with samples of other sizes. *)
From Coq Require Import String List ZArith QArith Bool Arith Lia.
From Verif.Base Require Import Py Num XNum.
From Verif.Model Require Import Mech World Metrics.
From Verif.Spec Require Import Samples StaleSpec.
Import ListNotations.
Local Open Scope string_scope.

Definition block (n k : nat) : list (list xnum) := repeat (repeat (Fin 1) k) n.
Definition stale_world : world := mkWorld (fun f =>
  if String.eqb f "mech.yaml" then Some (FMech [toy])
  else if String.eqb f "ignition_output.txt" then Some (FTable (block 2 2))
  else if String.eqb f "ignition_data.dat" then Some (FTable (block 40 8))
  else if String.eqb f "psr_output.txt" then Some (FNums [Fin 1; Fin 2; Fin 3])
  else if String.eqb f "psr_data.dat" then Some (FTable (block 5 8))
  else if String.eqb f "laminarflame_data.dat" then Some (FTable (block 20 8))
  else None) nil.

Lemma block_table n k : (2 <= n)%nat -> (2 <= k)%nat -> table_of (block n k) k.
Proof.
  intros N K. split; [now unfold block; rewrite repeat_length|]. split; [exact K|].
  intros r I. apply repeat_spec in I. subst r. apply repeat_length.
Qed.

Lemma stale_ign : does_not_fit stale_world "ignition_data.dat" "ignition_output.txt" 2 40 8.
Proof.
  right. right. exists (FTable (block 2 2)), 4%nat, (block 40 8), 8%nat. split; [reflexivity|].
  split; [exact (several_to_a_line (block 2 2) 2 (block_table 2 2 ltac:(lia) ltac:(lia)))|]. split; [reflexivity|].
  split; [apply block_table; lia|left; lia].
Qed.
Lemma stale_psr : does_not_fit stale_world "psr_data.dat" "psr_output.txt" 3 3 8.
Proof.
  right. right. exists (FNums [Fin 1; Fin 2; Fin 3]), 3%nat, (block 5 8), 8%nat. split; [reflexivity|].
  split; [exact (one_to_a_line _)|]. split; [reflexivity|].
  split; [apply block_table; lia|right; left; discriminate].
Qed.
Lemma stale_flame : does_not_fit stale_world "laminarflame_data.dat" "laminarflame_output.txt" 1 20 8.
Proof. right. left. reflexivity. Qed.
