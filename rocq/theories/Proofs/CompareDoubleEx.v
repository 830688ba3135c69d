(** Concrete comparisons with doubles. *)
From Coq Require Import String List Bool QArith Qabs.
From Coq Require Import Floats.SpecFloat.
From Verif.Base Require Import Py XNum B64.
From Verif.Model Require Import Chem Compare FloatDrivers SaveText DoubleError CompareDouble.
From Verif.Spec Require Import FloatMatrixSpec CompareSpec CompareSamples CompareDoubleSpec CompareDoubleSamples.
From Verif.Proofs Require Import CompareFacts CompareEx.
Import ListNotations.

Definition numberb (x : xnum) : bool :=
  match x with
  | Fin q => match b64_of_Q false q with
             | S754_zero _ => Qeq_bool 0 q
             | S754_finite s m e => bounded 53 1024 m e && Qeq_bool (b64_val (S754_finite s m e)) q && Qle_bool (Qabs q) ((2 # 1) ^ 900)
             | _ => false
             end
  | _ => true
  end.
Lemma numberb_ok x : numberb x = true -> double_number x.
Proof.
  destruct x as [q| | |]; cbn [numberb double_number]; auto. destruct (b64_of_Q false q) as [s|s| |s m e] eqn:E; try discriminate.
  - intros H. apply Qeq_bool_iff in H. exists (S754_zero s). split; [exact I|]. split; [exact H|]. rewrite <- H.
    apply Qle_bool_iff. vm_compute. reflexivity.
  - rewrite !andb_true_iff. intros ((A & B) & C). exists (S754_finite s m e). split; [exact A|].
    split; [apply Qeq_bool_iff; exact B|apply Qle_bool_iff; exact C].
Qed.
Lemma values_ok m : forallb (fun s => forallb numberb (thermo_values s)) (so_species m) = true ->
  forallb (fun r => forallb numberb (rate_values (cr_rate r))) (so_reactions m) = true -> double_values m.
Proof.
  intros S R. rewrite forallb_forall in S, R. split.
  - intros s x I J. specialize (S s I). rewrite forallb_forall in S. apply numberb_ok. auto.
  - intros r x I J. specialize (R r I). rewrite forallb_forall in R. apply numberb_ok. auto.
Qed.
Ltac values := apply values_ok; vm_compute; reflexivity.
Ltac distinct := apply nodupb_ok; vm_compute; reflexivity.

Lemma double_case :
  (forall A, In A [38700; 38701; 38700 + (1 # 4)] -> well_formed (even_gas A) /\ double_values (even_gas A) /\
     NoDup (map cr_equation (so_reactions (even_gas A)))) /\
  double_compare (even_gas 38700) (even_gas (38700 + (1 # 4))) = Ok true /\
  double_compare (even_gas 38700) (even_gas 38701) = Ok false.
Proof.
  split; [|split; vm_compute; reflexivity].
  intros A [<-|[<-|[<-|[]]]]; (split; [wf|split; [values|distinct]]).
Qed.

Lemma double_edge :
  exists m1 m2, well_formed m1 /\ well_formed m2 /\ double_values m1 /\ double_values m2 /\
    double_compare m1 m2 = Ok true /\ compare_models m1 m2 = Ok false.
Proof.
  exists (even_gas ten_nano), (even_gas 0).
  split; [wf|]. split; [wf|]. split; [values|]. split; [values|]. split; vm_compute; reflexivity.
Qed.
