(** Facts about the samples of Spec/FloatSamples.v. *)
From Coq Require Import String List ZArith QArith Qabs Bool Arith Lia.
From Coq Require Import Floats.SpecFloat.
From Verif.Base Require Import Py Num B64.
From Verif.Model Require Import Matrices Graph FloatDrivers FloatMatrix.
From Verif.Spec Require Import MatrixSpec GraphSpec FloatMatrixSpec FloatSamples.
From Verif.Proofs Require Import PyFacts NumFacts MatrixFacts GraphMore StepInst.
Import ListNotations.
Local Open Scope string_scope.

Lemma sizedb_ok x m : sizedb x m = true -> sized x m.
Proof.
  destruct x as [s|s| |s k e]; simpl; intros H; try discriminate.
  - split; [exact I|]. apply Qle_bool_iff in H. exact H.
  - apply andb_true_iff in H. destruct H as [H1 H2]. split; [exact H1|]. now apply Qle_bool_iff in H2.
Qed.

Lemma all_sized l m i : sizedb fzero m = true -> forallb (fun x => sizedb x m) l = true -> sized (nth i l fzero) m.
Proof.
  intros Z H. destruct (nth_in_or_default i l fzero) as [I| ->]; [|now apply sizedb_ok].
  rewrite forallb_forall in H. apply sizedb_ok. auto.
Qed.

Lemma moderateb_ok K : moderateb K = true -> moderate K.
Proof.
  unfold moderateb. rewrite !andb_true_iff. intros [[[H1 H2] H3] H4]. split; [|split; [|split]].
  - intros k i. unfold fget. apply all_sized; [reflexivity|].
    destruct (nth_in_or_default k (fk_prod K) nil) as [I| ->]; [|reflexivity].
    rewrite forallb_forall in H1. auto.
  - intros k i. unfold fget. apply all_sized; [reflexivity|].
    destruct (nth_in_or_default k (fk_reac K) nil) as [I| ->]; [|reflexivity].
    rewrite forallb_forall in H2. auto.
  - intros i. apply all_sized; [reflexivity|exact H3].
  - now apply Z.leb_le.
Qed.

Lemma not_tinyb_ok x : not_tinyb x = true -> not_tiny x.
Proof.
  unfold not_tinyb. rewrite orb_true_iff. intros [H|H]; [left; now apply Qeq_bool_iff|right; now apply Qle_bool_iff].
Qed.

Lemma burn_moderate : moderate burn.
Proof. apply moderateb_ok. vm_compute. reflexivity. Qed.
Lemma burn2_moderate : moderate burn2.
Proof. apply moderateb_ok. vm_compute. reflexivity. Qed.
Lemma tie_moderate : moderate tie.
Proof. apply moderateb_ok. vm_compute. reflexivity. Qed.
Lemma swap_moderate : moderate swap.
Proof. apply moderateb_ok. vm_compute. reflexivity. Qed.

Ltac three a H := destruct a as [|[|[|a]]]; [| | |exfalso; simpl in H; lia].

Lemma burn_visible a : (a < 3)%nat -> not_tiny (drg_total (exact burn) a) /\ not_tiny (drgep_total (exact burn) a).
Proof. intros H. three a H; split; apply not_tinyb_ok; vm_compute; reflexivity. Qed.
Lemma burn2_visible a : (a < 3)%nat -> not_tiny (drg_total (exact burn2) a) /\ not_tiny (drgep_total (exact burn2) a).
Proof. intros H. three a H; split; apply not_tinyb_ok; vm_compute; reflexivity. Qed.
Lemma tie_visible a : (a < 3)%nat -> not_tiny (drg_total (exact tie) a) /\ not_tiny (drgep_total (exact tie) a).
Proof. intros H. three a H; split; apply not_tinyb_ok; vm_compute; reflexivity. Qed.

Lemma burns_ready K : In K [burn; burn2] -> moderate K /\ fk_nsp K = length abc /\ (length (fk_rop K) <= 3)%nat /\
  forall a, (a < length abc)%nat -> not_tiny (drgep_total (exact K) a).
Proof.
  intros [<-|[<-|[]]].
  - split; [exact burn_moderate|]. split; [reflexivity|]. split; [simpl; lia|]. intros a H. now apply burn_visible.
  - split; [exact burn2_moderate|]. split; [reflexivity|]. split; [simpl; lia|]. intros a H. now apply burn2_visible.
Qed.

Lemma abc_nodup : NoDup abc.
Proof. repeat constructor; simpl; intuition discriminate. Qed.

(** The exact importance of B in [tie] is below 1/2. *)
Lemma tie_exact : exists m, is_importance abc ["A"] [create_drgep_matrix (exact tie)] "B" m /\ (m < 1 # 2)%Q.
Proof.
  assert (exists r, get_importance_coeffs 20 abc ["A"] [create_drgep_matrix (exact tie)] = Ok r /\
            exists m, dget "B" r = Some m /\ (m < 1 # 2)%Q) as (r & R & m & D & L).
  { eexists. split; [vm_compute; reflexivity|]. eexists. split; [vm_compute; reflexivity|]. vm_compute. reflexivity. }
  exists m. split; auto. eapply (importance_any 20 abc ["A"] [create_drgep_matrix (exact tie)] r); auto.
  - exact abc_nodup.
  - intros x [<-|[]]; simpl; auto.
  - intros M [<-|[]] i j Hi Hj. apply drgep_bounds; auto.
Qed.

(** With doubles it is 1/2, so B is kept at the threshold 1/2. *)
Lemma tie_float : exists r, f_importance_coeffs 20 abc ["A"] [f_drgep_matrix tie] = Ok r /\
  f_below r nil (b64_of_frac 1 2) abc = Ok nil.
Proof. eexists. split; [vm_compute; reflexivity|]. vm_compute. reflexivity. Qed.
