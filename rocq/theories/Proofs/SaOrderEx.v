(** The sample run in which rounding changes the order. *)
From Coq Require Import String List QArith Qabs Bool.
From Coq Require Import Floats.SpecFloat.
From Verif.Base Require Import Py Num XNum Paths B64.
From Verif.Model Require Import Mech World Metrics Drivers Sensitivity FloatDrivers SaveText DoubleError.
From Verif.Spec Require Import TrimSpec Samples DriverSpec DriverSamples FloatMatrixSpec SensitivitySpec SaSamples SaOrderSpec.
From Verif.Proofs Require Import SampleFacts SaFacts SaMore SaOrderFacts SaRef SaSampleFacts.
Import ListNotations.
Local Open Scope string_scope.

Lemma fragile_order :
  exists w tmp tmp2 sol ref sc, forall alg,
    let K := fragile_sa alg double_distance in
    sa_started K w tmp tmp2 sol /\ reference K w ref /\ candidates K w sol ["B"; "C"] /\ scored_on K ref sol ["B"; "C"] sc /\
    (exists q q', sc = [("B", Fin q); ("C", Fin q')] /\ double_value (Fin q) q /\ double_value (Fin q') q' /\
       (Qabs (q' - 1000) < Qabs (q - 1000))%Q) /\
    (exists others, next_tried K (Fin 1000) sc "B" others) /\
    match returned_names (run_sa 2 tmp tmp2 K w), returned_names (run_sa 2 tmp tmp2 (fragile_sa alg error_distance) w) with
    | Ok with_doubles, Ok exact => with_doubles = ["A"; "C"; "D"] /\ exact = ["A"; "B"; "D"]
    | _, _ => False
    end.
Proof.
  exists sa_world, "/tmp/a", "/tmp/b", fan, [Fin 100].
  destruct (mapM (score "" (mkCondsWith [fragile] nil nil double_error) [Fin 100] fan) ["B"; "C"]) as [errs|?|] eqn:EM.
  2: { exfalso. revert EM. vm_compute. discriminate. }
  2: { exfalso. revert EM. vm_compute. discriminate. }
  exists (combine ["B"; "C"] errs). intros alg K.
  destruct (mapM_scored K [Fin 100] fan ["B"; "C"] errs EM) as [SC _].
  split.
  { constructor; [apply wf_mechb_sound; reflexivity|exists [fan]; split; reflexivity|apply sample_temps; auto]. }
  split; [eapply one_saved; try reflexivity; exists [fan]; split; reflexivity|].
  split; [left; split; [reflexivity|discriminate]|]. split; [exact SC|].
  vm_compute in EM. injection EM as <-.
  split; [|split].
  - do 2 eexists. split; [reflexivity|]. split; [|split].
    + exists (S754_zero false). split; [reflexivity|]. split; [exact Logic.I|]. split; [reflexivity|].
      apply Qle_bool_iff. vm_compute. reflexivity.
    + exists (S754_finite false 4503599627370496 (-98)). split; [reflexivity|]. split; [reflexivity|].
      split; [apply Qeq_bool_iff; vm_compute; reflexivity|]. apply Qle_bool_iff. vm_compute. reflexivity.
    + vm_compute. reflexivity.
  - assert (forall q, choose double_distance (Fin 1000) (map snd [("B", Fin 0); ("C", Fin q)]) = 0%nat ->
      exists others, next_tried K (Fin 1000) [("B", Fin 0); ("C", Fin q)] "B" others) as NX.
    { intros q C. exists [("C", Fin q)]. apply next_iff. exists (Fin 0). change (s_far K) with double_distance. rewrite C. auto. }
    apply NX. vm_compute. reflexivity.
  - destruct alg; vm_compute; split; reflexivity.
Qed.

Lemma special_order :
  let K := fragile_sa Initial double_distance in
  double_value (Fin 4) 4 /\ (exists s others, next_tried K (Fin 4) [("B", PInf); ("C", Fin 4); ("D", NaN)] s others /\ s = "D") /\
  exists s others, next_tried K (Fin 4) [("B", NInf); ("C", Fin 4)] s others /\ s = "C".
Proof.
  intros K. split.
  - exists (S754_finite false 4503599627370496 (-50)). split; [reflexivity|]. split; [reflexivity|].
    split; [apply Qeq_bool_iff; vm_compute; reflexivity|]. apply Qle_bool_iff. vm_compute. reflexivity.
  - split; [exists "D", [("B", PInf); ("C", Fin 4)]|exists "C", [("B", NInf)]]; (split; [apply next_iff|reflexivity]).
    + exists NaN. assert (choose (s_far K) (Fin 4) (map snd [("B", PInf); ("C", Fin 4); ("D", NaN)]) = 2%nat) as C by (vm_compute; reflexivity).
      rewrite C. split; reflexivity.
    + exists (Fin 4). assert (choose (s_far K) (Fin 4) (map snd [("B", NInf); ("C", Fin 4)]) = 1%nat) as C by (vm_compute; reflexivity).
      rewrite C. split; reflexivity.
Qed.
