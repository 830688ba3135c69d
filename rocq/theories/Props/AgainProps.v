(** Properties of running the program again in a directory it has already run in (C107). *)
From Coq Require Import String List ZArith QArith Bool Arith.
From Verif.Base Require Import Py Num XNum Paths B64.
From Verif.Model Require Import Mech World Metrics Drivers Sensitivity Simulation Sampling Main FloatRun DoubleError FloatMain.
From Verif.Spec Require Import TrimSpec Samples MetricSpec DriverSpec DriverSamples SensitivitySpec SimSpec SamplingSpec SamplingSamples
  MainSpec MainSamples FloatSpec DoubleErrorSpec FloatMainSpec FloatMainSamples.
From Verif.Proofs Require Import MainCli FloatMainEx AgainFacts.
Import ListNotations.
Local Open Scope string_scope.

(** C107: a new process given the same arguments and the files that a run left
    behind returns the same model, error, file name and species left to check,
    and leaves every file as it was. *)
Theorem run_again_same :
  forall K rates floor C a B w sol me r w',
    prepared K C a w sol -> double_posed K rates floor C a sol -> a_method a = method_name me ->
    (a_sa a = true -> temps_ok w (a_path a) B) ->
    fmain B K rates floor C a w = (Ok r, w') ->
    forall v, (forall f, w_fs v f = w_fs w' f) -> w_shared v = w_shared w ->
    exists v', fmain B K rates floor C a v = (Ok r, v') /\ forall f, w_fs v' f = w_fs w' f.
Proof. intros * RD DP NA TE E. exact (run_again _ _ _ _ _ _ _ _ _ RD DP NA TE _ _ E). Qed.
Print Assumptions run_again_same.

(** C107: a run of [b] after a run of [a] for the same model, phase, output
    directory and cases gives what it would have given in the directory as it
    was before [a], whatever method, targets, safe species, thresholds, limit
    and analysis [a] had.  Each file that [b] alone would have changed is as
    [b] alone would have left it, and each other file is as [a] left it. *)
Theorem run_after_other_run :
  forall K rates floor C a b B B' w sol me me' r w' r2 w2,
    prepared K C a w sol -> double_posed K rates floor C a sol -> a_method a = method_name me ->
    (a_sa a = true -> temps_ok w (a_path a) B) ->
    prepared K C b w sol -> double_posed K rates floor C b sol -> a_method b = method_name me' ->
    (a_sa b = true -> temps_ok w (a_path b) B') ->
    a_file b = a_file a -> a_phase b = a_phase a -> a_path b = a_path a ->
    fmain B K rates floor C a w = (Ok r, w') -> fmain B' K rates floor C b w = (Ok r2, w2) ->
    forall v, (forall f, w_fs v f = w_fs w' f) -> w_shared v = w_shared w ->
    exists v', fmain B' K rates floor C b v = (Ok r2, v') /\
      (forall f, w_fs w2 f <> w_fs w f -> w_fs v' f = w_fs w2 f) /\
      (forall f, w_fs v' f = w_fs w2 f \/ w_fs v' f = w_fs w' f).
Proof.
  intros * RD DP NA TE RD' DP' NA' TE' EF EP EQ E E2.
  exact (run_after _ _ _ _ _ _ _ _ _ _ _ _ RD DP NA TE RD' DP' NA' TE' EF EP EQ _ _ _ _ E E2).
Qed.
Print Assumptions run_after_other_run.

(** DRGEP with an analysis, after itself and after DRG: both as in the first
    run (see [double_main_end_to_end_case]). *)
Definition later (w : world) : world := mkWorld (w_fs w) nil.
Example run_again_case :
  (forall me sa, prepared (eighth_machine "HO2") (cases_with "N2") (toy_main me ["N2"] sa (Some 1%Q)) toy_world toy) /\
  (forall me sa, double_posed (eighth_machine "HO2") (steady_rates [2; 0; 3; (-2); 4]%Z) None (cases_with "N2")
                   (toy_main me ["N2"] sa (Some 1%Q)) toy) /\
  temps_ok toy_world "out" toy_limits /\ w_shared toy_world = nil /\
  map (fun x => (view x, look (snd x) ["mech.yaml"; "out/reduced_3.yaml"; "out/reduced_5.yaml"; "ignition_output.txt"]))
    [ftoy "DRGEP" ["N2"] true (Some 1%Q) (later (snd (ftoy "DRGEP" ["N2"] true (Some 1%Q) toy_world)));
     ftoy "DRGEP" ["N2"] true (Some 1%Q) (later (snd (ftoy "DRG" ["N2"] false (Some 1%Q) toy_world)))] =
  repeat (Ok (["O2"; "HO2"; "N2"], "reduced_3.yaml", Fin 0, ["HO2"]), [Some 6; Some 3; Some 5; Some 0])%nat 2.
Proof.
  split; [intros; apply ftoy_prepared|]. split; [intros; apply ftoy_posed; now right|]. split; [apply toy_temps|]. split; [reflexivity|].
  vm_compute. reflexivity.
Qed.
