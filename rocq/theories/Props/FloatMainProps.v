(** Properties of the whole program with doubles (C98). *)
From Coq Require Import String List ZArith QArith Bool Arith.
From Verif.Base Require Import Py Num XNum Paths B64.
From Verif.Model Require Import Mech World Metrics Drivers Sensitivity Simulation Sampling Main FloatRun DoubleError FloatMain.
From Verif.Spec Require Import TrimSpec Samples MetricSpec DriverSpec DriverSamples SensitivitySpec SimSpec SamplingSpec SamplingSamples
  MainSpec MainSamples FloatSpec DoubleErrorSpec FloatMainSpec FloatMainSamples.
From Verif.Proofs Require Import MainCli FloatMainFacts FloatMainEx.
Import ListNotations.
Local Open Scope string_scope.

(** C98: from a directory without saved samples, a run that returns has written
    the model it reports; its error, computed with doubles, is the reported
    one and a finite number, and within the limit unless a coefficient is next
    to the accepted threshold; other files are as before; targets and safe
    species are kept as in C40. *)
Theorem double_main_end_to_end :
  forall K rates floor C a B w sol me r w',
    prepared K C a w sol -> double_posed K rates floor C a sol -> a_method a = method_name me ->
    (a_sa a = true -> temps_ok w (a_path a) B) ->
    fmain B K rates floor C a w = (Ok r, w') ->
    exists ref e, metrics_of (conds_of (k_fuel K) (k_physics K) floor C) sol = Ok ref /\
      error_of (double_conds (conds_of (k_fuel K) (k_physics K) floor C)) ref (r_model r) = Ok (r_error r) /\
      r_error r = Fin e /\
      (~ at_the_edge me K rates floor C a sol -> xle (r_error r) (a_limit a) = true) /\
      w_fs w' (path_join (a_path a) (reduced_name (n_species (r_model r)))) = Some (FMech [r_model r]) /\
      (forall f, ~ In f sample_files -> ~ scratch (a_path a) (length (ca_ign C)) f ->
         (forall n, f <> path_join (a_path a) (reduced_name n)) -> w_fs w' f = w_fs w f) /\
      ((a_sa a = true -> limbo_harmless me a w) ->
       forall s, In s (a_targets a ++ a_safe a) -> In s (species_names sol) -> In s (species_names (r_model r))).
Proof. intros * RD DP. now apply fwhole. Qed.
Print Assumptions double_main_end_to_end.

(** C98: each metric of the model is within the limit, stretched by one part in
    2^50, of the detailed model's. *)
Theorem double_main_metrics_close :
  forall K rates floor C a B w sol me r w' l,
    prepared K C a w sol -> double_posed K rates floor C a sol -> a_method a = method_name me ->
    (a_sa a = true -> temps_ok w (a_path a) B) -> a_limit a = Fin l -> (l <= 99)%Q ->
    ~ at_the_edge me K rates floor C a sol ->
    fmain B K rates floor C a w = (Ok r, w') ->
    exists ref ts, metrics_of (conds_of (k_fuel K) (k_physics K) floor C) sol = Ok ref /\
      metrics_of (conds_of (k_fuel K) (k_physics K) floor C) (r_model r) = Ok ts /\
      length ref = n_metrics C /\ length ts = n_metrics C /\
      forall o t, In (o, t) (combine ref ts) -> usable t /\ within (l * (1 + (2 # 1) ^ (-50))) o t.
Proof. intros * RD DP. now apply fwhole_close. Qed.
Print Assumptions double_main_metrics_close.

(** DRGEP alone, and with an analysis that removes H and H2; the files of the
    second run. *)
Example double_main_end_to_end_case :
  (forall sa, prepared (eighth_machine "HO2") (cases_with "N2") (toy_main "DRGEP" ["N2"] sa (Some 1%Q)) toy_world toy) /\
  (forall sa, double_posed (eighth_machine "HO2") (steady_rates [2; 0; 3; (-2); 4]%Z) None (cases_with "N2")
                (toy_main "DRGEP" ["N2"] sa (Some 1%Q)) toy) /\
  temps_ok toy_world "out" toy_limits /\
  limbo_harmless DRGEP (toy_main "DRGEP" ["N2"] true (Some 1%Q)) toy_world /\
  map (fun sa => view (ftoy "DRGEP" ["N2"] sa (Some 1%Q) toy_world)) [false; true] =
    [Ok (["H"; "O2"; "HO2"; "H2"; "N2"], "out/reduced_5.yaml", Fin 0, ["H"; "HO2"; "H2"]);
     Ok (["O2"; "HO2"; "N2"], "reduced_3.yaml", Fin 0, ["HO2"])] /\
  look (snd (ftoy "DRGEP" ["N2"] true (Some 1%Q) toy_world))
    ["mech.yaml"; "out/reduced_3.yaml"; "out/reduced_5.yaml"; "out/reduced_2.yaml"; "out/0.h5"; "ignition_output.txt"] =
  [Some 6%nat; Some 3%nat; Some 5%nat; None; None; Some 0%nat].
Proof.
  split; [intros; apply ftoy_prepared|]. split; [intros; apply ftoy_posed; now right|]. split; [apply toy_temps|].
  split; [|vm_compute; split; reflexivity]. split; [reflexivity|]. cbn. intros u E. injection E as <-. discriminate.
Qed.

(** C drops out at the threshold 0.04, B would at 0.07, and no coefficient is
    next to the accepted threshold 0.06. *)
Example double_main_metrics_close_case :
  prepared (eighth_machine "B") (cases_with "A") (fork_in "DRG") (fan_world "mech.yaml") fan /\
  double_posed (eighth_machine "B") (steady_rates [61; 35; 904]%Z) None (cases_with "A") (fork_in "DRG") fan /\
  ~ at_the_edge DRG (eighth_machine "B") (steady_rates [61; 35; 904]%Z) None (cases_with "A") (fork_in "DRG") fan /\
  view (ffan "DRG" (fan_world "mech.yaml")) = Ok (["A"; "B"; "D"], "out/reduced_3.yaml", Fin 0, []).
Proof.
  split; [apply ffan_prepared|]. split; [apply ffan_posed|]. split; [exact away|].
  vm_compute. reflexivity.
Qed.

(** C98: next to the accepted threshold the limit need not hold.  With a limit
    of 10 percent each method returns a model with an error of 50 percent. *)
Theorem double_main_within_limit_refuted :
  exists K rates floor C B w sol, forall me, exists a r w' e,
    prepared K C a w sol /\ double_posed K rates floor C a sol /\ a_method a = method_name me /\
    a_sa a = false /\ a_limit a = Fin 10 /\
    fmain B K rates floor C a w = (Ok r, w') /\ species_names (r_model r) = ["A"; "C"] /\
    r_error r = Fin e /\ (e == 50)%Q.
Proof.
  exists (eighth_machine "B"), (steady_rates [3; 97]%Z), None, (cases_with "A"), toy_limits, fork_world, fork.
  intros me. destruct (ffork_outcome me) as (r & w' & e & H). exists (fork_in (method_name me)), r, w', e. split; [apply ffork_prepared|]. split; [apply ffork_posed; vm_compute; reflexivity|].
  split; [reflexivity|]. split; [reflexivity|]. exact (conj eq_refl H).
Qed.
Print Assumptions double_main_within_limit_refuted.
