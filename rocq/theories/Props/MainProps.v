(** Properties of the whole program (C40, C41, C54, C55). *)
From Coq Require Import String List QArith ZArith Bool Arith Lia.
From Verif.Base Require Import Py Num XNum Paths.
From Verif.Model Require Import Mech World Metrics Drivers Sensitivity Simulation Sampling Inputs Main.
From Verif.Spec Require Import TrimSpec Samples MetricSpec DriverSpec DriverSamples SensitivitySpec SaSamples SimSpec SimSamples
  SamplingSpec SamplingSamples InputSpec ArgsSpec InputSamples MainSpec MainSamples.
From Verif.Proofs Require Import DriverSampleFacts SaSampleFacts SimFacts InputChecks ArgsFacts MainFacts MainEnd MainMore MainCli.
Import ListNotations.
Local Open Scope string_scope.

(** C40: a graph-based method followed by sensitivity analysis keeps every
    target and safe species where the candidates cannot contain them (DRG
    without upper threshold; PFA; DRGEP in a fresh process with an upper
    threshold of at most 1). *)
Theorem main_keeps_targets_and_safe :
  forall me a cs B smp w sol sampled rops w1 r w',
    a_method a = method_name me -> started (graph_job a cs) smp w sol sampled rops w1 ->
    fair (graph_job a cs) sol sampled (a_limit a) -> rops <> nil ->
    (a_sa a = true -> temps_ok w1 (a_path a) B /\ limbo_harmless me a w1) ->
    main exactA floor5 floor6 B smp cs a w = (Ok r, w') ->
    forall s, In s (a_targets a ++ a_safe a) -> In s (species_names sol) -> In s (species_names (r_model r)).
Proof. exact main_keeps. Qed.
Print Assumptions main_keeps_targets_and_safe.

(** C40: so does sensitivity analysis alone. *)
Theorem standalone_analysis_keeps_targets_and_safe :
  forall a cs B smp w sol r w' A fl5 fl6,
    graph_method (a_method a) = false -> wf_mech sol -> holds w (a_file a) (a_phase a) sol ->
    temps w (b_tmp B) (b_tmp2 B) -> main A fl5 fl6 B smp cs a w = (Ok r, w') ->
    forall s, In s (a_targets a ++ a_safe a) -> In s (species_names sol) -> In s (species_names (r_model r)).
Proof. exact alone_keeps. Qed.
Print Assumptions standalone_analysis_keeps_targets_and_safe.

Local Notation go mx me safe sa up :=
  (main_on exactA floor5 floor6 toy_limits (toy_machine "HO2") None (cases_with mx) (toy_main me safe sa up) toy_world).

(** DRGEP alone, and with an analysis that removes H and H2. *)
Example main_keeps_case :
  prepared (toy_machine "HO2") (cases_with "N2") (toy_main "DRGEP" ["N2"] true (Some 1)) toy_world toy /\
  well_posed (toy_machine "HO2") None (cases_with "N2") toy /\
  temps_ok toy_world "out" toy_limits /\
  limbo_harmless DRGEP (toy_main "DRGEP" ["N2"] true (Some 1)) toy_world /\
  map (fun sa => view (go "N2" "DRGEP" ["N2"] sa (Some 1))) [false; true] =
  [Ok (["H"; "O2"; "HO2"; "H2"; "N2"], "out/reduced_5.yaml", Fin (0 # 300), ["H"; "HO2"; "H2"]);
   Ok (["O2"; "HO2"; "N2"], "reduced_3.yaml", Fin (0 # 300), ["HO2"])].
Proof.
  split; [apply toy_prepared|]. split; [apply toy_posed; cbn; tauto|]. split; [apply toy_temps|].
  split; [|vm_compute; reflexivity]. split; [reflexivity|]. cbn. intros u E. injection E as <-. discriminate.
Qed.

(** C40, not true of DRG with an upper threshold: the analysis removes the
    target O2 and the safe species H. *)
Theorem drg_analysis_removes_target_and_safe_refuted :
  exists K floor C a B w sol r w',
    prepared K C a w sol /\ well_posed K floor C sol /\ temps_ok w (a_path a) B /\
    a_method a = "DRG" /\ a_sa a = true /\
    main_on exactA floor5 floor6 B K floor C a w = (Ok r, w') /\
    In "O2" (a_targets a) /\ In "H" (a_safe a) /\ In "O2" (species_names sol) /\ In "H" (species_names sol) /\
    species_names (r_model r) = ["HO2"; "N2"].
Proof.
  destruct (species_ok (go "N2" "DRG" ["N2"; "H"] true (Some (1 # 10))) ["HO2"; "N2"]) as (r & w' & E & S);
    [vm_compute; reflexivity|].
  exists (toy_machine "HO2"), None, (cases_with "N2"), (toy_main "DRG" ["N2"; "H"] true (Some (1 # 10))), toy_limits, toy_world, toy, r, w'.
  split; [apply toy_prepared|]. split; [apply toy_posed; cbn; tauto|]. split; [apply toy_temps|].
  split; [reflexivity|]. split; [reflexivity|]. split; [exact E|].
  split; [now left|]. split; [now right; left|]. split; [now right; left|]. split; [now left|exact S].
Qed.
Print Assumptions drg_analysis_removes_target_and_safe_refuted.

(** C54: from a directory without saved samples, a run that returns has written
    the model it reports; that model's error against the detailed model, both
    simulated, is the reported one and within the limit (after sensitivity
    analysis perhaps NaN); other files are as before. *)
Theorem main_end_to_end :
  forall K floor C a B w sol me r w',
    prepared K C a w sol -> a_method a = method_name me -> well_posed K floor C sol ->
    (a_sa a = true -> temps_ok w (a_path a) B) ->
    main_on exactA floor5 floor6 B K floor C a w = (Ok r, w') ->
    exists ref, metrics_of (conds_of (k_fuel K) (k_physics K) floor C) sol = Ok ref /\
      error_of (conds_of (k_fuel K) (k_physics K) floor C) ref (r_model r) = Ok (r_error r) /\
      (xle (r_error r) (a_limit a) = true \/ (a_sa a = true /\ r_error r = NaN)) /\
      w_fs w' (path_join (a_path a) (reduced_name (n_species (r_model r)))) = Some (FMech [r_model r]) /\
      (forall f, ~ In f sample_files -> ~ scratch (a_path a) (length (ca_ign C)) f ->
         (forall n, f <> path_join (a_path a) (reduced_name n)) -> w_fs w' f = w_fs w f) /\
      ((a_sa a = true -> limbo_harmless me a w) ->
       forall s, In s (a_targets a ++ a_safe a) -> In s (species_names sol) -> In s (species_names (r_model r))).
Proof. intros * RD. now apply whole. Qed.
Print Assumptions main_end_to_end.

(** C54: each metric of the model is within the limit, in percent, of the
    detailed model's. *)
Theorem main_metrics_close :
  forall K floor C a B w sol me r w' l,
    prepared K C a w sol -> a_method a = method_name me -> well_posed K floor C sol ->
    (a_sa a = true -> temps_ok w (a_path a) B) -> a_limit a = Fin l -> l < 100 -> r_error r <> NaN ->
    main_on exactA floor5 floor6 B K floor C a w = (Ok r, w') ->
    exists ref ts, metrics_of (conds_of (k_fuel K) (k_physics K) floor C) sol = Ok ref /\
      metrics_of (conds_of (k_fuel K) (k_physics K) floor C) (r_model r) = Ok ts /\
      length ref = n_metrics C /\ length ts = n_metrics C /\
      forall o t, In (o, t) (combine ref ts) -> usable t /\ within l o t.
Proof. exact whole_close. Qed.
Print Assumptions main_metrics_close.

(** The hypotheses hold of the runs of [main_keeps_case]; the files of the
    second one. *)
Example main_end_to_end_case :
  let x := go "N2" "DRGEP" ["N2"] true (Some 1) in
  view x = Ok (["O2"; "HO2"; "N2"], "reduced_3.yaml", Fin (0 # 300), ["HO2"]) /\
  look (snd x) ["mech.yaml"; "out/reduced_3.yaml"; "out/reduced_5.yaml"; "out/reduced_2.yaml"; "out/0.h5"; "ignition_output.txt"] =
  [Some 6%nat; Some 3%nat; Some 5%nat; None; None; Some 0%nat].
Proof. vm_compute. split; reflexivity. Qed.

(** C54 from the command line: the same for a run on an input file; unless DRG
    is followed by sensitivity analysis, all species that the cases use are in
    the result. *)
Theorem cli_end_to_end :
  forall read convert other B K n o d w I d' a C floor sol me x w',
    o_convert o = false -> read (o_input o) w = (Ok (YDict d), w) -> yaml_input d -> lists_given d ->
    parse_inputs (YDict d) w = (Ok (I, d'), w) ->
    hands I (o_path o) a C floor ->
    prepared K C a w sol -> well_posed K floor C sol -> in_method I = YStr (method_name me) ->
    (~ blank (in_sa I) -> temps_ok w (o_path o) B) ->
    pymars read convert (run_main_of exactA floor5 floor6 B K other) n o w = (Ok x, w') ->
    exists m ref e, metrics_of (conds_of (k_fuel K) (k_physics K) floor C) sol = Ok ref /\
      error_of (conds_of (k_fuel K) (k_physics K) floor C) ref m = Ok e /\
      (xle e (a_limit a) = true \/ (~ blank (in_sa I) /\ e = NaN)) /\
      w_fs w' (path_join (o_path o) (reduced_name (n_species m))) = Some (FMech [m]) /\
      (blank (in_sa I) \/ limbo_harmless me a w ->
        (forall s, In s (a_targets a ++ a_safe a) -> In s (species_names m)) /\
        (forall s, used I s -> In s (species_names m))).
Proof. exact cli_end. Qed.
Print Assumptions cli_end_to_end.

(** A command line with an input file; the file says DRGEP, sensitivity
    analysis, and a case that uses N2. *)
Definition cli_file (method target : string) (extra : list (yval * yval)) : list (yval * yval) :=
  ([entry "model" (YStr "mech.yaml"); entry "error" (YInt 10); entry "method" (YStr method);
    entry "targets" (YList [YStr target]);
    entry "autoignition-conditions" (YList [YDict
      [entry "kind" (YStr "constant volume"); entry "temperature" (YInt 1000); entry "pressure" (YInt 1);
       entry "end-time" (YInt 1); entry "max-steps" (YInt 0); entry "reactants" (YDict [entry "N2" (YInt 1)])]])] ++ extra)%list.
Definition cli_options : options := mkOptions "in.yaml" "out" false "" false.
Definition cli (d : list (yval * yval)) : res unit * world :=
  pymars (fun _ => mret (YDict d)) (fun _ _ => mret tt)
         (run_main_of exactA floor5 floor6 toy_limits (toy_machine "HO2") (mraise TypeError)) 1 cli_options toy_world.
Definition analysis := [entry "sensitivity-analysis" (YBool true)].

Example cli_end_to_end_case :
  inputb (cli_file "DRGEP" "O2" analysis) = true /\
  (exists I d', parse_inputs (YDict (cli_file "DRGEP" "O2" analysis)) toy_world = (Ok (I, d'), toy_world) /\
     hands I "out" (mkMain "mech.yaml" (Fin 10) "DRGEP" ["O2"] ["N2"] "" true (Some (1 # 10)) "initial" "out") (cases_with "N2") None /\
     used I "N2") /\
  fst (cli (cli_file "DRGEP" "O2" analysis)) = Ok tt /\
  look (snd (cli (cli_file "DRGEP" "O2" analysis))) ["out/reduced_3.yaml"; "out/reduced_2.yaml"] = [Some 3%nat; None].
Proof.
  split; [reflexivity|]. split; [|vm_compute; split; reflexivity].
  do 2 eexists. split; [vm_compute; reflexivity|]. split; [apply hands_iff; repeat split; reflexivity|].
  eexists. split; [left; reflexivity|]. do 2 eexists. split; [right; right; reflexivity|left; reflexivity].
Qed.

(** C55: DRG, an upper threshold and sensitivity analysis: the run cannot
    succeed if some case's mixture contains a target, which is among the
    species whose removal is tried. *)
Theorem drg_analysis_with_target_in_mixture_fails :
  forall B K floor C a w sol s,
    prepared K C a w sol -> well_posed K floor C sol ->
    a_method a = "DRG" -> a_sa a = true -> truthy (a_upper a) = true -> temps_ok w (a_path a) B ->
    In s (a_targets a) -> in_mixture C s ->
    forall r w', main_on exactA floor5 floor6 B K floor C a w <> (Ok r, w').
Proof. exact drg_sa_aborts. Qed.
Print Assumptions drg_analysis_with_target_in_mixture_fails.

(** C55 from the command line, where there always is an upper threshold. *)
Theorem cli_drg_analysis_with_target_in_mixture_fails :
  forall read convert other B K n o d w I d' a C floor sol s,
    o_convert o = false -> read (o_input o) w = (Ok (YDict d), w) -> yaml_input d -> lists_given d ->
    parse_inputs (YDict d) w = (Ok (I, d'), w) ->
    hands I (o_path o) a C floor ->
    prepared K C a w sol -> well_posed K floor C sol -> in_method I = YStr "DRG" -> ~ blank (in_sa I) ->
    temps_ok w (o_path o) B -> In s (a_targets a) -> in_mixture C s ->
    forall x w', pymars read convert (run_main_of exactA floor5 floor6 B K other) n o w <> (Ok x, w').
Proof. exact cli_drg_sa. Qed.
Print Assumptions cli_drg_analysis_with_target_in_mixture_fails.

Example drg_analysis_with_target_in_mixture_fails_case :
  In "O2" (a_targets (toy_main "DRG" ["N2"] true (Some (1 # 10)))) /\ in_mixture (cases_with "O2") "O2" /\
  truthy (Some (1 # 10)) = true /\ fst (go "O2" "DRG" ["N2"] true (Some (1 # 10))) = Raise CanteraError /\
  view (go "O2" "DRG" ["N2"] false (Some (1 # 10))) =
    Ok (["H"; "O2"; "HO2"; "N2"], "out/reduced_4.yaml", Fin (0 # 300), ["O2"; "H"; "HO2"; "H2"]).
Proof.
  split; [now left|]. split; [left; eexists; split; [left; reflexivity|apply sets_iff; now left]|]. split; [reflexivity|].
  split; vm_compute; reflexivity.
Qed.

(** C41: a model whose name does not end in .yaml or .yml: the program does not
    return normally, and what it does is independent of [main]. *)
Theorem other_models_are_never_reduced :
  forall read convert run d m n o w w1,
    dict_ok d -> In (YStr "model", YStr m) d ->
    (forall b, m <> b ++ ".yaml") -> (forall b, m <> b ++ ".yml") ->
    o_convert o = false -> read (o_input o) w = (Ok (YDict d), w1) ->
    (forall x w', pymars read convert run n o w <> (Ok x, w')) /\
    (forall run', pymars read convert run' n o w = pymars read convert run n o w).
Proof. exact cli_other_model. Qed.
Print Assumptions other_models_are_never_reduced.

(** C41: if it can be loaded and converted, the program ends with an
    AttributeError after the conversion. *)
Theorem converted_model_gives_attribute_error :
  forall read convert run n o w w1 dict I d' w2 u w3,
    n <> 0%nat -> o_version o = false -> o_convert o = false -> o_input o <> "" ->
    read (o_input o) w = (Ok dict, w1) -> parse_inputs dict w1 = (Ok (I, d'), w2) ->
    (forall b, in_model I <> b ++ ".yaml") -> (forall b, in_model I <> b ++ ".yml") ->
    convert (in_model I) (o_path o) w2 = (Ok u, w3) ->
    pymars read convert run n o w = (Raise AttributeError, w3).
Proof. exact cli_converted. Qed.
Print Assumptions converted_model_gives_attribute_error.

Example other_models_are_never_reduced_case :
  let d := [entry "model" (YStr "mech.YAML"); entry "error" (YInt 10); entry "method" (YStr "DRG");
            entry "targets" (YList [YStr "O2"]);
            entry "psr-conditions" (YList [YDict [entry "temperature" (YInt 300); entry "pressure" (YInt 1);
              entry "reactants" (YDict [entry "O2" (YInt 1)])]])] in
  let w := mkWorld (fun f => if String.eqb f "mech.YAML" then Some (FMech [toy]) else None) nil in
  keysb d = true /\
  fst (pymars (fun _ => mret (YDict d)) (fun m p => put_file (path_join p "done") (FNums nil)) (fun _ _ => mret tt) 1 cli_options w)
    = Raise AttributeError /\
  look (snd (pymars (fun _ => mret (YDict d)) (fun m p => put_file (path_join p "done") (FNums nil)) (fun _ _ => mret tt) 1 cli_options w))
    ["out/done"] = [Some 0%nat] /\
  (forall b, "mech.YAML" <> b ++ ".yaml").
Proof.
  split; [reflexivity|]. split; [vm_compute; reflexivity|]. split; [vm_compute; reflexivity|].
  intros b E. repeat (destruct b as [|? b]; [discriminate|injection E as _ E]). destruct b; discriminate.
Qed.
