(** Properties of input checking (C37, C38, C39). *)
From Coq Require Import String List QArith ZArith Bool.
From Verif.Base Require Import Py Num XNum.
From Verif.Model Require Import Mech World Metrics Drivers Simulation Inputs.
From Verif.Spec Require Import TrimSpec Samples DriverSpec DriverSamples SimSpec SimSamples InputSpec ArgsSpec InputSamples.
From Verif.Proofs Require Import ArgsFacts InputFacts InputMore InputEnd InputChecks.
Import ListNotations.
Local Open Scope string_scope.

(** C37: lists of cases are accepted exactly if the model can be loaded and
    every case is acceptable; the accepted inputs have the given fields.
    Nothing is written. *)
Theorem ignition_cases_accepted_iff :
  forall model phase v w rs w', yaml_cases v ->
    (parse_ignition_inputs model phase v w = (Ok rs, w') <->
     w' = w /\ exists sol cs, holds w model phase sol /\ listed v cs /\
                 Forall2 (ign_case (species_names sol)) cs rs).
Proof. exact ign_cases_iff. Qed.
Print Assumptions ignition_cases_accepted_iff.
Theorem psr_cases_accepted_iff :
  forall model phase v w rs w', yaml_cases v ->
    (parse_psr_inputs model phase v w = (Ok rs, w') <->
     w' = w /\ exists sol cs, holds w model phase sol /\ listed v cs /\
                 Forall2 (psr_case (species_names sol)) cs rs).
Proof. exact psr_cases_iff. Qed.
Print Assumptions psr_cases_accepted_iff.
Theorem flame_cases_accepted_iff :
  forall model phase v w rs w', yaml_cases v ->
    (parse_flame_inputs model phase v w = (Ok rs, w') <->
     w' = w /\ exists sol cs, holds w model phase sol /\ listed v cs /\
                 Forall2 (flame_case (species_names sol)) cs rs).
Proof. exact flame_cases_iff. Qed.
Print Assumptions flame_cases_accepted_iff.

Definition without (key : string) (d : list (yval * yval)) := filter (fun kv => negb (is_str key (fst kv))) d.

Example cases_accepted_iff_case :
  yaml_cases (YList [YDict by_ratio; YDict by_ratio]) /\
  fst (parse_ignition_inputs "mech.yaml" "" (YList [YDict by_ratio]) toy_world) =
    Ok [mkRI (YStr "constant volume") (YInt 1000) (YNum (Fin 1)) (YInt 1) (YInt 10000)
          (mkRM_ (YNum (Fin 1)) (YDict [entry "H2" (YInt 2)])
             (YDict [entry "O2" (YInt 1); entry "N2" (YNum (Fin (376 # 100)))]) (YList nil) (YStr "mole"))] /\
  map (fun d => match fst (parse_ignition_inputs "mech.yaml" "" (YList [YDict by_ratio; YDict d]) toy_world) with
                | Ok l => Ok (length l) | Raise e => Raise e | NoFuel => NoFuel end)
      [by_ratio; without "kind" by_ratio; without "temperature" by_ratio; without "fuel" by_ratio;
       without "equivalence-ratio" by_ratio; by_ratio ++ [entry "reactants" (YDict [entry "O2" (YInt 1)])];
       by_ratio ++ [entry "composition-type" (YStr "mass")];
       without "fuel" by_ratio ++ [entry "fuel" (YDict [entry "CH4" (YInt 1)])];
       without "fuel" by_ratio ++ [entry "fuel" (YDict [entry "H2" (YInt 0)])]]%list =
    [Ok 2%nat; Raise AssertionError; Raise AssertionError; Raise AssertionError; Raise AssertionError;
     Raise AssertionError; Raise AssertionError; Raise AssertionError; Raise AssertionError] /\
  fst (parse_flame_inputs "mech.yaml" "" (YList [YDict by_mass]) toy_world) =
    Ok [mkRF (YInt 300) (YInt 1) (YNum (Fin (1 # 10)))
          (mkRM_ (YNum (Fin 0)) (YList nil) (YList nil)
             (YDict [entry "O2" (YInt 1); entry "AR" (YInt 3)]) (YStr "mass"))].
Proof.
  split; [apply casesb_ok; reflexivity|]. split; [|split]; vm_compute; reflexivity.
Qed.

(** C37: cases whose fields have the documented types are accepted or rejected
    by an assertion. *)
Theorem typed_cases_fail_by_assertion :
  forall model phase cs w sol, holds w model phase sol -> Forall typed_case cs ->
    asserts (fst (parse_ignition_inputs model phase (YList cs) w)) /\
    asserts (fst (parse_psr_inputs model phase (YList cs) w)) /\
    asserts (fst (parse_flame_inputs model phase (YList cs) w)).
Proof.
  intros * LD F. destruct (clean_all _ _ _ _ _ LD F) as (A & B & C).
  split; [|split]; now apply clean_asserts.
Qed.
Print Assumptions typed_cases_fail_by_assertion.

(** C37, not true of other cases: amounts or temperatures written as text, and
    species given as a list, give a TypeError.  (YAML 1.1 reads 1e3 as text.) *)
Theorem text_amounts_fail_by_type :
  exists t f : yval,
    fst (parse_ignition_inputs "mech.yaml" "" (YList [YDict (without "temperature" by_ratio ++ [entry "temperature" t])]) toy_world)
      = Raise TypeError /\
    fst (parse_ignition_inputs "mech.yaml" "" (YList [YDict (without "fuel" by_ratio ++ [entry "fuel" f])]) toy_world)
      = Raise TypeError.
Proof. exists (YStr "1e3"), (YList [YStr "H2"]). split; vm_compute; reflexivity. Qed.
Print Assumptions text_amounts_fail_by_type.

(** C37 for the whole file: a dictionary whose targets and retained species are
    lists is accepted exactly if its fields are acceptable. *)
Theorem input_accepted_iff :
  forall d w I, yaml_input d -> lists_given d ->
    ((exists safe d', parse_inputs (YDict d) w = (Ok (with_safe I safe, d'), w)) <-> input_ok d w I).
Proof.
  intros d w I Y L. split; [|now apply parse_fwd].
  intros (safe & d' & E). destruct (parse_inv _ _ _ _ _ Y L E) as (_ & IO & _). destruct IO. constructor; assumption.
Qed.
Print Assumptions input_accepted_iff.

Example input_accepted_iff_case :
  let d := whole_input "DRGEP" (YList [YStr "HO2"; YStr "H2"]) [entry "retained-species" (YList [YStr "O2"])] in
  inputb d = true /\ shown (parse_inputs (YDict d) toy_world) =
    Ok (Some ["O2"; "N2"; "AR"], Some (YList [YStr "O2"; YStr "N2"; YStr "AR"])) /\
  map (fun d => shown (parse_inputs (YDict d) toy_world))
      [without "model" d; without "error" d; without "method" d; without "targets" d;
       whole_input "PCA" (YList [YStr "HO2"]) nil; whole_input "DRG" (YList [YStr "CH4"]) nil;
       without "laminar-flame-conditions" (without "autoignition-conditions" d)] =
    [Raise AssertionError; Raise AssertionError; Raise AssertionError; Raise AssertionError;
     Raise AssertionError; Raise AssertionError; Raise AssertionError].
Proof. split; [|split]; vm_compute; reflexivity. Qed.

(** C37: a fuel field left empty beside reactants is fine for
    [parse_ignition_inputs] but not for the whole file. *)
Theorem empty_fuel_accepted_then_fails :
  let d := [entry "kind" (YStr "constant volume"); entry "temperature" (YInt 1000); entry "pressure" (YInt 1);
            entry "reactants" (YDict [entry "O2" (YInt 1)]); entry "fuel" YNull] in
  (exists r, fst (parse_ignition_inputs "mech.yaml" "" (YList [YDict d]) toy_world) = Ok [r]) /\
  fst (parse_inputs (YDict [entry "model" (YStr "mech.yaml"); entry "error" (YInt 10); entry "method" (YStr "DRG");
        entry "targets" (YList [YStr "O2"]); entry "autoignition-conditions" (YList [YDict d])]) toy_world) = Raise TypeError.
Proof. split; [eexists|]; vm_compute; reflexivity. Qed.
Print Assumptions empty_fuel_accepted_then_fails.

(** C38: the species to retain are the given ones followed, without repetition,
    by exactly those used by a case that are neither targets nor given. *)
Theorem used_species_are_protected :
  forall d w I d' w', yaml_input d -> lists_given d -> parse_inputs (YDict d) w = (Ok (I, d'), w') ->
    w' = w /\ exists ts given,
      field "targets" (YList nil) d (YList ts) /\ in_targets I = YList ts /\
      field "retained-species" (YList nil) d (YList given) /\ protects I given ts.
Proof.
  intros * Y L E. destruct (parse_inv _ _ _ _ _ Y L E) as (-> & IO & (ts & given & ET & FG & PR) & _).
  split; [reflexivity|]. exists ts, given. split; [|auto].
  destruct (io_species _ _ _ IO) as (sol & ts' & given' & _ & ET' & G & _). assert (ts' = ts) as -> by congruence. exact G.
Qed.
Print Assumptions used_species_are_protected.

(** C38: the list in the dictionary is extended, so that the dictionary gives
    the same inputs again. *)
Theorem parsing_again_gives_the_same :
  forall d w I d' w', yaml_input d -> lists_given d ->
    parse_inputs (YDict d) w = (Ok (I, d'), w') -> parse_inputs d' w = (Ok (I, d'), w).
Proof. exact parse_again. Qed.
Print Assumptions parsing_again_gives_the_same.

Example used_species_are_protected_case :
  let d := whole_input "DRG" (YList [YStr "O2"]) [entry "retained-species" (YList [YStr "H2"])] in
  inputb d = true /\
  shown (parse_inputs (YDict d) toy_world) =
    Ok (Some ["H2"; "N2"; "AR"], Some (YList [YStr "H2"; YStr "N2"; YStr "AR"])) /\
  shown (parse_inputs (YDict (whole_input "DRG" (YList [YStr "O2"]) nil)) toy_world) =
    Ok (Some ["H2"; "N2"; "AR"], None).
Proof. split; [|split]; vm_compute; reflexivity. Qed.

(** C38, not true if targets are given as one string: names that are part of
    the string count as targets.  Here the model has species called O, H and
    OH, the file says [targets: OH], and the case uses OH. *)
Definition oh : mech := mkMech "gas" [sp "O" 0; sp "H" 1; sp "OH" 2]
  [rx [("O", 1); ("H", 1)] [("OH", 1)] None 0] "" (300, 101325).
Theorem text_targets_leave_fuel_unprotected_refuted :
  exists d I d',
    yaml_input d /\
    parse_inputs (YDict d) (mkWorld (fun f => if String.eqb f "mech.yaml" then Some (FMech [oh]) else None) nil) =
      (Ok (I, d'), mkWorld (fun f => if String.eqb f "mech.yaml" then Some (FMech [oh]) else None) nil) /\
    used I "OH" /\ in_targets I = YStr "OH" /\ yiter (in_targets I) = Ok [YStr "O"; YStr "H"] /\ in_safe I = YList nil.
Proof.
  exists [entry "model" (YStr "mech.yaml"); entry "error" (YInt 10); entry "method" (YStr "DRG");
          entry "targets" (YStr "OH");
          entry "psr-conditions" (YList [YDict [entry "temperature" (YInt 300); entry "pressure" (YInt 1);
            entry "reactants" (YDict [entry "OH" (YInt 1)])]])].
  do 2 eexists. split; [|split; [vm_compute; reflexivity|]].
  - split; [apply keysb_ok; reflexivity|]. intros key v K J. simpl in J.
    repeat (destruct J as [J|J]; [injection J as <- <-; try (apply casesb_ok; reflexivity)|]); destruct J.
  - split; [|auto]. eexists. split; [left; reflexivity|]. do 2 eexists. split; [right; right; reflexivity|left; reflexivity].
Qed.
Print Assumptions text_targets_leave_fuel_unprotected_refuted.

(** C39: every case can be set up with every model that a driver can try at
    any threshold (up to 1 for DRGEP). *)
Theorem candidates_can_be_set_up :
  forall d w I d' w' J C sol rops me t m,
    yaml_input d -> lists_given d -> parse_inputs (YDict d) w = (Ok (I, d'), w') ->
    job_from I J -> takes I C -> holds w (in_model I) (in_phase I) sol -> wf_mech sol ->
    ~ blank (in_method I) -> rops <> nil -> (me = DRGEP -> t <= 1) ->
    cut_to J sol (kept me J sol rops t) m -> sets_up C m.
Proof. intros * Y L P JF TC. apply job_iff in JF. apply takes_iff in TC. now apply (candidates_set_up d w I d' w' J C sol rops me t m). Qed.
Print Assumptions candidates_can_be_set_up.

(** C39: and with the model that a driver returns. *)
Theorem returned_model_can_be_set_up :
  forall d w0 I d' w0' J C me smp w sol sampled rops w1 limit fuel dfuel r w',
    yaml_input d -> lists_given d -> parse_inputs (YDict d) w0 = (Ok (I, d'), w0') ->
    job_from I J -> takes I C -> holds w0 (in_model I) (in_phase I) sol ->
    started J smp w sol sampled rops w1 -> fair J sol sampled limit -> rops <> nil ->
    run me exactA (floor_of me) fuel dfuel J smp limit w = (Ok r, w') ->
    sets_up C (r_model r).
Proof. intros * Y L P JF TC. apply job_iff in JF. apply takes_iff in TC. now apply (returned_sets_up d w0 I d' w0' J C me smp w sol sampled rops w1 limit fuel dfuel r w'). Qed.
Print Assumptions returned_model_can_be_set_up.

(** C39, not true above threshold 1 with DRGEP: an accepted input whose only
    target is the only species of its case; the limit is so lax that the
    thresholds pass 1, the target goes, and the run ends with an exception
    from Cantera. *)
Theorem lax_drgep_run_aborts_refuted :
  exists I d',
    parse_inputs (YDict o2_input) toy_world = (Ok (I, d'), toy_world) /\
    job_from I o2_job /\ takes I o2_cases /\
    started o2_job o2_sampler toy_world toy [Fin (3 # 10)] toy_rops toy_world /\
    fair o2_job toy [Fin (3 # 10)] (Fin 200) /\
    fst (run DRGEP exactA (floor_of DRGEP) 400 60 o2_job o2_sampler (Fin 200) toy_world) = Raise CanteraError.
Proof.
  do 2 eexists. split; [vm_compute; reflexivity|]. split; [apply job_iff; repeat split; reflexivity|]. split; [apply takes_iff; reflexivity|].
  split; [apply o2_started|]. split; [apply o2_fair|vm_compute; reflexivity].
Qed.
Print Assumptions lax_drgep_run_aborts_refuted.

Example candidates_can_be_set_up_case :
  inputb o2_input = true /\
  map (fun t => view (reduce DRGEP 60 o2_job toy toy_rops [Fin (3 # 10)] t None toy_world)) [1 # 100; 1; 101 # 100] =
    [Ok (["H"; "O2"; "HO2"; "H2"; "N2"], "out/reduced_5.yaml", Fin (0 # 300), nil);
     Ok (["O2"; "N2"], "out/reduced_2.yaml", Fin 100, nil); Raise CanteraError].
Proof. split; [reflexivity|]. vm_compute. reflexivity. Qed.
