(** Properties of the whole program with a number of processes: C99. *)
From Coq Require Import String List ZArith QArith Bool Arith Lia.
From Verif.Base Require Import Py Num XNum Paths B64.
From Verif.Model Require Import Mech World Metrics Drivers Sensitivity Simulation Sampling Main FloatRun DoubleError FloatMain Pool PoolMain.
From Verif.Spec Require Import TrimSpec Samples MetricSpec DriverSpec DriverSamples SensitivitySpec SimSpec SamplingSpec SamplingSamples
  MainSpec MainSamples FloatSpec DoubleErrorSpec FloatMainSpec FloatMainSamples PoolSamples.
From Verif.Proofs Require Import FloatMainFacts PoolMainFacts.
Import ListNotations.
Local Open Scope string_scope.

(** C99: for any number of processes, 0 among them, the program can return a
    model and leave files exactly if it returns that model and leaves these
    files with one process: nothing depends on the interleavings. *)
Theorem main_with_any_processes :
  forall B K rates floor C a cpus threads w r w',
    (1 <= cpus)%Z -> (0 <= threads)%Z -> model_apart (a_path a) C (a_file a) ->
    main_procs cpus threads B K rates floor C a w (Ok r) w' <->
    fmain B K rates floor C a w = (Ok r, w').
Proof. exact main_any. Qed.
Print Assumptions main_with_any_processes.

(** ... and it does not fail if it succeeds with one process. *)
Theorem main_fails_only_if_serial_does :
  forall B K rates floor C a cpus threads w e w',
    (1 <= cpus)%Z -> (0 <= threads)%Z -> model_apart (a_path a) C (a_file a) ->
    main_procs cpus threads B K rates floor C a w (Raise e) w' ->
    forall r w1, fmain B K rates floor C a w <> (Ok r, w1).
Proof. exact main_bad. Qed.
Print Assumptions main_fails_only_if_serial_does.

(** Three processes for two cases, DRGEP and then an analysis that removes H
    and H2. *)
Example main_with_any_processes_case :
  model_apart "out" two_ign "mech.yaml" /\
  exists r w',
    main_procs 4 3 toy_limits (eighth_machine "HO2") (steady_rates [2; 0; 3; (-2); 4]%Z) None two_ign
      (toy_main "DRGEP" ["N2"] true (Some 1%Q)) toy_world (Ok r) w' /\
    species_names (r_model r) = ["O2"; "HO2"; "N2"] /\
    look w' ["mech.yaml"; "out/reduced_3.yaml"; "out/reduced_5.yaml"; "out/0.h5"; "out/1.h5"; "ignition_output.txt"] =
      [Some 6%nat; Some 3%nat; Some 5%nat; None; None; Some 0%nat].
Proof.
  assert (model_apart "out" two_ign "mech.yaml") as AP.
  { split. { intros (i & L & E). simpl in L. destruct i as [|[|i]]; [discriminate|discriminate|lia]. }
    unfold sample_files. simpl. intuition discriminate. }
  split; [exact AP|].
  destruct (fmain toy_limits (eighth_machine "HO2") (steady_rates [2; 0; 3; (-2); 4]%Z) None two_ign
      (toy_main "DRGEP" ["N2"] true (Some 1%Q)) toy_world) as (r & w') eqn:E.
  assert ((match r with Ok x => species_names (r_model x) | _ => nil end,
           look w' ["mech.yaml"; "out/reduced_3.yaml"; "out/reduced_5.yaml"; "out/0.h5"; "out/1.h5"; "ignition_output.txt"])
          = (["O2"; "HO2"; "N2"], [Some 6%nat; Some 3%nat; Some 5%nat; None; None; Some 0%nat])) as F.
  { pose proof (f_equal fst E) as E1. pose proof (f_equal snd E) as E2. cbn [fst snd] in E1, E2. rewrite <- E1, <- E2. vm_compute. reflexivity. }
  destruct r as [r| |]; try discriminate F. exists r, w'. pose proof (f_equal fst F) as F1. pose proof (f_equal snd F) as F2. cbn [fst snd] in F1, F2.
  split; [|split; [exact F1|exact F2]]. apply main_with_any_processes; [lia|lia|exact AP|exact E].
Qed.

(** C99: what C98 promises holds for any number of processes. *)
Theorem main_end_to_end_any_processes :
  forall K rates floor C a B cpus threads w sol me r w',
    (1 <= cpus)%Z -> (0 <= threads)%Z ->
    prepared K C a w sol -> double_posed K rates floor C a sol -> a_method a = method_name me ->
    (a_sa a = true -> temps_ok w (a_path a) B) ->
    main_procs cpus threads B K rates floor C a w (Ok r) w' ->
    exists ref e, metrics_of (conds_of (k_fuel K) (k_physics K) floor C) sol = Ok ref /\
      error_of (double_conds (conds_of (k_fuel K) (k_physics K) floor C)) ref (r_model r) = Ok (r_error r) /\
      r_error r = Fin e /\
      (~ at_the_edge me K rates floor C a sol -> xle (r_error r) (a_limit a) = true) /\
      w_fs w' (path_join (a_path a) (reduced_name (n_species (r_model r)))) = Some (FMech [r_model r]) /\
      (forall f, ~ In f sample_files -> ~ scratch (a_path a) (length (ca_ign C)) f ->
         (forall n, f <> path_join (a_path a) (reduced_name n)) -> w_fs w' f = w_fs w f) /\
      ((a_sa a = true -> limbo_harmless me a w) ->
       forall s, In s (a_targets a ++ a_safe a) -> In s (species_names sol) -> In s (species_names (r_model r))).
Proof. intros K rates floor C a B. exact (procs_whole B K rates floor C a). Qed.
Print Assumptions main_end_to_end_any_processes.

(** C99: one process — asked for, or all that there is — is the run of C98,
    failures included. *)
Theorem main_with_one_process_is_serial :
  forall B K rates floor C a cpus threads w r w',
    (1 <= cpus)%Z -> threads = 1%Z \/ (threads = 0%Z /\ (cpus = 1%Z \/ cpus = 2%Z)) ->
    model_apart (a_path a) C (a_file a) ->
    main_procs cpus threads B K rates floor C a w r w' <-> fmain B K rates floor C a w = (r, w').
Proof. exact main_one. Qed.
Print Assumptions main_with_one_process_is_serial.

(** C99: a negative number is refused with ValueError before any file changes. *)
Theorem main_refuses_negative_processes :
  forall B K rates floor C a cpus threads w sol r w',
    (threads < 0)%Z -> graph_method (a_method a) = true -> a_targets a <> [] ->
    holds w (a_file a) (a_phase a) sol -> fresh w -> ca_ign C <> [] \/ ca_psr C <> [] \/ ca_flame C <> [] ->
    main_procs cpus threads B K rates floor C a w r w' -> r = Raise ValueError /\ w' = w.
Proof. exact main_none. Qed.
Print Assumptions main_refuses_negative_processes.

Example main_refuses_negative_processes_case :
  main_procs 4 (-1) toy_limits (eighth_machine "HO2") (steady_rates [2; 0; 3; (-2); 4]%Z) None two_ign
    (toy_main "DRGEP" ["N2"] true (Some 1%Q)) toy_world (Raise ValueError) toy_world.
Proof.
  apply et_raise. apply et_raise. eapply et_ok; [reflexivity|]. apply et_raise. eapply et_ok; [reflexivity|].
  apply et_raise. apply et_raise. eapply et_ok; [reflexivity|]. apply et_raise. apply et_raise. apply rw_refused. reflexivity.
Qed.

(** C99: which failure is reported can depend on the number of processes. *)
Theorem main_failures_reported_alike_refuted :
  exists K rates C B a w e e' w1 w2,
    main_procs 4 2 B K rates None C a w (Raise e) w1 /\
    fmain B K rates None C a w = (Raise e', w2) /\ e <> e'.
Proof. exact main_other_failure. Qed.
Print Assumptions main_failures_reported_alike_refuted.
