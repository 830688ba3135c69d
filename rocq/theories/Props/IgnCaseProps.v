(** Property theorems about the objects for ignition cases (C92), and about
    ignition and flames in whole runs (C93). *)
From Coq Require Import String List QArith ZArith Bool Arith Lia.
From Verif.Base Require Import Py Num XNum Paths.
From Verif.Model Require Import Mech World Metrics Drivers Sensitivity Simulation Sampling Psr IgnCase Main.
From Verif.Spec Require Import TrimSpec MetricSpec DriverSpec SimSpec SamplingSpec MainSpec Samples DriverSamples SimSamples SamplingSamples
  MainSamples PsrSpec IgnCaseSpec IgnCaseSamples Attributes.
From Verif.Proofs Require Import MainCli IgnCaseFacts IgnCaseCalls IgnCaseMain AttributeFacts.
Import ListNotations.
Local Open Scope string_scope.

(** C92: for any calls in any order, every delay returned is zero or the time
    of a point that the network of this case has been at; it is at least 400 K
    above the start temperature if [run_case] returned it; and every row of a
    sample is zero or such a point.  There was no data file at first. *)
Theorem ignition_answers_are_visited :
  forall (A : calc) Ns fuel path idx c m o ks w rs o' w',
    ign_setup Ns path idx c m = Ok o -> w_fs w (h5_name path idx) = None ->
    ign_calls fuel ks o w = (rs, o', w') ->
    io_case o' = c /\ io_net o' = Ns c m /\ Forall2 (about_visited o') ks rs.
Proof. exact @calls_visited. Qed.
Print Assumptions ignition_answers_are_visited.

(** Ignition in the third step.  The second run starts when the end time is
    reached; the third one when the mixture is already hot; a file that is
    removed is not found. *)
Example ignition_answers_are_visited_case :
  let answers_of c ks :=
    match ign_setup (toy_nets 3 5) "out" 0 c toy with
    | Ok o => let '(rs, o', _) := ign_calls 50 ks o toy_world in (delays rs, length (io_past o'))
    | _ => ([], O)
    end in
  answers_of (ign 1 0) [CallIgnRun false false; CallIgnProcess false; CallIgnRun false false; CallIgnProcess true;
                        CallIgnRun false true; CallIgnClean; CallIgnProcess true] =
    ([Some (Some 3); Some (Some 3); None; Some (Some 0); Some None; Some None; None]%Z, 10%nat) /\
  answers_of (ign 0 20) [CallIgnRun true false; CallIgnCalculate; CallIgnCalculate; CallIgnProcess true] =
    ([Some (Some 3); Some (Some 4); Some (Some 5); Some (Some 3)]%Z, 6%nat).
Proof. vm_compute. split; reflexivity. Qed.

(** C92: the attribute [ignition_delay] after a call that returns a delay is
    that delay, and the attribute [sampled_data] holds the samples that were
    returned last. *)
Theorem ignition_delay_attribute :
  forall (A : calc) fuel k o w d x o' w', ign_do fuel k o w = (Ok (Some d, x), o', w') -> io_delay o' = d.
Proof. exact @ign_delay. Qed.
Print Assumptions ignition_delay_attribute.

Theorem ignition_samples_attribute :
  forall (A : calc) Ns fuel path idx c m o ks w rs o' w',
    ign_setup Ns path idx c m = Ok o -> ign_calls fuel ks o w = (rs, o', w') -> io_data o' = last_rows rs.
Proof. exact @ign_rows. Qed.
Print Assumptions ignition_samples_attribute.

Example ignition_samples_attribute_case :
  match ign_setup (toy_nets 3 5) "out" 0 (ign 1 0) toy with
  | Ok o => let '(rs, o', _) := ign_calls 50 [CallIgnRun false false; CallIgnProcess false; CallIgnProcess true] o toy_world in
            (delays rs, Qeq_bool (io_delay o') (3 # 10), option_map (@hd _ []) (io_data o'))
  | _ => ([], false, None)
  end = ([Some (Some 3); Some (Some 3); Some (Some 3)]%Z, true, Some [2000; 101325; 1]).
Proof. vm_compute. reflexivity. Qed.

(** C92: a new object answers as in the other parts of the model, which
    describe the network by its points and the steps at which it is steady. *)
Theorem new_ignition_objects_are_cases :
  forall fuel Ns Ph path idx c m,
    ign_cond fuel (with_networks Ns Ph) c m =
      bind (ign_setup Ns path idx c m) (fun o => bind (fst (ign_calculate (A := ph_calc Ph) fuel o)) (fun d => Ok [Fin d])) /\
    forall o w, ign_setup Ns path idx c m = Ok o -> reinit_is_idle (Ns c m) ->
    forall r o' w', ign_run (A := ph_calc Ph) fuel false false o w = (r, o', w') ->
      let f := h5_name path idx in
      let run := run_case (A := ph_calc Ph) fuel (ph_reactor (with_networks Ns Ph) c m) c f w in
      (forall d, r = Ok (Some d) <-> fst run = Ok d) /\ (forall e, r = Raise e <-> fst run = Raise e) /\
      w' = snd run /\
      forall skip, fst (ign_process (A := ph_calc Ph) skip o' w') =
        bind (fst (process_results (A := ph_calc Ph) f w')) (fun x => Ok (fst x, if skip then None else Some (snd x))).
Proof.
  exact (fun fuel Ns Ph path idx c m => conj (as_ign_condition fuel Ns Ph path idx c m)
           (fun o w => as_ign_run fuel Ns Ph path idx c m o w)).
Qed.
Print Assumptions new_ignition_objects_are_cases.

Example new_ignition_objects_are_cases_case :
  reinit_is_idle (toy_nets 3 5 (ign 0 20) toy) /\
  map (fun n => ra_small (reactor_of (toy_net 3 1000 5)) n) [1; 2; 3; 4; 5; 6]%nat =
    [false; false; false; false; false; true].
Proof. split; [apply toy_idle|vm_compute; reflexivity]. Qed.

(** C92: what steady means.  At the end of a run to steady state every
    variable of the network changed little in the last step. *)
Theorem steady_runs_end_nearly_unchanged :
  forall (A : calc) fuel Ns path idx c m o w d o' w',
    ign_setup Ns path idx c m = Ok o -> reinit_is_idle (Ns c m) -> Qnz (ig_end c) = false -> decent (Ns c m) ->
    ign_run fuel false false o w = (Ok (Some d), o', w') ->
    exists n, (1 <= n)%nat /\ (Z.of_nat n < steps_allowed c)%Z /\ io_past o' = (repeat EStep n ++ [EReinit])%list /\
      nearly_unchanged (Ns c m) n.
Proof. exact @run_settles. Qed.
Print Assumptions steady_runs_end_nearly_unchanged.

Example steady_runs_end_nearly_unchanged_case :
  decent (toy_nets 3 5 (ign 0 20) toy) /\
  match ign_setup (toy_nets 3 5) "out" 0 (ign 0 20) toy with
  | Ok o => let '(r, o', w') := ign_run 50 false false o toy_world in
            r = Ok (Some (3 # 10)) /\ io_past o' = (repeat EStep 6 ++ [EReinit])%list
  | _ => False
  end.
Proof. split; [apply toy_decent; discriminate|]. vm_compute. split; reflexivity. Qed.

(** C92: with [stop_at_ignition] a new object returns the delay exactly if the
    mixture ignites before the end time, or before the last allowed step and
    before it is steady; the points up to ignition are in the data file. *)
Theorem stop_at_ignition_returns_delay :
  forall (A : calc) Ns fuel path idx c m o w d,
    ign_setup Ns path idx c m = Ok o -> reinit_is_idle (Ns c m) ->
    let R := reactor_of (Ns c m) in
    (forall o' w', ign_run fuel true false o w = (Ok (Some d), o', w') ->
       exists k ps, stops_at R c k d /\ recorded R k ps /\ io_delay o' = d /\
         w_fs w' (h5_name path idx) = Some (FProfile ps) /\
         forall f, f <> h5_name path idx -> w_fs w' f = w_fs w f) /\
    (forall k, stops_at R c k d -> (k <= fuel)%nat ->
       exists o' w', ign_run fuel true false o w = (Ok (Some d), o', w')).
Proof. exact @stop_returns. Qed.
Print Assumptions stop_at_ignition_returns_delay.

(** Ignition in the last allowed step: [run_case] fails, [calculate] does
    not. *)
Example stop_at_ignition_returns_delay_case :
  let answers_of c ks :=
    match ign_setup (toy_nets 3 5) "out" 0 c toy with
    | Ok o => let '(rs, o', _) := ign_calls 50 ks o toy_world in delays rs
    | _ => []
    end in
  map (fun n => answers_of (ign 0 n) [CallIgnRun true false]) [3; 4]%Z = [[None]; [Some (Some 3)]]%Z /\
  answers_of (ign 0 3) [CallIgnCalculate] = [Some (Some 3)]%Z /\
  map (fun t => answers_of (ign t 0) [CallIgnRun true false]) [2 # 10; 25 # 100] = [[None]; [Some (Some 3)]]%Z.
Proof. vm_compute. repeat split; reflexivity. Qed.

(** C92: stopping at ignition gives the delay that the whole run gives, and
    so do the results read from its file. *)
Theorem stop_at_ignition_same_delay :
  forall (A : calc) fuel Ns path idx c m o w d o' w',
    ign_setup Ns path idx c m = Ok o -> reinit_is_idle (Ns c m) -> starts_at (reactor_of (Ns c m)) (ig_T c) ->
    ign_run fuel false false o w = (Ok (Some d), o', w') ->
    exists o2 w2, ign_run fuel true false o w = (Ok (Some d), o2, w2) /\ fst (ign_process true o2 w2) = Ok (d, None).
Proof. exact @stop_same. Qed.
Print Assumptions stop_at_ignition_same_delay.

(** C92: with [restart] nothing is run if the data file exists, and the
    delay is not returned; without the file the flag has no effect. *)
Theorem restart_returns_no_delay :
  forall (A : calc) fuel stop o w,
    (w_fs w (io_file o) <> None -> ign_run fuel stop true o w = (Ok None, o, w)) /\
    (w_fs w (io_file o) = None -> ign_run fuel stop true o w = ign_run fuel stop false o w).
Proof. exact (fun A fuel stop o w => conj (restart_skips fuel stop o w) (restart_runs fuel stop o w)). Qed.
Print Assumptions restart_returns_no_delay.

(** C92: [process_results] can be called any number of times, on any object
    with this data file. *)
Theorem process_results_repeats :
  forall (A : calc) fuel ks o w, (forall k, In k ks -> exists s, k = CallIgnProcess s) ->
    let '(rs, o', w') := ign_calls fuel ks o w in
    w' = w /\ io_past o' = io_past o /\ io_file o' = io_file o /\
    Forall2 (fun k r => r = fst (fst (ign_do fuel k o w))) ks rs.
Proof. exact @process_repeats. Qed.
Print Assumptions process_results_repeats.

(** C92: after a run to an end time, [calculate] returns the delay again; a
    second run fails and leaves a file with one point, from which a delay of
    zero is read. *)
Theorem second_run_destroys_results :
  forall (A : calc) fuel fuel' Ns path idx c m o w d o' w' stop,
    ign_setup Ns path idx c m = Ok o -> reinit_is_idle (Ns c m) -> Qnz (ig_end c) = true ->
    ign_run fuel false false o w = (Ok (Some d), o', w') ->
    ign_calculate fuel' o' = (Ok d, o') /\
    exists w2, ign_run fuel' stop false o' w' = (Raise RuntimeError, o', w2) /\
      (let T := p_T (nt_point (io_net o') (io_past o')) in (T < c_plus T 400)%Q -> fst (ign_process true o' w2) = Ok (0, None)).
Proof. exact @run_then. Qed.
Print Assumptions second_run_destroys_results.

(** C92: a second [calculate] goes on where the first one stopped: it returns
    the time of the next step, if that is hot too. *)
Theorem second_calculate_returns_next_time :
  forall (A : calc) fuel Ns path idx c m o k d p,
    ign_setup Ns path idx c m = Ok o -> let R := reactor_of (Ns c m) in
    ignites R (ig_T c) k d -> in_reach R c (S k) -> (Qnz (ig_end c) = true -> (k <= fuel)%nat) ->
    ra_step R (S k) = Some p -> (c_plus (ig_T c) 400 <= p_T p)%Q ->
    fst (ign_calculate fuel o) = Ok d /\ fst (ign_calculate fuel (snd (ign_calculate fuel o))) = Ok (p_time p).
Proof. exact @calculate_twice. Qed.
Print Assumptions second_calculate_returns_next_time.

(** C92: so the delay of a second call can be another one. *)
Theorem calculate_repeats_refuted :
  exists Ns c m o, ign_setup Ns "" 0 c m = Ok o /\ reinit_is_idle (Ns c m) /\
    fst (ign_calculate 50 o) = Ok (3 # 10) /\
    fst (ign_calculate 50 (snd (ign_calculate 50 o))) = Ok (4 # 10).
Proof.
  exists (toy_nets 3 5), (ign 1 0), toy. eexists. split; [reflexivity|]. split; [apply toy_idle|].
  vm_compute. split; reflexivity.
Qed.
Print Assumptions calculate_repeats_refuted.

(** C93: a run of the program with a limit below 100 percent keeps every case
    burning: mixtures that ignite still ignite, flames are still above the
    floor, and delays and speeds are within the limit. *)
Theorem main_keeps_ignition_and_flames :
  forall K floor C a B w sol me r w' l,
    prepared K C a w sol -> a_method a = method_name me -> well_posed K floor C sol ->
    (a_sa a = true -> temps_ok w (a_path a) B) -> a_limit a = Fin l -> (l < 100)%Q -> r_error r <> NaN ->
    main_on exactA floor5 floor6 B K floor C a w = (Ok r, w') ->
    (forall c, In c (ca_ign C) -> exists d d', burns (A := ph_calc (k_physics K)) (ph_reactor (k_physics K) c sol) c d /\
       burns (A := ph_calc (k_physics K)) (ph_reactor (k_physics K) c (r_model r)) c d' /\ within l (Fin d) (Fin d')) /\
    (forall c, In c (ca_flame C) -> exists v v' ps ps', ph_flame (k_physics K) c sol = Ok (v, ps) /\
       ph_flame (k_physics K) c (r_model r) = Ok (v', ps') /\ xgt v (Fin (least_speed floor)) = true /\
       xgt v' (Fin (least_speed floor)) = true /\ within l v v').
Proof. exact main_burns. Qed.
Print Assumptions main_keeps_ignition_and_flames.

Example main_keeps_ignition_and_flames_case :
  let a := toy_main "DRGEP" ["N2"] true (Some 1) in
  prepared (toy_machine "HO2") (burning_cases "N2") a toy_world toy /\
  well_posed (toy_machine "HO2") None (burning_cases "N2") toy /\ temps_ok toy_world "out" toy_limits /\
  match main_on exactA floor5 floor6 toy_limits (toy_machine "HO2") None (burning_cases "N2") a toy_world with
  | (Ok r, _) => Some (species_names (r_model r), xeq (r_error r) (Fin 0))
  | _ => None
  end = Some (["O2"; "HO2"; "N2"], true).
Proof.
  split; [apply burning_prepared|]. split; [exact burning_posed|]. split; [apply toy_temps|]. vm_compute. reflexivity.
Qed.
