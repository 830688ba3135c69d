(** Properties of sampling: C33, C34, C35, C36. *)
From Coq Require Import String List QArith ZArith Bool Arith Lia.
From Verif.Base Require Import Py Num XNum Paths.
From Verif.Model Require Import Mech World Metrics Drivers Simulation Sampling.
From Verif.Spec Require Import Samples MetricSpec DriverSpec DriverSamples SimSpec SimSamples SamplingSpec SamplingSamples.
From Verif.Proofs Require Import SamplingFacts SamplingEnd SamplingTop SamplingLate.
Import ListNotations.
Local Open Scope string_scope.

(** C34: ignition workers in any number of processes, whatever the order of
    their file accesses: each gives what its case gives by itself, or raises if
    it gives nothing; a worker that succeeds leaves no intermediate file, and no
    other file changes. *)
Theorem ignition_workers_do_not_interfere :
  forall fuel Ph model phase path m cs w rs w',
    holds w model phase m -> ~ scratch path (length cs) model ->
    (forall c, In c cs -> starts_at (A := ph_calc Ph) (ph_reactor Ph c m) (ig_T c)) ->
    steps (map (ign_sample_worker fuel Ph model phase path) (jobs_of cs), w) (map Ret rs, w') ->
    length rs = length cs /\
    (forall i c, nth_error cs i = Some c ->
       exists r, nth_error rs i = Some r /\ (forall x, r = Ok x <-> ign_gives fuel Ph m c x) /\
         (forall x, r = Ok x -> w_fs w' (path_join path (Drivers.str_nat i ++ ".h5")) = None)) /\
    (forall f, ~ scratch path (length cs) f -> w_fs w' f = w_fs w f).
Proof. exact ign_pool_ends. Qed.
Print Assumptions ignition_workers_do_not_interfere.

(** The accesses of two workers in turns: both open their files before either
    reads. *)
Example ignition_workers_do_not_interfere_case :
  exists rs w', steps (map (ign_sample_worker 50 full_physics "mech.yaml" "" "out") (jobs_of two_ign), toy_world) (map Ret rs, w') /\
    map (fun r => match r with Ok x => fst x | _ => nil end) rs = [[Fin (3 # 10)]; [Fin (3 # 10)]] /\
    w_fs w' "out/0.h5" = None /\ w_fs w' "out/1.h5" = None.
Proof. exact two_workers_in_turns. Qed.

(** C33: with several processes, in any interleaving and with any order of
    results, sampling gives what it gives with one, in the order of the cases,
    and leaves the same files. *)
Theorem ignition_pool_is_serial :
  forall fuel Ph model phase path m cs w results w',
    holds w model phase m -> ~ scratch path (length cs) model ->
    (forall c, In c cs -> starts_at (A := ph_calc Ph) (ph_reactor Ph c m) (ig_T c)) ->
    pool_run (ign_sample_worker fuel Ph model phase path) (jobs_of cs) w results w' ->
    exists rs w1, Forall2 (ign_gives fuel Ph m) cs rs /\ collect_samples results = Ok (together rs) /\
      exec (ign_jobs fuel Ph model phase path cs) w = (Ok (together rs), w1) /\ same_files w' w1.
Proof. exact ign_pool. Qed.
Print Assumptions ignition_pool_is_serial.

Theorem psr_pool_is_serial :
  forall Ph model phase m cs w results w',
    holds w model phase m -> pool_run (psr_sample_worker Ph model phase) (jobs_of cs) w results w' ->
    exists rs w1, Forall2 (psr_gives Ph m) cs rs /\ collect_samples results = Ok (together rs) /\
      exec (psr_jobs Ph model phase cs) w = (Ok (together rs), w1) /\ same_files w' w1.
Proof. exact psr_pool. Qed.
Print Assumptions psr_pool_is_serial.

Theorem flame_pool_is_serial :
  forall Ph floor model phase m cs w results w',
    holds w model phase m -> pool_run (flame_sample_worker Ph floor model phase) (jobs_of cs) w results w' ->
    exists rs w1, Forall2 (flame_gives Ph floor m) cs rs /\ collect_samples results = Ok (together rs) /\
      exec (flame_jobs Ph floor model phase cs) w = (Ok (together rs), w1) /\ same_files w' w1.
Proof. exact flame_pool. Qed.
Print Assumptions flame_pool_is_serial.

(** The same for the metrics of candidates. *)
Theorem metric_pool_is_serial :
  forall model phase m cs w results w',
    holds w model phase m -> pool_run (metric_worker model phase) (jobs_of cs) w results w' ->
    exists rs w1, mapM (fun c : cond => c m) cs = Ok rs /\ collect results = Ok rs /\
      exec (x <~ run_serial (metric_worker model phase) (jobs_of cs) ;; Ret (collect x)) w = (Ok rs, w1) /\ same_files w' w1.
Proof. exact metric_pool. Qed.
Print Assumptions metric_pool_is_serial.

(** ... and such runs exist whenever the cases give results. *)
Theorem ignition_pool_can_finish :
  forall fuel Ph model phase path m cs w rs,
    holds w model phase m -> ~ scratch path (length cs) model ->
    (forall c, In c cs -> starts_at (A := ph_calc Ph) (ph_reactor Ph c m) (ig_T c)) ->
    Forall2 (ign_gives fuel Ph m) cs rs ->
    exists results w', pool_run (ign_sample_worker fuel Ph model phase path) (jobs_of cs) w results w'.
Proof. exact ign_pool_exists. Qed.
Print Assumptions ignition_pool_can_finish.

(** Results in the wrong order are sorted; a case without result is an error. *)
Example pool_is_serial_case :
  collect [(2%nat, [Fin 5]); (0%nat, [Fin 1]); (1%nat, [Fin 3])] = Ok [[Fin 1]; [Fin 3]; [Fin 5]] /\
  collect [(2%nat, [Fin 5]); (0%nat, [Fin 1])] = Raise KeyError.
Proof. split; vm_compute; reflexivity. Qed.

(** C33, C35: in a directory without saved samples, [sample] gives what the
    cases give — ignition, then PSR, then flame, each in the given order — and
    saves it; the intermediate files are gone and nothing else changes. *)
Theorem first_sample_measures :
  forall torn fuel Ph floor model phase path C m w r w',
    model_apart path C model -> shaped Ph C m -> starts_right Ph C m ->
    holds w model phase m -> fresh w ->
    exec (sample torn fuel Ph floor model phase path C) w = (Ok r, w') ->
    exists xi xp xf, measured fuel Ph floor C m xi xp xf /\ r = together (xi ++ xp ++ xf) /\
      saved_for (ca_ign C) w' "ignition_data.dat" "ignition_output.txt" (together xi) /\
      saved_for (ca_psr C) w' "psr_data.dat" "psr_output.txt" (together xp) /\
      saved_for (ca_flame C) w' "laminarflame_data.dat" "laminarflame_output.txt" (together xf) /\
      (forall f, scratch path (length (ca_ign C)) f -> w_fs w' f = None) /\
      (forall f, ~ In f sample_files -> ~ scratch path (length (ca_ign C)) f -> w_fs w' f = w_fs w f).
Proof. intros. eapply fresh_done; eauto. Qed.
Print Assumptions first_sample_measures.

(** ... and it succeeds if every case gives something. *)
Theorem first_sample_succeeds :
  forall torn fuel Ph floor model phase path C m w xi xp xf,
    model_apart path C model -> shaped Ph C m -> starts_right Ph C m ->
    holds w model phase m -> fresh w -> measured fuel Ph floor C m xi xp xf ->
    exists w', exec (sample torn fuel Ph floor model phase path C) w = (Ok (together (xi ++ xp ++ xf)), w').
Proof. intros. eapply fresh_measures; eauto. Qed.
Print Assumptions first_sample_succeeds.

Example first_sample_measures_case :
  model_apart "out" full_cases "mech.yaml" /\ shaped full_physics full_cases toy /\
  starts_right full_physics full_cases toy /\ holds toy_world "mech.yaml" "" toy /\ fresh toy_world /\
  exists r w', exec (sample whole 50 full_physics None "mech.yaml" "" "out" full_cases) toy_world = (Ok r, w') /\
    fst r = [Fin (3 # 10); Fin (3 # 10); Fin (1 # 100); Fin 1500; Fin 1800; Fin (2 # 5)] /\ length (snd r) = 63%nat.
Proof.
  split; [split|]. { intros (i & L & E). simpl in L. destruct i as [|[|i]]; [discriminate|discriminate|lia]. }
  { unfold sample_files. simpl. intuition discriminate. }
  split; [apply full_shaped|]. split; [apply full_starts|]. split; [exists [toy]; split; reflexivity|]. split; [apply toy_fresh|].
  eexists. eexists. split; [vm_compute; reflexivity|]. split; reflexivity.
Qed.

(** C31, C33: the sampled metrics are what evaluating the sampled model as a
    candidate gives, so that its error is 0 if they are positive. *)
Theorem sampled_model_has_no_error :
  forall torn fuel Ph floor model phase path C m w r w',
    model_apart path C model -> shaped Ph C m -> starts_right Ph C m ->
    holds w model phase m -> fresh w ->
    exec (sample torn fuel Ph floor model phase path C) w = (Ok r, w') ->
    metrics_of (conds_of fuel Ph floor C) m = Ok (fst r) /\
    (fst r <> nil -> (forall x, In x (fst r) -> positive x) ->
     exists e, error_of (conds_of fuel Ph floor C) (fst r) m = Ok (Fin e) /\ e == 0).
Proof. exact no_self_error. Qed.
Print Assumptions sampled_model_has_no_error.

Example sampled_model_has_no_error_case :
  exists e, error_of (conds_of 50 full_physics None full_cases)
    [Fin (3 # 10); Fin (3 # 10); Fin (1 # 100); Fin 1500; Fin 1800; Fin (2 # 5)] toy = Ok (Fin e) /\ e == 0.
Proof. eexists. split; [vm_compute; reflexivity|reflexivity]. Qed.

(** C35: after a call that succeeded, whatever files there were before, a call
    with the same model and conditions returns the same and changes nothing,
    even if the simulators would now give something else. *)
Theorem second_sample_reuses :
  forall torn fuel Ph floor model phase path C m w r w1,
    model_apart path C model -> shaped Ph C m -> holds w model phase m ->
    exec (sample torn fuel Ph floor model phase path C) w = (Ok r, w1) ->
    forall torn' fuel' Ph' floor' path',
      exec (sample torn' fuel' Ph' floor' model phase path' C) w1 = (Ok r, w1).
Proof. exact sample_again. Qed.
Print Assumptions second_sample_reuses.

Example second_sample_reuses_case :
  let s := sample whole 50 full_physics None "mech.yaml" "" "out" full_cases in
  let dead := mkPhysics exact_calc (fun _ _ => broken 0 (ramp 0 0)) (fun _ _ => Raise CanteraError) (fun _ _ => Raise RuntimeError) in
  fst (exec (sample whole 0 dead None "mech.yaml" "" "elsewhere" full_cases) (snd (exec s toy_world))) = fst (exec s toy_world).
Proof. vm_compute. reflexivity. Qed.

(** C35: reuse only checks sizes: files that hold as many metrics, rows and
    columns as expected are returned, whatever made them. *)
Theorem saved_samples_taken_on_trust :
  forall torn fuel Ph floor model phase path C m w xi xp xf,
    holds w model phase m ->
    looks_saved (ca_ign C) 1 20 m w "ignition_data.dat" "ignition_output.txt" xi ->
    looks_saved (ca_psr C) 3 3 m w "psr_data.dat" "psr_output.txt" xp ->
    looks_saved (ca_flame C) 1 20 m w "laminarflame_data.dat" "laminarflame_output.txt" xf ->
    exec (sample torn fuel Ph floor model phase path C) w = (Ok (together [xi; xp; xf]), w).
Proof. exact trusted. Qed.
Print Assumptions saved_samples_taken_on_trust.

(** The samples of one model are returned for another one with as many species
    and other conditions. *)
Example saved_samples_taken_on_trust_case :
  let w1 := snd (exec (sample whole 50 full_physics None "mech.yaml" "" "out" ign_cases) toy_world) in
  let other := mkMech "gas" (m_species toy) nil "" (300, 101325) in
  let w2 := set_file "other.yaml" (Some (FMech [other])) w1 in
  let hotter := mkCases [mkIgn "constant volume" 1500 1 1 0 (mix "O2"); mkIgn "constant volume" 1600 1 1 0 (mix "O2")] nil nil in
  fst (exec (sample whole 50 full_physics None "other.yaml" "" "out" hotter) w2) =
  fst (exec (sample whole 50 full_physics None "mech.yaml" "" "out" ign_cases) toy_world).
Proof. vm_compute. reflexivity. Qed.

(** C36: in a directory without saved samples, a process that dies at any point
    of [sample] — between two file operations or within a number — leaves the
    files such that the next call returns what the interrupted one would have;
    except if the last metric of an output file was cut short. *)
Theorem next_sample_recovers :
  forall torn fuel Ph floor model phase path C m w r w1 v,
    model_apart path C model -> shaped Ph C m -> starts_right Ph C m ->
    holds w model phase m -> fresh w ->
    exec (sample torn fuel Ph floor model phase path C) w = (Ok r, w1) ->
    In v (states (sample torn fuel Ph floor model phase path C) w) ->
    (exists w2, exec (sample torn fuel Ph floor model phase path C) v = (Ok r, w2)) \/
    (exists xi xp xf, measured fuel Ph floor C m xi xp xf /\ r = together (xi ++ xp ++ xf) /\
       ((ca_ign C <> nil /\ cut_short torn v "ignition_output.txt" (fst (together xi))) \/
        (ca_psr C <> nil /\ cut_short torn v "psr_output.txt" (fst (together xp))) \/
        (ca_flame C <> nil /\ cut_short torn v "laminarflame_output.txt" (fst (together xf))))).
Proof. intros. eapply crash_rerun; eauto. Qed.
Print Assumptions next_sample_recovers.

Example next_sample_recovers_case :
  let s := sample whole 50 full_physics None "mech.yaml" "" "out" full_cases in
  (400 < length (states s toy_world))%nat /\
  Forall (fun v => fst (exec s v) = fst (exec s toy_world)) (states s toy_world).
Proof. split; [vm_compute; lia|]. apply Forall_forall. intros v I. apply recover_all. exact I. Qed.

(** C36: the exception is real: 1.000e-02 cut to 1.000e-0 is accepted. *)
Theorem torn_metric_is_accepted_refuted :
  exists torn fuel Ph model phase path C m w r w1 v r',
    model_apart path C model /\ shaped Ph C m /\ starts_right Ph C m /\ holds w model phase m /\ fresh w /\
    exec (sample torn fuel Ph None model phase path C) w = (Ok r, w1) /\
    In v (states (sample torn fuel Ph None model phase path C) w) /\
    exec (sample torn fuel Ph None model phase path C) v = (Ok r', v) /\
    fst r = [Fin (3 # 10); Fin (3 # 10)] /\ fst r' = [Fin (3 # 10); Fin (300 # 10)].
Proof. exact torn_accepted. Qed.
Print Assumptions torn_metric_is_accepted_refuted.

(** C36: if as many metrics of another model are saved beside data of another
    size, a process that dies between the two writes makes the next call
    combine the old metrics with the new data. *)
Theorem crash_mixes_old_metrics_with_new_data :
  forall torn fuel Ph floor model phase path cs m w r w1 old ds,
    let C := mkCases cs nil nil in
    model_apart path C model -> shaped Ph C m -> cs <> nil -> holds w model phase m ->
    w_fs w "ignition_output.txt" = Some (FNums old) -> length old = length cs ->
    w_fs w "ignition_data.dat" = Some (FTable ds) -> table ds ->
    ~ (length ds = (20 * length cs)%nat /\ length (hd nil ds) = (2 + n_species m)%nat) ->
    exec (sample torn fuel Ph floor model phase path C) w = (Ok r, w1) ->
    exists v, In v (states (sample torn fuel Ph floor model phase path C) w) /\
      exec (sample torn fuel Ph floor model phase path C) v = (Ok (old, snd r), v).
Proof. exact mixes. Qed.
Print Assumptions crash_mixes_old_metrics_with_new_data.

Example crash_mixes_old_metrics_with_new_data_case :
  holds old_world "mech.yaml" "" toy /\ table (repeat [Fin 1; Fin 1; Fin 1] 40) /\
  exists r w1, exec (sample whole 50 full_physics None "mech.yaml" "" "out" ign_cases) old_world = (Ok r, w1) /\
    fst r = [Fin (3 # 10); Fin (3 # 10)].
Proof.
  split; [exists [toy]; split; reflexivity|]. split.
  { split; [simpl; lia|]. exists 3%nat. split; [lia|]. intros x I. apply repeat_spec in I. subst. reflexivity. }
  eexists. eexists. split; [vm_compute; reflexivity|reflexivity].
Qed.

(** C36: a data file that was just opened beside an output file blocks every
    later call, whatever the conditions of its ignition cases. *)
Theorem emptied_data_file_blocks :
  forall torn fuel Ph floor model phase path cs m w l,
    cs <> nil -> holds w model phase m ->
    w_fs w "ignition_data.dat" = Some (FTable nil) -> w_fs w "ignition_output.txt" = Some (FNums l) ->
    exec (sample torn fuel Ph floor model phase path (mkCases cs nil nil)) w = (Raise IndexError, w).
Proof. intros. eapply blocked; eauto. Qed.
Print Assumptions emptied_data_file_blocks.

(** C36: ... which two crashes in a row can bring about, starting without any
    saved samples. *)
Theorem two_crashes_block :
  forall torn fuel Ph floor model phase path cs m w r w1,
    let C := mkCases cs nil nil in
    model_apart path C model -> shaped Ph C m -> cs <> nil -> holds w model phase m -> fresh w ->
    exec (sample torn fuel Ph floor model phase path C) w = (Ok r, w1) ->
    exists v v', In v (states (sample torn fuel Ph floor model phase path C) w) /\
      In v' (states (sample torn fuel Ph floor model phase path C) v) /\
      exec (sample torn fuel Ph floor model phase path C) v' = (Raise IndexError, v').
Proof. exact blocks. Qed.
Print Assumptions two_crashes_block.

Example two_crashes_block_case :
  exists r w1, exec (sample whole 50 full_physics None "mech.yaml" "" "out" ign_cases) toy_world = (Ok r, w1).
Proof. eexists. eexists. vm_compute. reflexivity. Qed.
