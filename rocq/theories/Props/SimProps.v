(** Properties of the simulations (C30, C31, C32, C50). *)
From Coq Require Import String List QArith ZArith Bool Arith Lia.
From Verif.Base Require Import Py Num XNum.
From Verif.Model Require Import Mech World Metrics Drivers Simulation.
From Verif.Spec Require Import TrimSpec Samples DriverSpec DriverSamples MetricSpec SimSpec SimSamples.
From Verif.Proofs Require Import SimFacts SimMore.
Import ListNotations.
Local Open Scope string_scope.

(** C50: an ignition run gives the delay [d] exactly if it ends regularly
    after some number of steps (at the end time, or steady before the last
    allowed step) and the first step that is 400 K above the start
    temperature is among them and ends at [d].  [fuel] bounds the number of
    steps of runs to an end time. *)
Theorem ignition_run_succeeds_iff :
  forall (A : calc) fuel R c f w d,
    fst (run_case fuel R c f w) = Ok d <->
    exists n k, ends_after R c n /\ (Qnz (ig_end c) = true -> (n <= fuel)%nat) /\
                (k <= n)%nat /\ ignites R (ig_T c) k d.
Proof. exact @run_case_success. Qed.
Print Assumptions ignition_run_succeeds_iff.

Example ignition_run_succeeds_iff_case :
  map (fun st => fst (run_case 50 (ramp 3 st) (ign 0 6) "0.h5" toy_world)) [4; 5; 6; 7]%nat =
    [Ok (3 # 10); Ok (3 # 10); Raise RuntimeError; Raise RuntimeError] /\
  map (fun tend => fst (run_case 50 (ramp 3 4) (ign tend 6) "0.h5" toy_world)) [2 # 10; 25 # 100; 3] =
    [Raise RuntimeError; Ok (3 # 10); Ok (3 # 10)].
Proof. split; vm_compute; reflexivity. Qed.

(** C50: becoming steady exactly with the last allowed step is a failure, and
    leaves no file behind. *)
Theorem steady_on_last_step_fails :
  forall (A : calc) fuel R c f w n,
    Qnz (ig_end c) = false -> settles R n -> Z.of_nat n = steps_allowed c ->
    run_case fuel R c f w = (Raise RuntimeError, w).
Proof. exact @last_step_fails. Qed.
Print Assumptions steady_on_last_step_fails.

Example steady_on_last_step_fails_case :
  settles (ramp 3 6) 6 /\ steps_allowed (ign 0 6) = 6%Z /\ ignites (ramp 3 6) 1000 3 (3 # 10).
Proof.
  split; [|split].
  - split; [lia|]. split; [intros k _; eexists; reflexivity|]. split; [reflexivity|].
    intros j J. apply Nat.leb_gt. lia.
  - reflexivity.
  - split; [lia|]. split; [eexists; split; [reflexivity|]; split; [discriminate|reflexivity]|].
    intros j J. destruct j as [|[|[|j]]]; try lia; eexists; split; reflexivity.
Qed.

(** C50: a run without ignition fails too, but leaves its file behind. *)
Theorem run_without_ignition_leaves_file :
  forall (A : calc) fuel R c f w n,
    ends_after R c n -> (Qnz (ig_end c) = true -> (n <= fuel)%nat) ->
    (forall k d, (k <= n)%nat -> ~ ignites R (ig_T c) k d) ->
    exists ps w', run_case fuel R c f w = (Raise RuntimeError, w') /\ recorded R n ps /\
                  w_fs w' f = Some (FProfile ps).
Proof. exact @no_ignition_leaves_file. Qed.
Print Assumptions run_without_ignition_leaves_file.

Example run_without_ignition_leaves_file_case :
  let (r, w) := run_case 50 (ramp 9 2) (ign 0 6) "0.h5" toy_world in
  r = Raise RuntimeError /\ w_fs w "0.h5" = Some (FProfile [pt 0 1000; pt (1 # 10) 1000; pt (2 # 10) 1000]).
Proof. vm_compute. split; reflexivity. Qed.

(** C50, C30: a negative step limit is not a failed simulation but an
    UnboundLocalError, for sampling and for candidates. *)
Theorem negative_step_limit_crashes :
  forall (A : calc) fuel R c f w,
    Qnz (ig_end c) = false -> (steps_allowed c < 0)%Z ->
    run_case fuel R c f w = (Raise UnboundLocalError, w) /\
    calculate fuel R c = Raise UnboundLocalError.
Proof. exact @negative_steps. Qed.
Print Assumptions negative_step_limit_crashes.

Example negative_step_limit_crashes_case :
  steps_allowed (ign 0 (-5)) = (-5)%Z /\ Qnz (ig_end (ign 0 (-5))) = false.
Proof. split; reflexivity. Qed.

(** C31: when sampling a case gives a delay, the delay read back from the
    saved states and the delay of the same model as a candidate are the same
    number.  The reactor starts at the temperature of the case. *)
Theorem delays_measured_alike :
  forall (A : calc) fuel R c f w d w',
    run_case fuel R c f w = (Ok d, w') -> starts_at R (ig_T c) ->
    calculate fuel R c = Ok d /\ exists rows, process_results f w' = (Ok (d, rows), w').
Proof. exact @delay_same. Qed.
Print Assumptions delays_measured_alike.

Example delays_measured_alike_case :
  starts_at (ramp 3 5) (ig_T (ign 0 9)) /\
  let (r, w) := run_case 50 (ramp 3 5) (ign 0 9) "0.h5" toy_world in
  r = Ok (3 # 10) /\ calculate 50 (ramp 3 5) (ign 0 9) = Ok (3 # 10) /\
  (exists rows, fst (process_results "0.h5" w) = Ok (3 # 10, rows)) /\
  calculate 50 (ramp 3 50) (ign 0 9) = Ok (3 # 10).
Proof.
  split; [split; reflexivity|]. vm_compute. split; [reflexivity|]. split; [reflexivity|]. split; [|reflexivity].
  eexists. reflexivity.
Qed.

(** C31 for flames and stirred reactors. *)
Theorem flame_speeds_measured_alike :
  forall (A : calc) floor r v rows, flame_process floor r = Ok (v, rows) -> flame_calculate floor r = Ok v.
Proof. exact @flame_alike. Qed.
Print Assumptions flame_speeds_measured_alike.
Theorem psr_metrics_measured_alike :
  forall (A : calc) P r v rows, psr_process P r = Ok (v, rows) -> psr_calculate r = Ok v.
Proof. exact @psr_alike. Qed.
Print Assumptions psr_metrics_measured_alike.

(** C31: and what the numbers are: the speed of a flame above the floor; of a
    stirred reactor the residence time at extinction, the temperature half way
    and the temperature near equilibrium, with the three states as rows. *)
Theorem flame_speed_reported :
  forall (A : calc) floor r v rows, flame_process floor r = Ok (v, rows) ->
    exists ps, r = Ok (v, ps) /\ sample_profile ps = Ok rows /\ xle v (Fin floor) = false.
Proof.
  intros A floor r v rows. unfold flame_process, flame_detected. destruct r as [[x ps]|e|].
  - destruct (xle x (Fin floor)) eqn:E; simpl; [discriminate|].
    destruct (sample_profile ps) as [q| |] eqn:S; simpl; try discriminate. intro H. injection H as <- <-. eauto.
  - destruct e; discriminate.
  - discriminate.
Qed.
Print Assumptions flame_speed_reported.
Theorem stirred_reactor_reported :
  forall (A : calc) P r v rows, psr_process P r = Ok (v, rows) ->
    exists c, r = Ok c /\ v = [pp_tau (pc_ext c); pp_T (pc_mid c); pp_T (pc_near c)] /\
      rows = map (fun p => pp_T p :: Fin (c_times P 101325) :: pp_Y p) [pc_ext c; pc_mid c; pc_near c].
Proof.
  intros A P r v rows. unfold psr_process, psr_detect. destruct r as [c|e|].
  - simpl. intro H. injection H as <- <-. eauto.
  - destruct e; discriminate.
  - discriminate.
Qed.
Print Assumptions stirred_reactor_reported.

Example metrics_measured_alike_case :
  (exists rows, flame_process (1 # 20) (ph_flame toy_physics (mkFlame 300 1 (1 # 10) (mix "O2")) toy) = Ok (Fin (2 # 5), rows)) /\
  (exists rows, psr_process 1 (ph_psr toy_physics (mkPSR 300 1 (mix "O2")) toy) = Ok ([Fin (1 # 100); Fin 1500; Fin 1800], rows)).
Proof. split; vm_compute; eexists; reflexivity. Qed.

(** C30: what evaluating a candidate gives: the delay if it ignites, else 0. *)
Theorem candidate_delay :
  forall (A : calc) fuel R c,
    Qnz (ig_end c) = true \/ (0 <= steps_allowed c)%Z -> calculate fuel R c <> NoFuel ->
    (forall d, burns R c d -> calculate fuel R c = Ok d) /\
    ((forall d, ~ burns R c d) -> calculate fuel R c = Ok 0).
Proof.
  intros A fuel R c H N. split.
  - intros d B. destruct (calculate_burns fuel R c d B); tauto.
  - intros B. destruct (calculate_cold fuel R c H B); tauto.
Qed.
Print Assumptions candidate_delay.

Example candidate_delay_case :
  map (fun R => calculate 50 R (ign 1 0)) [ramp 3 4; ramp 30 4; broken 2 (ramp 3 4); broken 5 (ramp 3 4)] =
    [Ok (3 # 10); Ok 0; Ok 0; Ok (3 # 10)].
Proof. vm_compute. reflexivity. Qed.

(** C30: a candidate for which some case fails has an error of exactly 100,
    hence is above every limit below 100. *)
Theorem failing_candidate_scores_hundred :
  forall fuel Ph floor C m os,
    runnable Ph C m -> some_case_fails Ph floor C m -> length os = n_metrics C ->
    error_of (conds_of fuel Ph floor C) os m <> NoFuel ->
    error_of (conds_of fuel Ph floor C) os m = Ok (Fin 100) /\
    forall l, l < 100 -> xgt (Fin 100) (Fin l) = true /\ xle (Fin 100) (Fin l) = false.
Proof.
  intros * RU F L N. split; [now apply failing_scored|].
  intros l H. split; simpl.
  - now apply NumFacts.Qlt_bool_iff.
  - apply NumFacts.Qle_bool_false. exact H.
Qed.
Print Assumptions failing_candidate_scores_hundred.

(** All four outcomes with the toy: everything works, no ignition, no flame,
    no extinction. *)
Example failing_candidate_scores_hundred_case :
  let E m := error_of (conds_of 50 toy_physics None toy_cases)
               [Fin (3 # 10); Fin (1 # 100); Fin 1500; Fin 1800; Fin (2 # 5)] m in
  let without s := match trim_mech toy [s] "x" "" with Ok m => m | _ => toy end in
  n_metrics toy_cases = 5%nat /\ runnable toy_physics toy_cases toy /\
  (exists e, E toy = Ok (Fin e) /\ e == 0) /\
  map (fun s => E (without s)) ["HO2"; "H2"; "H"; "O2"] =
    [Ok (Fin 100); Ok (Fin 100); Ok (Fin 100); Raise CanteraError].
Proof.
  split; [reflexivity|]. split; [|split].
  - constructor; intros c [<-|[]]; (split; [intros s S; apply sets_iff in S; destruct S as [<-|[]]; vm_compute; tauto|]).
    + left. reflexivity.
    + left. eexists. vm_compute. reflexivity.
    + left. eexists. vm_compute. reflexivity.
  - eexists. split; vm_compute; reflexivity.
  - vm_compute. reflexivity.
Qed.

(** C30, not true in general: a candidate that lacks a species named by a case
    is not scored; the exception escapes. *)
Theorem candidate_without_mixture_species_aborts :
  forall fuel Ph floor C m os,
    (exists c, In c (ca_ign C) /\ ~ supports (ig_mix c) m) \/
    (exists c, In c (ca_psr C) /\ ~ supports (ps_mix c) m) \/
    (exists c, In c (ca_flame C) /\ ~ supports (fl_mix c) m) ->
    forall e, error_of (conds_of fuel Ph floor C) os m <> Ok e.
Proof. exact unsupported_escapes. Qed.
Print Assumptions candidate_without_mixture_species_aborts.

(** C32: the rows sampled from a profile.  [is] are the positions of the
    chosen states: increasing, and each the first after the one before that
    completes its share of the temperature rise; the other rows are zero, and
    no later state completes the share of the first of them. *)
Theorem sampled_rows_are_states :
  forall ps rows, sample_profile ps = Ok rows ->
  exists p0 rest is, ps = p0 :: rest /\ length rows = 20%nat /\ (length is <= 20)%nat /\
    chosen (p_T p0) (p_T (last ps p0)) ps 0 0 is /\
    (forall k i, nth_error is k = Some i ->
       exists p, nth_error ps i = Some p /\ nth_error rows k = Some (p_T p :: p_P p :: p_Y p)) /\
    (forall k, (length is <= k < 20)%nat -> nth_error rows k = Some (repeat 0 (2 + length (p_Y p0)))) /\
    ((length is < 20)%nat -> forall j p, (after is <= j)%nat -> nth_error ps j = Some p ->
       ~ completed (p_T p0) (p_T (last ps p0)) (length is) (p_T p)).
Proof. exact profile_spec. Qed.
Print Assumptions sampled_rows_are_states.

Example sampled_rows_are_states_case :
  exists rows, sample_profile (steps_profile 40) = Ok rows /\
    map (hd 0) rows = map (fun k => inject_Z (1020 + 20 * Z.of_nat k)) (seq 0 20).
Proof. eexists. split; vm_compute; reflexivity. Qed.

(** C32: and in any arithmetic these rows are the only ones with that
    property. *)
Theorem sampled_rows_are_determined :
  forall (A : calc) ps rows, sample_profile ps = Ok rows <-> sampled_from ps rows.
Proof. intros. apply sampled_profile. Qed.
Print Assumptions sampled_rows_are_determined.

Example sampled_rows_are_determined_case :
  exists rows, sampled_from (A := exact_calc) (steps_profile 40) rows /\ nth_error rows 19 = Some [1400; 101325; 1].
Proof. eexists. split; [apply sampled_profile; vm_compute; reflexivity|vm_compute; reflexivity]. Qed.

(** C32: a profile of fewer than 20 states always leaves zero rows. *)
Theorem coarse_profile_leaves_zero_rows :
  forall (A : calc) ps rows, sample_profile ps = Ok rows -> (length ps < 20)%nat ->
    exists p0, hd_error ps = Some p0 /\ nth_error rows 19 = Some (repeat 0 (2 + length (p_Y p0))).
Proof. exact @coarse_zero. Qed.
Print Assumptions coarse_profile_leaves_zero_rows.

Example coarse_profile_leaves_zero_rows_case :
  exists rows, sample_profile (steps_profile 10) = Ok rows /\
    map (hd 0) rows = ([1010; 1020; 1030; 1040; 1050; 1060; 1070; 1080; 1090; 1100] ++ repeat 0 10)%list.
Proof. eexists. split; vm_compute; reflexivity. Qed.

(** C32: a rising profile whose steps are each below a twentieth of the rise
    fills all 20 rows with states, whether or not it rises monotonically. *)
Theorem fine_profile_fills_all_rows :
  forall ps rows p0,
    sample_profile ps = Ok rows -> hd_error ps = Some p0 -> p_T p0 < p_T (last ps p0) ->
    (forall j p q, nth_error ps j = Some p -> nth_error ps (S j) = Some q ->
       p_T q - p_T p < (1 # 20) * (p_T (last ps p0) - p_T p0)) ->
    forall k, (k < 20)%nat -> exists i p, nth_error ps i = Some p /\ nth_error rows k = Some (p_T p :: p_P p :: p_Y p).
Proof. exact fine_fills. Qed.
Print Assumptions fine_profile_fills_all_rows.

Example fine_profile_fills_all_rows_case :
  forall j p q, nth_error (steps_profile 21) j = Some p -> nth_error (steps_profile 21) (S j) = Some q ->
    p_T q - p_T p < (1 # 20) * (p_T (last (steps_profile 21) (pt 0 1000)) - 1000).
Proof.
  intros j p q. do 22 (destruct j as [|j]; [intros H1 H2; vm_compute in H1, H2; try discriminate H2; injection H1 as <-; injection H2 as <-; reflexivity|]).
  intros _ H. simpl in H. destruct j; discriminate H.
Qed.

(** C32: a profile that rises in one step is sampled once only, the remaining
    19 rows are zero. *)
Theorem all_rows_filled_refuted :
  exists ps rows p0, sample_profile ps = Ok rows /\ hd_error ps = Some p0 /\
    p_T p0 < p_T (last ps p0) /\ (30 < length ps)%nat /\
    forall k, (1 <= k < 20)%nat -> nth_error rows k = Some (repeat 0 (2 + length (p_Y p0))).
Proof.
  exists (repeat (pt 0 1000) 30 ++ [pt 1 2000])%list. eexists. eexists.
  split; [vm_compute; reflexivity|]. split; [reflexivity|]. split; [vm_compute; reflexivity|]. split; [simpl; lia|].
  intros k K. do 20 (destruct k as [|k]; [try lia; reflexivity|]). lia.
Qed.
Print Assumptions all_rows_filled_refuted.
