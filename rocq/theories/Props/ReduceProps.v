(** Properties of a single reduction step (C09, C14, C15, C22). *)
From Coq Require Import String List QArith Bool.
From Verif.Base Require Import Py Num XNum Paths.
From Verif.Model Require Import Mech Matrices Graph World Metrics Drivers.
From Verif.Spec Require Import TrimSpec Samples GraphSpec DriverSpec DriverSamples.
From Verif.Proofs Require Import ReduceFacts SampleFacts.
Import ListNotations.
Local Open Scope string_scope.

(** The toy job that the examples below use is a proper one. *)
Example toy_proper :
  wf_mech toy /\ job_ok (toy_job ["N2"] (Fin 3)) toy /\ holds toy_world "mech.yaml" "" toy.
Proof.
  split; [apply wf_mechb_sound; vm_compute; reflexivity|]. split.
  - split; [discriminate|]. intros s [<- | []]. simpl. auto.
  - exists [toy]. split; reflexivity.
Qed.

(** C14, and the meaning of a step: the new model has exactly the species that
    are to be kept at the threshold. *)
Theorem reduce_keeps_exactly :
  forall me dfuel J sol rops sampled t w r w',
    wf_mech sol -> job_ok J sol -> holds w (j_file J) (j_phase J) sol ->
    reduce me dfuel J sol rops sampled t None w = (Ok r, w') ->
    forall s, In s (species_names (r_model r)) <->
              In s (species_names sol) /\ kept me J sol rops t s.
Proof. intros. eapply reduce_species; eauto. Qed.
Print Assumptions reduce_keeps_exactly.

Example reduce_keeps_exactly_case :
  map (fun t => view (reduce DRG 0 (toy_job ["N2"] (Fin 3)) toy toy_rops [Fin 2] t None toy_world))
      [1 # 100; 9 # 10; 3] =
  [Ok (["H"; "O2"; "HO2"; "H2"; "N2"], "out/reduced_5.yaml", Fin (0 # 2), []);
   Ok (["H"; "O2"; "HO2"; "N2"], "out/reduced_4.yaml", Fin (0 # 2), []);
   Ok (["O2"; "N2"], "out/reduced_2.yaml", Fin (100 # 2), [])].
Proof. vm_compute. reflexivity. Qed.

(** C09: raising the threshold never adds a species. *)
Theorem reduce_antitone_in_threshold :
  forall me dfuel J sol rops sampled t t' w wa r r' w1 w2,
    wf_mech sol -> job_ok J sol -> t <= t' ->
    holds w (j_file J) (j_phase J) sol -> holds wa (j_file J) (j_phase J) sol ->
    reduce me dfuel J sol rops sampled t None w = (Ok r, w1) ->
    reduce me dfuel J sol rops sampled t' None wa = (Ok r', w2) ->
    incl (species_names (r_model r')) (species_names (r_model r)).
Proof.
  intros * W Jo L H Ha E E'. exact (reduce_antitone _ _ _ _ _ _ W Jo _ _ _ _ _ _ _ _ L H Ha E E').
Qed.
Print Assumptions reduce_antitone_in_threshold.

Example reduce_antitone_in_threshold_case :
  map (fun t => view (reduce DRGEP 60 (toy_job nil (Fin 3)) toy toy_rops [Fin 2] t None toy_world))
      [1 # 100; 1 # 4; 3 # 10] =
  [Ok (["H"; "O2"; "HO2"; "H2"], "out/reduced_4.yaml", Fin (0 # 2), []);
   Ok (["H"; "O2"; "HO2"; "H2"], "out/reduced_4.yaml", Fin (0 # 2), []);
   Ok (["O2"], "out/reduced_1.yaml", Fin (100 # 2), [])].
Proof. vm_compute. reflexivity. Qed.

(** C14: targets survive if there is a sampled state; for DRGEP as long as the
    threshold does not exceed 1. *)
Theorem reduce_never_drops_targets :
  forall me dfuel J sol rops sampled t w r w',
    wf_mech sol -> job_ok J sol -> holds w (j_file J) (j_phase J) sol ->
    reduce me dfuel J sol rops sampled t None w = (Ok r, w') ->
    rops <> nil -> (me = DRGEP -> t <= 1) ->
    incl (j_targets J) (species_names (r_model r)).
Proof. intros * W Jo H E N T s Hs. eapply reduce_keeps_targets; eauto. Qed.
Print Assumptions reduce_never_drops_targets.

(** C14: safe species of the model always survive. *)
Theorem reduce_never_drops_safe :
  forall me dfuel J sol rops sampled t w r w',
    wf_mech sol -> job_ok J sol -> holds w (j_file J) (j_phase J) sol ->
    reduce me dfuel J sol rops sampled t None w = (Ok r, w') ->
    forall s, In s (j_safe J) -> In s (species_names sol) -> In s (species_names (r_model r)).
Proof. intros. eapply reduce_keeps_safe; eauto. Qed.
Print Assumptions reduce_never_drops_safe.

(** C14, the other side: with a threshold above 1 DRGEP keeps nothing but the
    safe species, and so do DRG and PFA without any sampled state (and DRGEP
    without one at any positive threshold); targets are lost unless safe. *)
Theorem reduce_drops_unsafe_targets :
  forall me dfuel J sol rops sampled t w r w',
    wf_mech sol -> job_ok J sol -> holds w (j_file J) (j_phase J) sol ->
    reduce me dfuel J sol rops sampled t None w = (Ok r, w') ->
    (me = DRGEP /\ 1 < t) \/ (me <> DRGEP /\ rops = nil) \/ (me = DRGEP /\ rops = nil /\ 0 < t) ->
    forall s, In s (species_names (r_model r)) <-> In s (species_names sol) /\ In s (j_safe J).
Proof. intros. eapply reduce_drops_target; eauto. Qed.
Print Assumptions reduce_drops_unsafe_targets.

Example reduce_drops_unsafe_targets_case :
  view (reduce DRGEP 60 (toy_job ["N2"] (Fin 3)) toy toy_rops [Fin 2] (11 # 10) None toy_world) =
    Ok (["N2"], "out/reduced_1.yaml", Fin (100 # 2), []) /\
  view (reduce PFA 0 (toy_job ["N2"] (Fin 3)) toy nil [Fin 2] (1 # 100) None toy_world) =
    Ok (["N2"], "out/reduced_1.yaml", Fin (100 # 2), []).
Proof. split; vm_compute; reflexivity. Qed.

(** C15: while thresholds rise, handing the previous model to a step changes
    nothing: the result has the content that trimming afresh gives. *)
Theorem reuse_of_previous_model_invisible :
  forall me dfuel J sol rops sampled t t' p w r w',
    wf_mech sol -> job_ok J sol -> search_ends me dfuel J sol rops ->
    history (reduce me dfuel J sol rops sampled) (j_file J) (j_phase J) sol t p -> t <= t' ->
    holds w (j_file J) (j_phase J) sol ->
    reduce me dfuel J sol rops sampled t' (Some p) w = (Ok r, w') ->
    (exists m, cut_to J sol (kept me J sol rops t') m /\ same_content m (r_model r)) /\
    (forall r0 w0 wa, holds wa (j_file J) (j_phase J) sol ->
       reduce me dfuel J sol rops sampled t' None wa = (Ok r0, w0) ->
       same_content (r_model r0) (r_model r)).
Proof. intros. eapply reduce_reuse; eauto. Qed.
Print Assumptions reuse_of_previous_model_invisible.

(** A case in which the previous model is indeed reused (its file name and
    error come back). *)
Example reuse_of_previous_model_invisible_case :
  let J := toy_job nil (Fin 3) in
  let red := reduce DRG 0 J toy toy_rops [Fin 2] in
  exists p w1 w2,
    history red "mech.yaml" "" toy (1 # 2) p /\
    red (3 # 5) (Some p) w1 = (Ok p, w2) /\ species_names (r_model p) = ["H"; "O2"; "HO2"; "H2"].
Proof.
  intros J red.
  destruct (red (1 # 2) (Some (mkRM toy "mech.yaml" (Fin 0) Shared)) toy_world) as [[p|e|] w1] eqn:E;
    try (vm_compute in E; discriminate).
  exists p, w1, w1.
  assert (p = match fst (red (1 # 2) (Some (mkRM toy "mech.yaml" (Fin 0) Shared)) toy_world) with
              | Ok p => p | _ => p end) as Ep by (rewrite E; reflexivity).
  split; [|split].
  - eapply hist_step with (w := toy_world); [apply (hist_start _ _ _ _ (1 # 100))| | |exact E].
    + vm_compute. discriminate.
    + exists [toy]. split; reflexivity.
  - vm_compute in E. injection E as <- <-. vm_compute. reflexivity.
  - vm_compute in Ep. rewrite Ep. reflexivity.
Qed.

(** C15 needs rising thresholds: handed the model of a higher threshold, a step
    may return it although trimming gives another. *)
Theorem reuse_with_falling_threshold_refuted :
  exists J w p r0 w1 w2 w3,
    job_ok J toy /\
    reduce DRG 0 J toy toy_rops [Fin 2] 3 None w = (Ok p, w1) /\
    reduce DRG 0 J toy toy_rops [Fin 2] (9 # 10) (Some p) w1 = (Ok p, w2) /\
    reduce DRG 0 J toy toy_rops [Fin 2] (9 # 10) None w1 = (Ok r0, w3) /\
    species_names (r_model p) = ["O2"; "AR"; "N2"] /\
    species_names (r_model r0) = ["H"; "O2"; "HO2"; "AR"; "N2"].
Proof.
  exists (toy_job ["AR"; "N2"] (Fin 3)), toy_world.
  destruct (reduce DRG 0 (toy_job ["AR"; "N2"] (Fin 3)) toy toy_rops [Fin 2] 3 None toy_world)
    as [[p|e|] w1] eqn:E; try (vm_compute in E; discriminate).
  destruct (reduce DRG 0 (toy_job ["AR"; "N2"] (Fin 3)) toy toy_rops [Fin 2] (9 # 10) None w1)
    as [[r0|e|] w3] eqn:E3; try (vm_compute in E; injection E as <- <-; vm_compute in E3; discriminate).
  exists p, r0, w1, w1, w3. split; [|split; [|split; [|split; [|split]]]]; auto.
  - split; [discriminate|]. intros s [<- | []]. simpl. auto.
  - vm_compute in E. injection E as <- <-. vm_compute. reflexivity.
  - vm_compute in E. injection E as <- <-. reflexivity.
  - vm_compute in E. injection E as <- <-. vm_compute in E3. injection E3 as <- <-. reflexivity.
Qed.
Print Assumptions reuse_with_falling_threshold_refuted.

(** C22: the limbo species that a DRG step reports are those reachable at the
    upper threshold, whatever the threshold; a PFA step reports none. *)
Theorem limbo_of_step :
  forall me dfuel J sol rops sampled t w r w',
    wf_mech sol -> job_ok J sol -> holds w (j_file J) (j_phase J) sol ->
    reduce me dfuel J sol rops sampled t None w = (Ok r, w') ->
    limbo_spec me J sol rops (r_limbo r).
Proof. intros. eapply reduce_fresh; eauto. Qed.
Print Assumptions limbo_of_step.

(** C22: so with DRG every target is reported as limbo. *)
Theorem drg_reports_targets_as_limbo :
  forall dfuel J sol rops sampled t w r w',
    wf_mech sol -> job_ok J sol -> holds w (j_file J) (j_phase J) sol ->
    reduce DRG dfuel J sol rops sampled t None w = (Ok r, w') ->
    truthy (j_upper J) = true -> rops <> nil ->
    incl (j_targets J) (limbo_of w' r).
Proof. exact drg_limbo_targets. Qed.
Print Assumptions drg_reports_targets_as_limbo.

Example drg_reports_targets_as_limbo_case :
  view (reduce DRG 0 (with_upper (9 # 10) (toy_job nil (Fin 3))) toy toy_rops [Fin 2] (1 # 100) None toy_world) =
    Ok (["H"; "O2"; "HO2"; "H2"], "out/reduced_4.yaml", Fin (0 # 2), ["O2"; "H"; "HO2"]) /\
  view (reduce PFA 0 (with_upper 3 (toy_job nil (Fin 3))) toy toy_rops [Fin 2] (1 # 100) None toy_world) =
    Ok (["H"; "O2"; "HO2"; "H2"], "out/reduced_4.yaml", Fin (0 # 2), []).
Proof. split; vm_compute; reflexivity. Qed.
