(** Properties of the number of processes: C96. *)
From Coq Require Import String List QArith ZArith Bool Arith Lia.
From Verif.Base Require Import Py Num XNum.
From Verif.Model Require Import Mech World Metrics Simulation Sampling Pool.
From Verif.Spec Require Import Samples MetricSpec DriverSpec DriverSamples SimSpec SimSamples SamplingSpec SamplingSamples PoolSamples.
From Verif.Proofs Require Import PoolFacts PoolTop.
Import ListNotations.
Local Open Scope string_scope.

(** C96: sampling with any number of processes, 0 among them, that succeeds gives
    what one process gives and leaves the same files, whatever the interleaving
    and whatever was saved before. *)
Theorem sampling_with_any_processes :
  forall cpus threads torn fuel Ph floor model phase path C m w r w',
    (1 <= cpus)%Z -> (0 <= threads)%Z -> model_apart path C model -> holds w model phase m ->
    sample_with cpus threads torn fuel Ph floor model phase path C w (Ok r) w' ->
    exists w1, exec (sample torn fuel Ph floor model phase path C) w = (Ok r, w1) /\ same_files w' w1.
Proof. intros. eapply any_processes; eauto. Qed.
Print Assumptions sampling_with_any_processes.

(** ... and it can succeed if one process succeeds ... *)
Theorem sampling_can_use_any_processes :
  forall cpus threads torn fuel Ph floor model phase path C m w r w1,
    (1 <= cpus)%Z -> (0 <= threads)%Z -> model_apart path C model -> holds w model phase m ->
    exec (sample torn fuel Ph floor model phase path C) w = (Ok r, w1) ->
    exists w', sample_with cpus threads torn fuel Ph floor model phase path C w (Ok r) w'.
Proof. intros. eapply any_success; eauto. Qed.
Print Assumptions sampling_can_use_any_processes.

(** ... but not fail then. *)
Theorem sampling_fails_only_if_serial_does :
  forall cpus threads torn fuel Ph floor model phase path C m w e w',
    (1 <= cpus)%Z -> (0 <= threads)%Z -> model_apart path C model -> holds w model phase m ->
    sample_with cpus threads torn fuel Ph floor model phase path C w (Raise e) w' ->
    forall r w1, exec (sample torn fuel Ph floor model phase path C) w <> (Ok r, w1).
Proof. intros until 4. eapply any_failure; eauto. Qed.
Print Assumptions sampling_fails_only_if_serial_does.

Example sampling_with_any_processes_case :
  model_apart "out" full_cases "mech.yaml" /\ holds toy_world "mech.yaml" "" toy /\
  exists r w', sample_with 4 0 whole 50 full_physics None "mech.yaml" "" "out" full_cases toy_world (Ok r) w' /\
    fst r = [Fin (3 # 10); Fin (3 # 10); Fin (1 # 100); Fin 1500; Fin 1800; Fin (2 # 5)].
Proof.
  assert (model_apart "out" full_cases "mech.yaml") as AP.
  { split. { intros (i & L & E). simpl in L. destruct i as [|[|i]]; [discriminate|discriminate|lia]. }
    unfold sample_files. simpl. intuition discriminate. }
  assert (holds toy_world "mech.yaml" "" toy) as H by (exists [toy]; split; reflexivity).
  split; [exact AP|]. split; [exact H|].
  destruct (exec (sample whole 50 full_physics None "mech.yaml" "" "out" full_cases) toy_world) as (r & w1) eqn:E.
  assert (match r with Ok x => fst x | _ => nil end = [Fin (3 # 10); Fin (3 # 10); Fin (1 # 100); Fin 1500; Fin 1800; Fin (2 # 5)]) as F.
  { apply (f_equal fst) in E. cbn [fst] in E. rewrite <- E. vm_compute. reflexivity. }
  destruct r as [r| |]; try discriminate F. exists r.
  destruct (sampling_can_use_any_processes 4 0 whole 50 full_physics None "mech.yaml" "" "out" full_cases toy toy_world r w1) as (w' & X);
    [lia|lia|exact AP|exact H|exact E|]. exists w'. split; [exact X|exact F].
Qed.

(** C96: 0 means all processors but one, and at least one. *)
Theorem zero_processes_are_all_but_one :
  forall cpus torn fuel Ph floor model phase path C w r w',
    (1 <= cpus)%Z ->
    sample_with cpus 0 torn fuel Ph floor model phase path C w r w' <->
    sample_with cpus (Z.max 1 (cpus - 1)) torn fuel Ph floor model phase path C w r w'.
Proof. exact zero_like. Qed.
Print Assumptions zero_processes_are_all_but_one.

(** C96: one process — asked for, or all that there is — runs the cases one
    after another: every end is the end of that run, failures included. *)
Theorem one_process_is_serial :
  forall cpus threads torn fuel Ph floor model phase path C w r w',
    threads = 1%Z \/ (threads = 0%Z /\ (cpus = 1%Z \/ cpus = 2%Z)) ->
    sample_with cpus threads torn fuel Ph floor model phase path C w r w' <->
    exec (sample torn fuel Ph floor model phase path C) w = (r, w').
Proof. exact one_like. Qed.
Print Assumptions one_process_is_serial.

Example one_process_is_serial_case :
  exists w', sample_with 2 0 whole 50 psr_fails None "mech.yaml" "" "out" two_psr toy_world (Raise CanteraError) w'.
Proof. eexists. apply one_process_is_serial; [auto|]. vm_compute. reflexivity. Qed.

(** C96: a negative number is refused with ValueError if anything is to be
    simulated; no file changes. *)
Theorem negative_processes_are_refused :
  forall cpus threads torn fuel Ph floor model phase path C w r w',
    (threads < 0)%Z -> fresh w ->
    sample_with cpus threads torn fuel Ph floor model phase path C w r w' ->
    (ca_ign C <> [] \/ ca_psr C <> [] \/ ca_flame C <> [] -> r = Raise ValueError) /\ w' = w.
Proof. exact no_processes. Qed.
Print Assumptions negative_processes_are_refused.

Example negative_processes_are_refused_case :
  sample_with 4 (-1) whole 50 full_physics None "mech.yaml" "" "out" full_cases toy_world (Raise ValueError) toy_world.
Proof.
  apply et_raise. eapply et_ok; [reflexivity|]. apply et_raise. apply et_raise. apply rw_refused. reflexivity.
Qed.

(** C96: if several cases fail, several processes may report another failure
    than one process. *)
Theorem failures_reported_alike_refuted :
  exists threads Ph C w e e' w1 w2,
    sample_with 4 threads whole 50 Ph None "mech.yaml" "" "out" C w (Raise e) w1 /\
    exec (sample whole 50 Ph None "mech.yaml" "" "out" C) w = (Raise e', w2) /\ e <> e'.
Proof. exact other_failure. Qed.
Print Assumptions failures_reported_alike_refuted.

(** C96: the metrics of a candidate: with any number of processes they are those
    of the conditions, in their order; no file changes. *)
Theorem metrics_with_any_processes :
  forall cpus threads model phase m (cs : list cond) w,
    (1 <= cpus)%Z -> (0 <= threads)%Z -> holds w model phase m ->
    (forall l, mapM (fun c : cond => c m) cs = Ok l <->
       exists w', metrics_with cpus threads model phase cs w (Ok l) w' /\ same_files w' w) /\
    (forall e w', metrics_with cpus threads model phase cs w (Raise e) w' ->
       forall l, mapM (fun c : cond => c m) cs <> Ok l).
Proof. exact metrics_any. Qed.
Print Assumptions metrics_with_any_processes.

Theorem metrics_negative_processes :
  forall cpus threads model phase (cs : list cond) w r w',
    (threads < 0)%Z -> cs <> [] ->
    metrics_with cpus threads model phase cs w r w' -> r = Raise ValueError /\ w' = w.
Proof. intros until 1. intros _. eapply metrics_none; eauto. Qed.
Print Assumptions metrics_negative_processes.

Example metrics_with_any_processes_case :
  exists w', metrics_with 4 3 "mech.yaml" "" [(fun _ => Ok [Fin 1]); (fun m => Ok [Fin (Z.of_nat (n_species m) # 1); Fin 2])] toy_world
    (Ok [[Fin 1]; [Fin (Z.of_nat (n_species toy) # 1); Fin 2]]) w'.
Proof.
  destruct (metrics_with_any_processes 4 3 "mech.yaml" "" toy
    [(fun _ => Ok [Fin 1]); (fun m => Ok [Fin (Z.of_nat (n_species m) # 1); Fin 2])] toy_world) as (X & _);
    [lia|lia|exists [toy]; split; reflexivity|].
  destruct (proj1 (X _) eq_refl) as (w' & Y & _). eauto.
Qed.
