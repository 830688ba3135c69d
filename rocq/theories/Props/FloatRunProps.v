(** Properties of the drivers with doubles throughout (C85 to C88). *)
From Coq Require Import String List ZArith QArith Qabs Bool Arith.
From Verif.Base Require Import Py Num XNum Paths B64.
From Verif.Model Require Import Mech Matrices Graph World Metrics Drivers FloatDrivers FloatMatrix FloatPfa FloatRun.
From Verif.Spec Require Import TrimSpec GraphSpec DriverSpec DriverSamples FloatSpec FloatMatrixSpec FloatRunSpec FloatRunSamples.
From Verif.Proofs Require Import FloatFacts FloatDriverFacts FloatTop FloatRunMain FloatRunExact FloatRunSampleFacts.
Import ListNotations.
Local Open Scope string_scope.

(** C85: a returned model is the one in the file, the reported error is its
    error, and the limbo species are those the rounded coefficients give. *)
Theorem double_driver_result :
  forall me J smp w sol sampled rops w1 limit fuel dfuel r w',
    fstarted J smp w sol sampled rops w1 -> tame J sol rops ->
    frun me fuel dfuel J smp limit w = (Ok r, w') ->
    r_file r = out_file J (n_species (r_model r)) /\
    w_fs w' (r_file r) = Some (FMech [r_model r]) /\
    holds w' (r_file r) (j_phase J) (r_model r) /\
    error_of (j_conds J) sampled (r_model r) = Ok (r_error r) /\
    flimbo_spec me J sol rops (r_limbo r) /\
    (me <> DRGEP -> w_shared w' = w_shared w1) /\
    (me = DRGEP -> exists l, w_shared w' = (w_shared w1 ++ l)%list /\ fdrgep_limbo J sol rops (r_model r) l).
Proof. intros. eapply fdriver_file; eauto. Qed.
Print Assumptions double_driver_result.

(** C85: whatever happens, only files of the form reduced_N.yaml in the output
    directory change after sampling. *)
Theorem double_driver_only_writes_outputs :
  forall me J smp w sol sampled rops w1 limit fuel dfuel g,
    fstarted J smp w sol sampled rops w1 -> tame J sol rops ->
    (forall n, g <> out_file J n) ->
    w_fs (snd (frun me fuel dfuel J smp limit w)) g = w_fs w1 g.
Proof. intros. eapply fdriver_frame; eauto. Qed.
Print Assumptions double_driver_only_writes_outputs.

(** C85: targets and species marked to be kept are in the returned model. *)
Theorem double_driver_keeps :
  forall me J smp w sol sampled rops w1 limit fuel dfuel r w',
    fstarted J smp w sol sampled rops w1 -> tame J sol rops -> fair J sol sampled limit -> rops <> nil ->
    frun me fuel dfuel J smp limit w = (Ok r, w') ->
    incl (j_targets J) (species_names (r_model r)) /\
    (forall s, In s (j_safe J) -> In s (species_names sol) -> In s (species_names (r_model r))).
Proof. intros. eapply fdriver_keeps; eauto. Qed.
Print Assumptions double_driver_keeps.

(** No threshold comes within one part in 2^49 of 1 from below, which is what
    keeps the targets of DRGEP (their importance is 1). *)
Theorem thresholds_stay_off_one :
  forall j k, (j < 5)%nat -> (climb_v j k <= 1)%Q ->
    (climb_v j k + (2 # 1) ^ (-49) * climb_v j k <= 1)%Q.
Proof. exact below_one. Qed.
Print Assumptions thresholds_stay_off_one.

(** The limbo species of the three methods differ. *)
Example double_driver_result_case :
  (forall b c, fstarted fork_upper_job (fork_fsampler b c) fork_world fork [Fin 2] (fork_rates b c) fork_world) /\
  tame fork_upper_job fork (fork_rates 61 939) /\
  map (fun me => view (frun me 40 60 fork_upper_job (fork_fsampler 61 939) (Fin 10) fork_world)) [DRG; PFA; DRGEP] =
    [Ok (["A"; "B"; "C"], "out/reduced_3.yaml", Fin (0 # 2), ["A"; "C"]);
     Ok (["A"; "B"; "C"], "out/reduced_3.yaml", Fin (0 # 2), []);
     Ok (["A"; "B"; "C"], "out/reduced_3.yaml", Fin (0 # 2), ["B"])].
Proof.
  split; [intros; now apply fork_fstarted|]. split; [apply fork_tame; [vm_compute; reflexivity|now right]|].
  vm_compute. reflexivity.
Qed.

(** C86: a returned model is within the limit unless a rounded coefficient is
    within one part in 2^49 of the accepted threshold. *)
Theorem double_driver_within_limit :
  forall me J smp w sol sampled rops w1 limit fuel dfuel r w',
    fstarted J smp w sol sampled rops w1 -> tame J sol rops -> fair J sol sampled limit ->
    frun me fuel dfuel J smp limit w = (Ok r, w') ->
    exists j n, (j < starts_f me)%nat /\
      (forall i, (i < j)%nat -> exceeds J sol sampled limit (fkept me J sol rops (start_f i))) /\
      (forall k, (k <= n)%nat -> passes J sol sampled limit (fkept me J sol rops (climb_f j k))) /\
      exceeds J sol sampled limit (fkept me J sol rops (climb_f j (S n))) /\
      (~ fclose_coefficient me J sol rops (climb_v j n) ->
       xle (r_error r) limit = true /\ cut_to J sol (fkept me J sol rops (climb_f j n)) (r_model r)).
Proof. intros. eapply fdriver_within; eauto. Qed.
Print Assumptions double_driver_within_limit.

(** C drops out on the way to the threshold 0.93. *)
Example double_driver_within_limit_case :
  fstarted fork_job (fork_fsampler 939 61) fork_world fork [Fin 2] (fork_rates 939 61) fork_world /\
  tame fork_job fork (fork_rates 939 61) /\ fair fork_job fork [Fin 2] (Fin 10) /\
  map (fun me => view (frun me 140 60 fork_job (fork_fsampler 939 61) (Fin 10) fork_world)) [DRG; PFA; DRGEP] =
    [Ok (["A"; "B"], "out/reduced_2.yaml", Fin (0 # 2), []);
     Ok (["A"; "B"], "out/reduced_2.yaml", Fin (0 # 2), []);
     Ok (["A"; "B"], "out/reduced_2.yaml", Fin (0 # 2), [])].
Proof.
  split; [now apply fork_fstarted|]. split; [apply fork_tame; [vm_compute; reflexivity|now left]|].
  split; [now apply fork_fair|]. vm_compute. reflexivity.
Qed.

(** C86: a run that returns a model with an error of 50 percent although the
    limit is 10 percent, for each method: the coefficient of B is the double
    nearest to 0.03, which is also the accepted threshold, and stepping back
    lands above it. *)
Theorem double_driver_within_limit_refuted :
  fstarted fork_job (fork_fsampler 3 97) fork_world fork [Fin 2] (fork_rates 3 97) fork_world /\
  tame fork_job fork (fork_rates 3 97) /\ fair fork_job fork [Fin 2] (Fin 10) /\
  forall me, view (frun me 10 60 fork_job (fork_fsampler 3 97) (Fin 10) fork_world) =
    Ok (["A"; "C"], "out/reduced_2.yaml", Fin (100 # 2), []).
Proof.
  split; [now apply fork_fstarted|]. split; [apply fork_tame; [vm_compute; reflexivity|now left]|].
  split; [now apply fork_fair|]. intros [ | | ]; vm_compute; reflexivity.
Qed.
Print Assumptions double_driver_within_limit_refuted.

(** C87: the driver gives up exactly when each of its starting thresholds
    gives a model beyond the limit. *)
Theorem double_driver_gives_up :
  forall me J smp w sol sampled rops w1 limit fuel dfuel,
    fstarted J smp w sol sampled rops w1 -> tame J sol rops -> fair J sol sampled limit ->
    (forall m, error_of (j_conds J) sampled m <> Raise SystemExit) ->
    rops <> nil -> fsearch_ends me dfuel J sol rops -> (starts_f me <= fuel)%nat ->
    (fst (frun me fuel dfuel J smp limit w) = Raise SystemExit <->
     forall i, (i < starts_f me)%nat -> exceeds J sol sampled limit (fkept me J sol rops (start_f i))).
Proof. intros. now apply fdriver_exit with (w1 := w1). Qed.
Print Assumptions double_driver_gives_up.

(** B matters for the simulation but its share is 1e-7. *)
Example double_driver_gives_up_case :
  tame fork_job fork (fork_rates 1 9999999) /\
  map (fun me => view (frun me 40 60 fork_job (fork_fsampler 1 9999999) (Fin 10) fork_world)) [DRG; PFA; DRGEP] =
    [Raise SystemExit; Raise SystemExit; Raise SystemExit].
Proof. split; [apply fork_tame; [vm_compute; reflexivity|now left]|]. vm_compute. reflexivity. Qed.

(** C87: it ends when keeping only the safe species (and for DRG and PFA the
    targets) is beyond the limit, or leaves nothing. *)
Theorem double_driver_ends :
  forall me J smp w sol sampled rops w1 limit,
    fstarted J smp w sol sampled rops w1 -> tame J sol rops -> fair J sol sampled limit -> rops <> nil ->
    (forall m, error_of (j_conds J) sampled m <> NoFuel) ->
    (exceeds J sol sampled limit (core me J) \/ (forall s, In s (species_names sol) -> ~ core me J s)) ->
    exists N, forall fuel dfuel, (N <= fuel)%nat -> (N <= dfuel)%nat ->
      fst (frun me fuel dfuel J smp limit w) <> NoFuel.
Proof. intros. eapply fdriver_ends; eauto. Qed.
Print Assumptions double_driver_ends.

(** C87: and never returns when every threshold stays within the limit. *)
Theorem double_driver_never_returns :
  forall me J smp w sol sampled rops w1 limit fuel dfuel,
    fstarted J smp w sol sampled rops w1 -> tame J sol rops -> fair J sol sampled limit ->
    rops <> nil -> fsearch_ends me dfuel J sol rops ->
    (forall n, passes J sol sampled limit (fkept me J sol rops (climb_f 0 n))) ->
    fst (frun me fuel dfuel J smp limit w) = NoFuel.
Proof. intros. eapply fdriver_forever; eauto. Qed.
Print Assumptions double_driver_never_returns.

(** A simulation that needs the target only: DRG and PFA go on for ever, DRGEP
    fails once the threshold is above 1 and no species is left. *)
Example double_driver_never_returns_case :
  map (fun me => view (frun me 140 60 fork_free_job (fork_fsampler 61 939) (Fin 10) fork_world)) [DRG; PFA; DRGEP] =
    [NoFuel; NoFuel; Raise ValueError].
Proof. vm_compute. reflexivity. Qed.

(** C88: the returned model has every species that the exact coefficients of
    the same rates keep at a threshold a little above the accepted one, and
    none that they drop at a threshold a little below it; it is the model of
    the exact coefficients when none of those lies between. *)
Theorem double_driver_near_exact :
  forall me J smp w sol sampled rops w1 limit n fuel dfuel r w',
    fstarted J smp w sol sampled rops w1 -> tame J sol rops -> fair J sol sampled limit ->
    measured me n sol rops ->
    frun me fuel dfuel J smp limit w = (Ok r, w') ->
    exists j k, (j < starts_f me)%nat /\
      (forall i, (i < j)%nat -> exceeds J sol sampled limit (fkept me J sol rops (start_f i))) /\
      (forall i, (i <= k)%nat -> passes J sol sampled limit (fkept me J sol rops (climb_f j i))) /\
      exceeds J sol sampled limit (fkept me J sol rops (climb_f j (S k))) /\
      let t := climb_v j k in
      let d := ((2 # 1) ^ (-49) * t + coefficient_bound me (n_species sol) n)%Q in
      (d < t)%Q ->
      (forall s, In s (species_names sol) -> xkept me J sol rops (t + d) s -> In s (species_names (r_model r))) /\
      (forall s, In s (species_names (r_model r)) -> xkept me J sol rops (t - d) s) /\
      ((forall v, xcoefficient me J sol rops v -> (d < Qabs (v - t))%Q) ->
       cut_to J sol (xkept me J sol rops t) (r_model r)).
Proof. intros. eapply fdriver_exact; eauto. Qed.
Print Assumptions double_driver_near_exact.

(** The margin for a model with 60 species and 400 reactions at the starting
    threshold 0.01, and a run that meets the hypotheses. *)
Example double_driver_near_exact_case :
  (forall me, (2 # 1) ^ (-49) * start_v 0 + coefficient_bound me 60 400 < 1 # 1000000000)%Q /\
  (forall me, measured me 2 fork (fork_rates 939 61)) /\
  map (fun me => view (frun me 140 60 fork_job (fork_fsampler 939 61) (Fin 10) fork_world)) [DRG; PFA; DRGEP] =
    [Ok (["A"; "B"], "out/reduced_2.yaml", Fin (0 # 2), []);
     Ok (["A"; "B"], "out/reduced_2.yaml", Fin (0 # 2), []);
     Ok (["A"; "B"], "out/reduced_2.yaml", Fin (0 # 2), [])].
Proof.
  split; [intros [ | | ]; vm_compute; reflexivity|].
  split; [intros me; apply fork_measured; vm_compute; reflexivity|]. vm_compute. reflexivity.
Qed.
