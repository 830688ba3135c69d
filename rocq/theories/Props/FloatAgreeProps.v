(** Drivers with doubles throughout return the documented model when no
    coefficient is next to a threshold (C105). *)
From Coq Require Import String List ZArith QArith Qabs Bool Arith Lia.
From Verif.Base Require Import Py Num XNum Paths B64.
From Verif.Model Require Import Mech Matrices Graph World Metrics Drivers FloatDrivers FloatMatrix FloatPfa FloatRun.
From Verif.Spec Require Import TrimSpec GraphSpec DriverSpec DriverSamples FloatSpec FloatMatrixSpec FloatRunSpec
  FloatRunSamples FloatAgreeSpec FloatAgreeSamples.
From Verif.Proofs Require Import FloatDriverFacts FloatRunSampleFacts FloatClimb FloatAgreeFacts FloatAgreeEx.
Import ListNotations.
Local Open Scope string_scope.

(** C105: after [k] additions the threshold is [k + 1] times the start up to
    [k + 2] roundings. *)
Theorem threshold_is_near_its_multiple :
  forall i k, (i < 5)%nat -> (Z.of_nat k < 2 ^ 31)%Z ->
    (Qabs (climb_v i k - times (S k) (start_at i)) <=
     inject_Z (Z.of_nat (k + 2)) * (2 # 1) ^ (-52) * times (S k) (start_at i))%Q.
Proof. exact climb_near. Qed.
Print Assumptions threshold_is_near_its_multiple.

(** The hundredth threshold is not 1, and lies above it. *)
Example threshold_is_near_its_multiple_case :
  (times 100 (start_at 0) == 1)%Q /\ (1 < climb_v 0 99)%Q /\ (climb_v 0 99 <= 1 + 101 * (2 # 1) ^ (-52))%Q.
Proof. repeat split; vm_compute; congruence. Qed.

(** C105: when the scan of the exact coefficients along the exact thresholds
    stops after [k] of them, and none of the thresholds visited is next to a
    coefficient, then the driver returns the model of the last of these. *)
Theorem double_driver_returns_documented :
  forall me J smp w sol sampled rops w1 limit n fuel dfuel j k,
    fstarted J smp w sol sampled rops w1 -> tame J sol rops -> fair J sol sampled limit ->
    measured me n sol rops -> rops <> nil -> fsearch_ends me dfuel J sol rops ->
    (j < starts_f me)%nat -> (Z.of_nat k < 2 ^ 31)%Z ->
    scanned J sol sampled limit (xkept me J sol rops) j k ->
    (forall i, (i < j)%nat -> stays_off me J sol rops n i 0) ->
    (forall i, (i <= k)%nat -> stays_off me J sol rops n j i) ->
    (j + k + 1 <= fuel)%nat ->
    exists r w', frun me fuel dfuel J smp limit w = (Ok r, w') /\
      cut_to J sol (xkept me J sol rops (times k (start_at j))) (r_model r) /\ xle (r_error r) limit = true.
Proof. intros. eapply fdriver_documented; eauto. Qed.
Print Assumptions double_driver_returns_documented.

(** B has the share 0.0025: the start 0.01 fails, 0.001 and 0.002 are fine. *)
Example double_driver_returns_documented_case :
  fstarted fork_job (fork_fsampler 25 9975) fork_world fork [Fin 2] (fork_rates 25 9975) fork_world /\
  tame fork_job fork (fork_rates 25 9975) /\ fair fork_job fork [Fin 2] (Fin 10) /\
  measured DRG 2 fork (fork_rates 25 9975) /\
  scanned fork_job fork [Fin 2] (Fin 10) (xkept DRG fork_job fork (fork_rates 25 9975)) 1 2 /\
  stays_off DRG fork_job fork (fork_rates 25 9975) 2 0 0 /\
  (forall i, (i <= 2)%nat -> stays_off DRG fork_job fork (fork_rates 25 9975) 2 1 i) /\
  view (frun DRG 4 60 fork_job (fork_fsampler 25 9975) (Fin 10) fork_world) =
    Ok (["A"; "B"; "C"], "out/reduced_3.yaml", Fin (0 # 2), []).
Proof.
  split; [now apply fork_fstarted|]. split; [apply fork_tame; [vm_compute; reflexivity|now left]|].
  split; [now apply fork_fair|]. split; [apply fork_measured; vm_compute; reflexivity|].
  split; [exact quarter_scanned|]. split; [exact (proj1 quarter_off)|]. split; [exact (proj2 quarter_off)|].
  vm_compute. reflexivity.
Qed.

(** C105: and it gives up when every starting threshold fails. *)
Theorem double_driver_exits_as_documented :
  forall me J smp w sol sampled rops w1 limit n fuel dfuel,
    fstarted J smp w sol sampled rops w1 -> tame J sol rops -> fair J sol sampled limit ->
    measured me n sol rops ->
    (forall m, error_of (j_conds J) sampled m <> Raise SystemExit) ->
    rops <> nil -> fsearch_ends me dfuel J sol rops -> (starts_f me <= fuel)%nat ->
    (forall i, (i < starts_f me)%nat ->
       stays_off me J sol rops n i 0 /\ exceeds J sol sampled limit (xkept me J sol rops (start_at i))) ->
    fst (frun me fuel dfuel J smp limit w) = Raise SystemExit.
Proof. intros. eapply fdriver_documented_exit; eauto. Qed.
Print Assumptions double_driver_exits_as_documented.

Example double_driver_exits_as_documented_case :
  forall i, (i < starts_f DRG)%nat ->
    stays_off DRG fork_job fork (fork_rates 1 9999999) 2 i 0 /\
    exceeds fork_job fork [Fin 2] (Fin 10) (xkept DRG fork_job fork (fork_rates 1 9999999) (start_at i)).
Proof. exact trace_all. Qed.

(** C105: with coefficients on a threshold the two can differ. B depends on A
    with coefficient 1, which is below the hundredth double threshold, so the
    run ends one threshold early and C is not removed. *)
Theorem double_driver_returns_documented_refuted :
  fstarted fork_back_job (fork_fsampler 5 995) fork_world fork [Fin 2] (fork_rates 5 995) fork_world /\
  tame fork_back_job fork (fork_rates 5 995) /\ fair fork_back_job fork [Fin 2] (Fin 10) /\
  forall me, me <> DRGEP ->
    view (run me exactA (floor_of me) 140 60 fork_back_job (fork_exact_sampler 5 995) (Fin 10) fork_world) =
      Ok (["A"; "B"], "out/reduced_2.yaml", Fin (0 # 2), []) /\
    view (frun me 140 60 fork_back_job (fork_fsampler 5 995) (Fin 10) fork_world) =
      Ok (["A"; "B"; "C"], "out/reduced_3.yaml", Fin (0 # 2), []).
Proof.
  split; [apply fork_back_fstarted|]. split; [exact fork_tame_back|]. split; [exact fork_back_fair|].
  intros [ | | ] H; try congruence; split; vm_compute; reflexivity.
Qed.
Print Assumptions double_driver_returns_documented_refuted.
