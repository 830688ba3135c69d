(** Properties of the drivers whose errors, too, are computed with doubles
    (C89). *)
From Coq Require Import String List ZArith QArith Qabs Bool Arith.
From Verif.Base Require Import Py Num XNum Paths B64.
From Verif.Model Require Import Mech World Metrics Drivers FloatDrivers FloatSampling FloatRun DoubleError.
From Verif.Spec Require Import TrimSpec MetricSpec DriverSpec DriverSamples FloatSpec FloatMatrixSpec FloatSamplingSpec
  FloatRunSpec FloatRunSamples DoubleErrorSpec DoubleErrorSamples.
From Verif.Proofs Require Import FloatFacts FloatDriverFacts FloatRunMain FloatRunSampleFacts DoubleErrorFacts DoubleErrorMain SpecialErrors.
Import ListNotations.
Local Open Scope string_scope.

(** C89: for metrics that are doubles the computed error of a reduced model is
    the exact one up to one part in 2^51. *)
Theorem double_error_near_exact :
  forall os ts,
    os <> nil -> length ts = length os -> (forall x, In x os -> double_metric x) ->
    (forall x, In x ts -> double_metric x \/ failed_metric x) ->
    exists e f, calculate_error os ts = Ok (Fin e) /\ double_error os ts = Ok (Fin f) /\ (0 <= e)%Q /\
      (Qabs (f - e) <= (2 # 1) ^ (-51) * e)%Q.
Proof. exact both_errors. Qed.
Print Assumptions double_error_near_exact.

(** 0.63 against 0.5: the exact error is above 26, the computed one is 26. *)
Example double_error_near_exact_case :
  double_metric near_half /\ double_metric near_63 /\
  (exists e f, calculate_error [near_half] [near_63] = Ok (Fin e) /\ double_error [near_half] [near_63] = Ok (Fin f) /\
     26 < e /\ f == 26)%Q /\
  double_error [Fin 2] [Fin 0] = Ok (Fin (b64_val (b64_of_Z 100))).
Proof.
  split; [apply (proj1 (proj2 (edge_doubles calculate_error))); now left|]. split; [apply near_63_metric|].
  split; [do 2 eexists; vm_compute; auto|]. vm_compute. reflexivity.
Qed.

(** C89: metrics that are not numbers.  One NaN makes the error NaN; without
    NaN, one infinite metric makes it infinite. *)
Theorem double_error_special_values :
  forall os ts,
    os <> nil -> length ts = length os -> (forall x, In x os -> double_metric x) -> (forall x, In x ts -> any_metric x) ->
    (In NaN ts -> calculate_error os ts = Ok NaN /\ double_error os ts = Ok NaN) /\
    (~ In NaN ts -> In PInf ts \/ In NInf ts -> calculate_error os ts = Ok PInf /\ double_error os ts = Ok PInf).
Proof. exact special_errors. Qed.
Print Assumptions double_error_special_values.

(** C89: one failed case makes the error 100, whatever the other metrics are. *)
Theorem double_error_failed_case :
  forall os ts,
    os <> nil -> length ts = length os -> (exists x, In x ts /\ failed_metric x) ->
    calculate_error os ts = Ok (Fin 100) /\ exists q, double_error os ts = Ok (Fin q) /\ (q == 100)%Q.
Proof. exact special_failed. Qed.
Print Assumptions double_error_failed_case.

Example double_error_special_values_case :
  let os := [near_half; near_half; near_63] in
  (forall x, In x os -> double_metric x) /\
  (double_error os [near_half; NaN; PInf] = Ok NaN /\ double_error os [near_half; near_63; NInf] = Ok PInf) /\
  double_error os [NaN; Fin 0; PInf] = Ok (Fin (b64_val (b64_of_Z 100))).
Proof.
  assert (double_metric near_half) as H by (apply (proj1 (proj2 (edge_doubles calculate_error))); now left).
  split; [intros x [<-|[<-|[<-|[]]]]; auto; apply near_63_metric|]. vm_compute. auto.
Qed.

(** C89: when no candidate has an exact error next to the limit, the driver
    that computes errors with doubles does what the driver with exact errors
    does: same model, same file, same undecided species, same exception and
    same files, and an error that agrees up to one part in 2^51. *)
Theorem double_errors_same_run :
  forall me J smp w l fuel dfuel,
    (forall sampled rops w1, smp w = (Ok (sampled, rops), w1) -> double_metrics J sampled /\ clear_of J sampled l) ->
    same_outcome (frun me fuel dfuel (with_errors calculate_error J) smp (Fin l) w)
                 (frun me fuel dfuel (with_errors double_error J) smp (Fin l) w).
Proof. exact same_run. Qed.
Print Assumptions double_errors_same_run.

Example double_errors_same_run_case :
  (double_metrics fork_job [Fin 2] /\ clear_of fork_job [Fin 2] 10) /\
  map (fun me => returned (frun me 140 60 (with_errors double_error fork_job) (fork_fsampler 939 61) (Fin 10) fork_world))
      [DRG; PFA; DRGEP] =
    [Ok (["A"; "B"], "out/reduced_2.yaml"); Ok (["A"; "B"], "out/reduced_2.yaml"); Ok (["A"; "B"], "out/reduced_2.yaml")].
Proof. split; [exact fork_doubles|]. vm_compute. reflexivity. Qed.

(** C89: without that condition the rounding of the error decides what is
    returned: dropping B costs a little more than 26 percent, which the exact
    error rejects and the computed error accepts. *)
Theorem double_errors_same_run_refuted :
  double_metrics edge_job [near_half] /\
  forall me,
    returned (frun me 140 60 (with_errors calculate_error edge_job) edge_fsampler (Fin 26) fork_world) =
      Ok (["A"; "B"; "C"], "out/reduced_3.yaml") /\
    returned (frun me 140 60 (with_errors double_error edge_job) edge_fsampler (Fin 26) fork_world) =
      Ok (["A"; "C"], "out/reduced_2.yaml").
Proof. split; [exact (edge_doubles calculate_error)|]. intros [ | | ]; split; vm_compute; reflexivity. Qed.
Print Assumptions double_errors_same_run_refuted.

(** C89: with doubles throughout, every metric of the returned model is within
    the limit, stretched by one part in 2^50, of the metric of the detailed
    model, unless a coefficient is next to the accepted threshold. *)
Theorem double_driver_metrics_close :
  forall me J smp w sol sampled rops w1 l fuel dfuel r w',
    fstarted J smp w sol sampled rops w1 -> tame J sol rops -> fair J sol sampled (Fin l) -> (l <= 99)%Q ->
    c_error (j_conds J) = double_error -> double_metrics J sampled ->
    frun me fuel dfuel J smp (Fin l) w = (Ok r, w') ->
    exists j n, (j < starts_f me)%nat /\
      (forall i, (i < j)%nat -> exceeds J sol sampled (Fin l) (fkept me J sol rops (start_f i))) /\
      (forall k, (k <= n)%nat -> passes J sol sampled (Fin l) (fkept me J sol rops (climb_f j k))) /\
      exceeds J sol sampled (Fin l) (fkept me J sol rops (climb_f j (S n))) /\
      (~ fclose_coefficient me J sol rops (climb_v j n) ->
       forall ts o t, metrics_of (j_conds J) (r_model r) = Ok ts -> In (o, t) (combine sampled ts) ->
         usable t /\ within (l * (1 + (2 # 1) ^ (-50))) o t).
Proof. exact double_close. Qed.
Print Assumptions double_driver_metrics_close.

Example double_driver_metrics_close_case :
  let J := with_errors double_error fork_job in
  fstarted J (fork_fsampler 939 61) fork_world fork [Fin 2] (fork_rates 939 61) fork_world /\
  tame J fork (fork_rates 939 61) /\ fair J fork [Fin 2] (Fin 10) /\ double_metrics J [Fin 2] /\
  returned (frun PFA 140 60 J (fork_fsampler 939 61) (Fin 10) fork_world) = Ok (["A"; "B"], "out/reduced_2.yaml").
Proof.
  split; [now apply fork_fstarted|]. split; [apply fork_tame; [vm_compute; reflexivity|now left]|].
  split; [exact fork_double_fair|]. split; [exact (proj1 fork_doubles)|]. vm_compute. reflexivity.
Qed.
