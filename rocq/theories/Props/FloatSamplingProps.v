(** Properties of sampling and of the error with doubles (C78, C79). *)
From Coq Require Import String List ZArith QArith Qabs Bool Arith.
From Verif.Base Require Import Py Num B64.
From Verif.Model Require Import FloatDrivers FloatMatrix FloatSampling.
From Verif.Spec Require Import FloatMatrixSpec FloatSamplingSpec FloatProfiles.
From Verif.Proofs Require Import FloatSamplingFacts FloatErrorFacts FloatProfileFacts.
Import ListNotations.
Local Open Scope Q_scope.

(** C78: which rows are sampled, up to the rounding of the thresholds. *)
Theorem binary64_sampled_rows :
  forall ps p0 rest rows,
    ps = p0 :: rest -> ordinary ps -> f_sample_profile ps = Ok rows ->
    let e := (2 # 1) ^ (-50) * (temp p0 + temp (last ps p0)) in
    exists is, length rows = 20%nat /\ (length is <= 20)%nat /\
      fchosen (temp p0) (temp (last ps p0)) e ps 0 0 is /\
      (forall k i, nth_error is k = Some i ->
         exists p, nth_error ps i = Some p /\ nth_error rows k = Some (fp_T p :: fp_P p :: fp_Y p)) /\
      (forall k, (length is <= k < 20)%nat -> nth_error rows k = Some (zero_row p0)) /\
      ((length is < 20)%nat -> forall j p, (behind is <= j)%nat -> nth_error ps j = Some p ->
         temp p < share (temp p0) (temp (last ps p0)) (length is) + e).
Proof. exact sampled_accurate. Qed.
Print Assumptions binary64_sampled_rows.

Example binary64_sampled_rows_case :
  exists p0 rest rows, ignition_1000_3 = p0 :: rest /\ ordinary ignition_1000_3 /\
    f_sample_profile ignition_1000_3 = Ok rows.
Proof. destruct ignition_ok as (p0 & rest & rows & E & O & _ & R & _). exists p0, rest, rows. auto. Qed.

(** C78: a gentle profile fills all rows unless the first temperature plus the
    rise, both rounded, exceeds the last temperature; then the last row is lost. *)
Theorem binary64_gentle_profile_fills :
  forall ps p0 rest rows,
    ps = p0 :: rest -> ordinary ps -> f_sample_profile ps = Ok rows -> gentle ps p0 ->
    b64_lt (fp_T (last ps p0)) (b64_add (fp_T p0) (b64_sub (fp_T (last ps p0)) (fp_T p0))) = false ->
    forall k, (k < 20)%nat -> exists i p, nth_error ps i = Some p /\ nth_error rows k = Some (fp_T p :: fp_P p :: fp_Y p).
Proof. exact filled_top. Qed.
Print Assumptions binary64_gentle_profile_fills.

Theorem binary64_last_row_lost :
  forall ps p0 rest rows,
    ps = p0 :: rest -> ordinary ps -> f_sample_profile ps = Ok rows ->
    (forall p, In p ps -> temp p <= temp (last ps p0)) ->
    b64_lt (fp_T (last ps p0)) (b64_add (fp_T p0) (b64_sub (fp_T (last ps p0)) (fp_T p0))) = true ->
    nth_error rows 19 = Some (zero_row p0).
Proof. exact lost_top. Qed.
Print Assumptions binary64_last_row_lost.

(** C78: the rise adds up again if the temperature at most doubles or starts at
    a whole number. *)
Theorem binary64_rise_adds_up :
  forall ps p0 rest,
    ps = p0 :: rest -> ordinary ps -> temp p0 <= temp (last ps p0) ->
    temp (last ps p0) <= 2 * temp p0 \/ (exists z, temp p0 == inject_Z z) ->
    b64_lt (fp_T (last ps p0)) (b64_add (fp_T p0) (b64_sub (fp_T (last ps p0)) (fp_T p0))) = false.
Proof. exact adds_up_top. Qed.
Print Assumptions binary64_rise_adds_up.

Example binary64_gentle_profile_case :
  (exists p0 rest rows, flame_298 = p0 :: rest /\ ordinary flame_298 /\ gentle flame_298 p0 /\
     f_sample_profile flame_298 = Ok rows /\ temp p0 == inject_Z 298 /\ 2 * temp p0 < temp (last flame_298 p0)) /\
  (exists p0 rest rows, ignition_1000_3 = p0 :: rest /\ ordinary ignition_1000_3 /\ gentle ignition_1000_3 p0 /\
     f_sample_profile ignition_1000_3 = Ok rows /\ temp (last ignition_1000_3 p0) <= 2 * temp p0).
Proof. split; [exact flame_298_ok|exact ignition_ok]. Qed.

(** C78: a flame that rises from 298.15 K to 1900.2 K in 25 equal steps loses
    its last row. *)
Theorem binary64_all_rows_filled_refuted :
  exists ps p0 rest rows,
    ps = p0 :: rest /\ ordinary ps /\ gentle ps p0 /\
    (forall p, In p ps -> temp p <= temp (last ps p0)) /\
    fp_T p0 = b64_of_frac 29815 100 /\ fp_T (last ps p0) = b64_of_frac 19002 10 /\
    f_sample_profile ps = Ok rows /\ nth_error rows 19 = Some (zero_row p0).
Proof.
  destruct flame_298_15_ok as (p0 & rest & rows & E & O & G & M & A & B & L & R).
  exists flame_298_15, p0, rest, rows.
  split; [exact E|]. split; [exact O|]. split; [exact G|]. split; [exact M|]. split; [exact A|].
  split; [exact B|]. split; [exact R|]. exact (lost_top _ _ _ _ E O R M L).
Qed.
Print Assumptions binary64_all_rows_filled_refuted.

(** C79: the error with doubles against the largest relative deviation. *)
Theorem binary64_error_accuracy :
  forall os ts, length os = length ts -> os <> nil -> (forall x, In x os \/ In x ts -> metric x) ->
    exists f e, f_calculate_error os ts = Ok f /\ b64_finite f /\ is_error os ts e /\
      Qabs (b64_val f - e) <= (2 # 1) ^ (-51) * e.
Proof. exact error_close. Qed.
Print Assumptions binary64_error_accuracy.

(** C79: what a comparison of the error with a limit says about the exact error. *)
Theorem binary64_error_against_limit :
  forall os ts f e limit,
    length os = length ts -> os <> nil -> (forall x, In x os \/ In x ts -> metric x) ->
    f_calculate_error os ts = Ok f -> is_error os ts e -> b64_finite limit ->
    (b64_le f limit = true -> e <= b64_val limit * (1 + (2 # 1) ^ (-50))) /\
    (e * (1 + (2 # 1) ^ (-51)) <= b64_val limit -> b64_le f limit = true).
Proof. exact error_decides. Qed.
Print Assumptions binary64_error_against_limit.

(** C79: a case whose simulation failed makes the error 100, whatever the other
    cases are. *)
Theorem binary64_failed_case_error :
  forall os ts t,
    length os = length ts -> In t ts -> b64_finite t -> b64_val t == 0 ->
    exists f, f_calculate_error os ts = Ok f /\ b64_val f == 100.
Proof. exact failed_case. Qed.
Print Assumptions binary64_failed_case_error.

Example binary64_error_case :
  (forall x, In x delays \/ In x delays_near -> metric x) /\
  (exists f, f_calculate_error delays delays_near = Ok f /\
     b64_lt (b64_of_frac 32258 10000) f = true /\ b64_lt f (b64_of_frac 32259 10000) = true) /\
  f_calculate_error delays delays = Ok fzero /\
  f_calculate_error delays delays_failed = Ok (b64_of_Z 100).
Proof.
  split; [exact delays_metric|]. split; [|split; vm_compute; reflexivity].
  exists (match f_calculate_error delays delays_near with Ok f => f | _ => fzero end).
  split; [vm_compute; reflexivity|]. split; vm_compute; reflexivity.
Qed.
