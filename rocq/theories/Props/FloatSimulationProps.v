(** Properties of simulations with doubles (C103). *)
From Coq Require Import String List ZArith QArith Bool Arith.
From Verif.Base Require Import Py Num XNum B64.
From Verif.Model Require Import Mech World Simulation FloatDrivers FloatSampling FloatSimulation.
From Verif.Spec Require Import Samples DriverSpec SimSpec SimSamples FloatMatrixSpec FloatSamplingSpec FloatProfiles FloatSimulationSpec FloatSimulationSamples.
From Verif.Proofs Require Import SimMore FloatSimulationFacts FloatSimulationEx.
Import ListNotations.
Local Open Scope Q_scope.
Local Open Scope string_scope.

(** C103: a delay that a candidate model gets is zero or the time of a step
    that is in reach of the case; it is 400 K above the start up to one part
    in 2^53, and no step before is, up to the same. *)
Theorem double_delay_near :
  forall fuel Ph c m d,
    ph_calc Ph = double_calc -> double_temperature (ig_T c) -> ign_cond fuel Ph c m = Ok [Fin d] ->
    let R := ph_reactor Ph c m in
    d = 0 \/
    exists k p, (1 <= k)%nat /\ in_reach R c k /\ ra_step R k = Some p /\ p_time p = d /\
      (ig_T c + 400) * (1 - (2 # 1) ^ (-53)) <= p_T p /\
      forall j, (1 <= j < k)%nat ->
        exists q, ra_step R j = Some q /\ p_T q < (ig_T c + 400) * (1 + (2 # 1) ^ (-53)).
Proof. exact delay_near. Qed.
Print Assumptions double_delay_near.

(** C103: the metrics are those of exact arithmetic, whatever the simulators
    report, if the start temperatures are multiples of 2^-32 K. *)
Theorem double_metrics_exact :
  forall fuel Ph floor C m,
    ph_calc Ph = exact_calc -> (forall c, In c (ca_ign C) -> double_temperature (ig_T c) /\ coarse (ig_T c)) ->
    metrics_of (conds_of fuel (with_doubles Ph) floor C) m = metrics_of (conds_of fuel Ph floor C) m.
Proof. exact metrics_exact. Qed.
Print Assumptions double_metrics_exact.

Example double_metrics_exact_case :
  let c := mkIgn "constant volume" 1000 1 1 0 (mix "O2") in
  double_temperature (ig_T c) /\ coarse (ig_T c) /\
  ign_cond 50 (hair_physics double_calc) c toy = Ok [Fin (1 # 10)].
Proof. exact coarse_case. Qed.

(** C103: other start temperatures can change a delay: from the first double
    above 1000 K, 1400 K counts as ignited with doubles. *)
Theorem double_metrics_exact_refuted :
  exists fuel Ph c m, ph_calc Ph = exact_calc /\ double_temperature (ig_T c) /\
    ign_cond fuel (with_doubles Ph) c m = Ok [Fin (1 # 10)] /\ ign_cond fuel Ph c m = Ok [Fin (2 # 10)].
Proof. exists 50%nat, (hair_physics exact_calc), hair_case, toy. exact hair_differs. Qed.
Print Assumptions double_metrics_exact_refuted.

(** C103: a reactor that starts at the temperature of its case does so with
    doubles. *)
Theorem double_reactors_start :
  forall R T0, double_temperature T0 -> p_T (ra_init R) == T0 -> starts_at (A := double_calc) R T0.
Proof. exact starts_double. Qed.
Print Assumptions double_reactors_start.

(** C103: the rows of a sample are those of the states that complete the shares
    of the temperature rise, up to one part in 2^50 of the temperatures; the
    other rows are zero. *)
Theorem double_samples_near :
  forall ps p0 rest rows,
    ps = p0 :: rest -> double_temperature (p_T p0) -> double_temperature (p_T (last ps p0)) ->
    sample_profile (A := double_calc) ps = Ok rows ->
    let a := p_T p0 in let b := p_T (last ps p0) in let e := (2 # 1) ^ (-50) * (a + b) in
    exists is, length rows = 20%nat /\ (length is <= 20)%nat /\ chosen_near a b e ps 0 0 is /\
      (forall k i, nth_error is k = Some i ->
         exists p, nth_error ps i = Some p /\ nth_error rows k = Some (p_T p :: p_P p :: p_Y p)) /\
      (forall k, (length is <= k < 20)%nat -> nth_error rows k = Some (repeat 0 (2 + length (p_Y p0)))) /\
      ((length is < 20)%nat -> forall j p, (behind is <= j)%nat -> nth_error ps j = Some p ->
         p_T p < share a b (length is) + e).
Proof. exact samples_near. Qed.
Print Assumptions double_samples_near.

(** The flame from 298.15 K to 1900.2 K: its last row is zero with doubles, and
    the end of the flame with exact arithmetic.  The eighth row differs too. *)
Example double_samples_near_case :
  exists p0 rest rows rows', as_points flame_298_15 = p0 :: rest /\
    double_temperature (p_T p0) /\ double_temperature (p_T (last (as_points flame_298_15) p0)) /\
    sample_profile (A := double_calc) (as_points flame_298_15) = Ok rows /\
    sample_profile (A := exact_calc) (as_points flame_298_15) = Ok rows' /\
    firstn 7 rows = firstn 7 rows' /\ nth_error rows' 7 <> nth_error rows 7 /\
    nth_error rows 19 = Some (repeat 0 (2 + length (p_Y p0))) /\
    nth_error rows' 19 <> nth_error rows 19.
Proof. exact flame_points. Qed.
