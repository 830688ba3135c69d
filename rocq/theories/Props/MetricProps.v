(** Properties of the error measure (C28, and C29 as far as [calculate_error]
    is concerned). *)
From Coq Require Import List QArith Qabs Permutation.
From Verif.Base Require Import Py Num XNum.
From Verif.Model Require Import Metrics.
From Verif.Spec Require Import MetricSpec.
From Verif.Proofs Require Import MetricFacts.
Import ListNotations.
Local Open Scope Q_scope.

(** C28: an error of at most [l] < 100 means that every metric of the test
    model is finite, nonzero and within [l] percent of its reference. *)
Theorem small_error_bounds_every_metric :
  forall os ts e l,
    length os = length ts -> (forall o, In o os -> positive o) -> l < 100 ->
    calculate_error os ts = Ok e -> xle e (Fin l) = true ->
    forall o t, In (o, t) (combine os ts) -> usable t /\ within l o t.
Proof. exact error_le_within. Qed.
Print Assumptions small_error_bounds_every_metric.

Example small_error_bounds_every_metric_case :
  calculate_error [Fin 2; Fin 1000] [Fin (21 # 10); Fin 990] = Ok (Fin (100 # 20)) /\
  positive (Fin 1000) /\ within 5 (Fin 2) (Fin (21 # 10)).
Proof.
  split; [vm_compute; reflexivity|]. split.
  - eexists. split; reflexivity.
  - do 2 eexists. split; [reflexivity|]. split; [reflexivity|]. vm_compute. discriminate.
Qed.

(** C28: conversely, metrics within [l] < 100 percent give an error of at
    most [l]. *)
Theorem close_metrics_give_small_error :
  forall os ts l,
    length os = length ts -> os <> nil -> (forall o, In o os -> positive o) -> l < 100 ->
    (forall o t, In (o, t) (combine os ts) -> within l o t) ->
    exists e, calculate_error os ts = Ok (Fin e) /\ e <= l.
Proof. exact error_within_le. Qed.
Print Assumptions close_metrics_give_small_error.

(** C28: with usable test metrics the error is the largest relative deviation
    in percent: an upper bound that is attained. *)
Theorem error_is_largest_deviation :
  forall os ts,
    length os = length ts -> os <> nil -> (forall o, In o os -> positive o) ->
    (forall t, In t ts -> usable t) ->
    exists e, calculate_error os ts = Ok (Fin e) /\
      (forall o t, In (o, t) (combine os ts) -> within e o t) /\
      (exists p q, In (Fin p, Fin q) (combine os ts) /\ 100 * Qabs (p - q) == e * p).
Proof. exact error_is_worst. Qed.
Print Assumptions error_is_largest_deviation.

Example error_is_largest_deviation_case :
  (exists e, calculate_error [Fin 2; Fin 1] [Fin 1; Fin 4] = Ok (Fin e) /\ e == 300).
Proof. eexists. split; vm_compute; reflexivity. Qed.

(** C28: the error is zero exactly when all metrics agree. *)
Theorem error_zero_iff_metrics_agree :
  forall os ts,
    length os = length ts -> os <> nil -> (forall o, In o os -> positive o) ->
    (exists e, calculate_error os ts = Ok (Fin e) /\ e == 0) <->
    (forall o t, In (o, t) (combine os ts) -> same_num o t).
Proof. exact error_zero_iff. Qed.
Print Assumptions error_zero_iff_metrics_agree.

(** C28: the order of the cases does not matter. *)
Theorem error_ignores_order :
  forall l l', l <> nil -> Permutation l l' ->
  exists e e', calculate_error (map fst l) (map snd l) = Ok e /\
               calculate_error (map fst l') (map snd l') = Ok e' /\ same_num e e'.
Proof. exact error_perm. Qed.
Print Assumptions error_ignores_order.

Example error_ignores_order_case :
  calculate_error [Fin 2; Fin 4; Fin 5] [Fin 1; PInf; Fin 5] = Ok PInf /\
  calculate_error [Fin 5; Fin 4; Fin 2] [Fin 5; PInf; Fin 1] = Ok PInf.
Proof. split; vm_compute; reflexivity. Qed.

(** C28: a zero test metric gives exactly 100, whatever the other metrics
    are, even when one of them is off by more. *)
Theorem zero_metric_gives_hundred :
  forall os ts q,
    length os = length ts -> In (Fin q) ts -> q == 0 ->
    calculate_error os ts = Ok (Fin 100).
Proof. exact error_zero_metric. Qed.
Print Assumptions zero_metric_gives_hundred.

Example zero_metric_gives_hundred_case :
  calculate_error [Fin 1; Fin 1] [Fin 4; Fin 1] = Ok (Fin 300) /\
  calculate_error [Fin 1; Fin 1] [Fin 4; Fin 0] = Ok (Fin 100).
Proof. split; vm_compute; reflexivity. Qed.

(** C29: a NaN test metric, without any zero one, makes the error NaN, which
    is neither above nor at most any limit. *)
Theorem nan_metric_gives_nan :
  forall os ts limit,
    length os = length ts -> In NaN ts -> (forall q, In (Fin q) ts -> ~ q == 0) ->
    exists e, calculate_error os ts = Ok e /\ xgt e limit = false /\ xle e limit = false.
Proof. exact error_nan_pkg. Qed.
Print Assumptions nan_metric_gives_nan.

Example nan_metric_gives_nan_case :
  calculate_error [Fin 2; Fin 4] [NaN; Fin 400] = Ok NaN.
Proof. vm_compute. reflexivity. Qed.
