(** Vocabulary for the properties of sampling and of the error with doubles. *)
From Coq Require Import String List ZArith QArith Qabs Bool Arith.
From Verif.Base Require Import Py Num B64.
From Verif.Model Require Import FloatDrivers FloatMatrix FloatSampling.
From Verif.Spec Require Import FloatMatrixSpec.
Import ListNotations.
Local Open Scope Q_scope.

(** The exact temperature of a state. *)
Definition temp (p : fpoint) : Q := b64_val (fp_T p).

(** Temperatures between 1 K and 2^20 K. *)
Definition ordinary (ps : list fpoint) : Prop :=
  forall p, In p ps -> b64_finite (fp_T p) /\ 1 <= temp p <= 1048576.

(** Where fraction (k+1)/20 of the rise from [a] to [b] is completed. *)
Definition share (a b : Q) (k : nat) : Q := a + (Z.of_nat (S k) # 20) * (b - a).

(** How the first rows of a sample are chosen, up to an error [e] in the
    temperature: [is] are the positions in the profile, increasing; the k-th is
    the first position after the one before at which the share of row [k] is
    completed. *)
Fixpoint fchosen (a b e : Q) (ps : list fpoint) (k : nat) (from : nat) (is : list nat) : Prop :=
  match is with
  | nil => True
  | i :: t =>
      (from <= i)%nat /\
      (exists p, nth_error ps i = Some p /\ share a b k - e <= temp p) /\
      (forall j p, (from <= j < i)%nat -> nth_error ps j = Some p -> temp p < share a b k + e) /\
      fchosen a b e ps (S k) (S i) t
  end.

(** The position after the last of the chosen ones. *)
Definition behind (is : list nat) : nat := match rev is with nil => O | i :: _ => S i end.

(** No step of the profile exceeds a 21st of its rise, which is at least 1 K. *)
Definition gentle (ps : list fpoint) (p0 : fpoint) : Prop :=
  temp p0 + 1 <= temp (last ps p0) /\
  forall j p q, nth_error ps j = Some p -> nth_error ps (S j) = Some q ->
    temp q - temp p <= (1 # 21) * (temp (last ps p0) - temp p0).

Definition zero_row (p0 : fpoint) : list b64 := repeat fzero (2 + length (fp_Y p0)).

(** Metrics far from overflow and underflow. *)
Definition metric (x : b64) : Prop := b64_finite x /\ (2 # 1) ^ (-400) <= b64_val x <= (2 # 1) ^ 400.

(** The largest relative deviation, in percent. *)
Definition is_error (os ts : list b64) (e : Q) : Prop :=
  (forall i o t, nth_error os i = Some o -> nth_error ts i = Some t ->
     100 * (Qabs (b64_val o - b64_val t) / b64_val o) <= e) /\
  (exists i o t, nth_error os i = Some o /\ nth_error ts i = Some t /\
     e == 100 * (Qabs (b64_val o - b64_val t) / b64_val o)).
