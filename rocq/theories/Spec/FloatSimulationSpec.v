(** Words for the statements about simulations with doubles. *)
From Coq Require Import List QArith ZArith Bool Arith.
From Verif.Base Require Import Py Num B64.
From Verif.Model Require Import Mech World Simulation FloatDrivers.
From Verif.Spec Require Import FloatMatrixSpec FloatSamplingSpec.
Import ListNotations.
Local Open Scope Q_scope.

(** A temperature between 1 K and 2^20 K that is a double. *)
Definition double_temperature (T : Q) : Prop :=
  (exists x, b64_finite x /\ b64_val x == T) /\ 1 <= T <= 1048576.

(** A multiple of 2^-32 K, such as a whole number. *)
Definition coarse (T : Q) : Prop := exists z, T == inject_Z z * (2 # 1) ^ (-32).

(** How the first rows of a sample are chosen, up to an error [e] in the
    temperature; see [fchosen] in Spec/FloatSamplingSpec.v. *)
Fixpoint chosen_near (a b e : Q) (ps : list point) (k from : nat) (is : list nat) : Prop :=
  match is with
  | nil => True
  | i :: t =>
      (from <= i)%nat /\
      (exists p, nth_error ps i = Some p /\ share a b k - e <= p_T p) /\
      (forall j p, (from <= j < i)%nat -> nth_error ps j = Some p -> p_T p < share a b k + e) /\
      chosen_near a b e ps (S k) (S i) t
  end.
