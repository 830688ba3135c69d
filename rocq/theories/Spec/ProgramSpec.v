(** What [main] is handed in doubles. *)
From Coq Require Import String List ZArith QArith.
From Verif.Base Require Import Py Num XNum B64.
From Verif.Model Require Import Main FloatDrivers.
From Verif.Spec Require Import FloatSpec FloatMatrixSpec.

(** All as in [a]; the upper threshold is the same if it is a double, and the
    default 0.1 is the double that this stands for. *)
Record in_doubles (a a' : main_in) : Prop := {
  id_file : a_file a' = a_file a;
  id_limit : a_limit a' = a_limit a;
  id_method : a_method a' = a_method a;
  id_targets : a_targets a' = a_targets a;
  id_safe : a_safe a' = a_safe a;
  id_phase : a_phase a' = a_phase a;
  id_sa : a_sa a' = a_sa a;
  id_type : a_type a' = a_type a;
  id_path : a_path a' = a_path a;
  id_none : a_upper a = None -> a_upper a' = None;
  id_double : forall u, a_upper a = Some u -> (exists d, b64_finite d /\ (b64_val d == u)%Q) ->
    exists v, a_upper a' = Some v /\ (v == u)%Q;
  id_default : a_upper a = Some (1 # 10)%Q ->
    exists v, a_upper a' = Some v /\ (v == 3602879701896397 # 36028797018963968)%Q
}.
