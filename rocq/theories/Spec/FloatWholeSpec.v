(** When a whole run with doubles ends as documented. *)
From Coq Require Import String List ZArith QArith.
From Verif.Base Require Import Py Num XNum B64.
From Verif.Model Require Import Mech World Metrics Drivers Simulation Sampling Main FloatDrivers FloatRun DoubleError FloatMain.
From Verif.Spec Require Import DriverSpec SimSpec SamplingSpec FloatSpec FloatRunSpec FloatMainSpec FloatAgreeSpec.
Import ListNotations.

(** The job of a run: errors are computed with doubles. *)
Definition job_for (K : machine) (floor : option Q) (C : cases) (a : main_in) : job :=
  graph_job a (double_conds (conds_of (k_fuel K) (k_physics K) floor C)).

(** With exact coefficients and thresholds the search would go from the [j]-th
    start to [k] times that; no coefficient is next to a threshold on the way,
    and the limits on the loops suffice.  [n] bounds the number of reactions. *)
Record documented_at (me : method) (n : nat) (K : machine) (rates : mech -> list xnum -> res (list b64)) (floor : option Q)
       (C : cases) (a : main_in) (B : limits) (sol : mech) (ref : list xnum) (rops : list (list b64)) (j k : nat) : Prop := {
  da_gives : detailed_gives K rates floor C sol ref rops;
  da_measured : FloatRunSpec.measured me n sol rops;
  da_start : (j < starts_f me)%nat;
  da_steps : (Z.of_nat k < 2 ^ 31)%Z;
  da_scan : scanned (job_for K floor C a) sol ref (a_limit a) (xkept me (job_for K floor C a) sol rops) j k;
  da_starts_off : forall i, (i < j)%nat -> stays_off me (job_for K floor C a) sol rops n i 0;
  da_steps_off : forall i, (i <= k)%nat -> stays_off me (job_for K floor C a) sol rops n j i;
  da_search : fsearch_ends me (b_path B) (job_for K floor C a) sol rops;
  da_fuel : (j + k + 1 <= b_thr B)%nat
}.

(** Every start would fail. *)
Record fails_at_all (me : method) (n : nat) (K : machine) (rates : mech -> list xnum -> res (list b64)) (floor : option Q)
       (C : cases) (a : main_in) (B : limits) (sol : mech) (ref : list xnum) (rops : list (list b64)) : Prop := {
  fa_gives : detailed_gives K rates floor C sol ref rops;
  fa_measured : FloatRunSpec.measured me n sol rops;
  fa_all : forall i, (i < starts_f me)%nat -> stays_off me (job_for K floor C a) sol rops n i 0 /\
    exceeds (job_for K floor C a) sol ref (a_limit a) (xkept me (job_for K floor C a) sol rops (start_at i));
  fa_errors : forall m, error_of (j_conds (job_for K floor C a)) ref m <> Raise SystemExit;
  fa_search : fsearch_ends me (b_path B) (job_for K floor C a) sol rops;
  fa_fuel : (starts_f me <= b_thr B)%nat
}.
