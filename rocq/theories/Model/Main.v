(** The whole program: pymars.py:152-407. *)
From Coq Require Import String List QArith Bool.
From Verif.Base Require Import Py Num XNum Paths.
From Verif.Model Require Import Mech World Metrics Drivers Sensitivity Simulation Sampling Inputs.
Import ListNotations.
Local Open Scope string_scope.

(** What [main] is called with (pymars.py:152-168), without the number of
    processes.  The conditions are in [main]'s other arguments; an empty string
    stands for [None]. *)
Record main_in := mkMain {
  a_file : string;
  a_limit : xnum;
  a_method : string;
  a_targets : list string;
  a_safe : list string;
  a_phase : string;
  a_sa : bool;
  a_upper : option Q;
  a_type : string;
  a_path : string
}.

(** [method in ["DRG", "DRGEP", "PFA"]] *)
Definition graph_method (s : string) : bool := str_in s ["DRG"; "DRGEP"; "PFA"].

(** The arguments of [run_drg], [run_drgep] and [run_pfa]; the last one is not
    given the upper threshold. *)
Definition graph_job (a : main_in) (cs : conds) : job :=
  mkJob (a_file a) (a_phase a) (a_path a) (a_targets a) (a_safe a) cs
        (if String.eqb (a_method a) "PFA" then None else a_upper a).

(** The bounds of the loops and the names of the two temporary directories of
    [run_sa]. *)
Record limits := mkLimits { b_thr : nat; b_path : nat; b_sa : nat; b_tmp : string; b_tmp2 : string }.

(** pymars.py:152-290 — [main].  [drg], [drgep] and [pfa] are the calls of the
    drivers, [far] is the distance between errors in [run_sa]. *)
Definition main_with (drg drgep pfa : job -> M rmodel) (far : xnum -> xnum -> xnum) (B : limits) (cs : conds)
           (a : main_in) : M rmodel :=
  let J := graph_job a cs in
  if graph_method (a_method a) && match a_targets a with nil => true | _ => false end
  then mraise AssertionError
  else if String.eqb (a_method a) "" && negb (a_sa a) then mraise ValueError
  else
    red <- (if String.eqb (a_method a) "DRG" then
              r <- drg J ;; mret (Some r)
            else if String.eqb (a_method a) "DRGEP" then
              r <- drgep J ;; mret (Some r)
            else if String.eqb (a_method a) "PFA" then
              r <- pfa J ;; mret (Some r)
            else mret None) ;;
    let '(model_file, error, limbo_species) :=
      match red with
      | Some r => (r_file r, r_error r, r_limbo r)
      | None => (a_file a, Fin 0, Own nil)
      end in
    if a_sa a then
      let t := if String.eqb (a_type a) "" then "greedy" else a_type a in
      run_sa (b_sa B) (b_tmp B) (b_tmp2 B)
        (mkSAWith model_file (a_phase a) (a_path a) error cs (a_limit a) (a_targets a ++ a_safe a)
                  (if String.eqb t "greedy" then Greedy else Initial) limbo_species far)
    else
      match red with
      | Some r => mret r
      | None => mraise UnboundLocalError
      end.

(** The same with the drivers of Model/Drivers.v: [fl5], [fl6] are their
    lowest thresholds, [smp] is the call of [sample] that each of them makes. *)
Definition main (A : arith) (fl5 fl6 : A_t A -> bool) (B : limits) (smp : sampler) (cs : conds) (a : main_in)
  : M rmodel :=
  main_with (fun J => run_drg A fl5 (b_thr B) J smp (a_limit a))
            (fun J => run_drgep A fl6 (b_thr B) (b_path B) J smp (a_limit a))
            (fun J => run_pfa A fl5 (b_thr B) J smp (a_limit a)) error_distance B cs a.

(** The simulators and Cantera as far as sampling is concerned. *)
Record machine := mkMachine {
  k_torn : xnum -> list xnum;
  k_fuel : nat;
  k_physics : physics;
  k_rates : mech -> list xnum -> res (list Q)
}.

(** The sampling that a driver does for [main]: drg.py:287-312,
    pfa.py:313-338, drgep.py:421-449.  [rates] gives the rates at a state, as
    exact numbers or as doubles. *)
Definition sampler_with {R : Type} (K : machine) (rates : mech -> list xnum -> res R) (floor : option Q) (C : cases)
           (a : main_in) : M (list xnum * list R) :=
  sol <- load (a_file a) (a_phase a) ;;
  sampler_of (k_torn K) (k_fuel K) (k_physics K) rates floor (a_file a) (a_phase a) (a_path a) C sol.
Definition sampler_for (K : machine) (floor : option Q) (C : cases) (a : main_in) : sampler :=
  sampler_with K (k_rates K) floor C a.

(** [main] with cases rather than their effects, and one process. *)
Definition main_on (A : arith) (fl5 fl6 : A_t A -> bool) (B : limits) (K : machine) (floor : option Q) (C : cases)
           (a : main_in) : M rmodel :=
  main A fl5 fl6 B (sampler_for K floor C a) (conds_of (k_fuel K) (k_physics K) floor C) a.

(** ** The command line *)

(** The options, after [ArgumentParser]; the empty string stands for one that is
    not given. *)
Record options := mkOptions {
  o_input : string;
  o_path : string;
  o_convert : bool;
  o_model : string;
  o_version : bool
}.

(** pymars.py:385 *)
Definition yaml_name (model : string) : bool := str_in (snd (splitext model)) [".yaml"; ".yml"].

(** pymars.py:293-407 — [pymars], for [n] arguments.  [read_yaml] is
    [yaml.safe_load] of a file, [convert] is tools.py:169-228 with the thermo
    and transport files, [run_main] the call of [main].  The fields of a
    [NamedTuple] cannot be assigned to: line 387 raises AttributeError. *)
Definition pymars (read_yaml : string -> M yval) (convert : string -> string -> M unit)
           (run_main : inputs -> string -> M unit) (n : nat) (o : options) : M unit :=
  if Nat.eqb n 0 then mraise SystemExit
  else if o_version o then mraise SystemExit
  else if o_convert o then
    if String.eqb (o_model o) "" then mraise SystemExit else convert (o_model o) (o_path o)
  else if String.eqb (o_input o) "" then mraise SystemExit
  else
    dict <- read_yaml (o_input o) ;;
    r <- parse_inputs dict ;;
    let I := fst r in
    if yaml_name (in_model I) then run_main I (o_path o)
    else convert (in_model I) (o_path o) ;;; mraise AttributeError.

(** The arguments that [pymars] gives [main] (pymars.py:389-405), if they have
    the documented types; the thresholds are finite. *)
Definition ystring (v : yval) : option string :=
  match v with YStr s => Some s | YNull => Some "" | YBool false => Some "" | _ => None end.
Definition ymaybe (v : yval) : option (option Q) :=
  match v with YNull => Some None | _ => match yfin v with Some q => Some (Some q) | None => None end end.
Definition main_args (I : inputs) (path : string) : option main_in :=
  match ynum (in_error I), ystring (in_method I), ynames (in_targets I), ynames (in_safe I), ymaybe (in_upper I),
        ystring (in_type I) with
  | Some e, Some m, Some t, Some s, Some u, Some k =>
      Some (mkMain (in_model I) e m t s (in_phase I) (ytrue (in_sa I)) u k path)
  | _, _, _, _, _, _ => None
  end.

(** [pymars] on inputs of the documented types (others: an unspecified
    outcome [other]). *)
Definition run_main_of (A : arith) (fl5 fl6 : A_t A -> bool) (B : limits) (K : machine) (other : M unit)
           (I : inputs) (path : string) : M unit :=
  match main_args I path, typed_cases I, ymaybe (in_floor I) with
  | Some a, Some C, Some floor => main_on A fl5 fl6 B K floor C a ;;; mret tt
  | _, _, _ => other
  end.
