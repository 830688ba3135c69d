(** Sensitivity analysis: sensitivity_analysis.py. *)
From Coq Require Import String List QArith Bool Arith.
From Verif.Base Require Import Py Num XNum Paths.
From Verif.Model Require Import Mech World Metrics Drivers.
Import ListNotations.
Local Open Scope string_scope.

(** [f] lies in the directory [d]. *)
Definition under (d f : string) : bool := prefix (d ++ "/") f.

(** [with TemporaryDirectory() as d]: at the end, also after an exception,
    everything in the directory is deleted.  The name is given; directories
    themselves are not modelled. *)
Definition with_temp {A} (d : string) (body : string -> M A) : M A := fun w =>
  let (r, w') := body d w in
  (r, mkWorld (fun f => if under d f then None else w_fs w' f) (w_shared w')).

(** [f"reduced_model_{species}.yaml"] *)
Definition test_name (sp : string) : string := "reduced_model_" ++ sp ++ ".yaml".

(** sensitivity_analysis.py:78-96 and 209-231: trim one species from the
    model in [file], write the result to the directory [d], evaluate it. *)
Definition try_without (d file phase : string) (cs : conds) (metrics : list xnum) (sp : string)
  : M (mech * string * xnum) :=
  m <- trim file [sp] (test_name sp) phase ;;
  f <- yaml_write m (test_name sp) d ;;
  ms <- sample_metrics f phase cs false ;;
  e <- mlift (c_error cs metrics ms) ;;
  mret (m, f, e).

(** sensitivity_analysis.py:36-98 — [evaluate_species_errors]; [tmp] is the
    name of its temporary directory. *)
Definition evaluate_species_errors (tmp file phase : string) (cs : conds)
           (metrics : list xnum) (species_limbo : list string) : M (list xnum) :=
  with_temp tmp (fun d =>
    mmap (fun sp => r <- try_without d file phase cs metrics sp ;; mret (snd r)) species_limbo).

(** [np.argmin] of a nonempty array: the first NaN if there is one, otherwise
    the first minimum (an empty array, which raises in numpy, does not occur:
    there are as many errors as species).  [i] is the index of the head of [l], [best] the index
    of the best value [v] so far. *)
Fixpoint argmin_from (i best : nat) (v : xnum) (l : list xnum) : nat :=
  match l with
  | nil => best
  | x :: t => if is_nan v then best
              else if is_nan x || xlt x v then argmin_from (S i) i x t
              else argmin_from (S i) best v t
  end.
Definition argmin (l : list xnum) : nat :=
  match l with nil => 0 | x :: t => argmin_from 1 0 x t end.

(** Python's [min] of an iterable. *)
Definition py_min (l : list xnum) : res xnum :=
  match l with
  | nil => Raise ValueError
  | x :: t => Ok (fold_left (fun a b => if xlt b a then b else a) t x)
  end.

(** [np.delete(l, i)] and what [l.pop(i)] leaves. *)
Fixpoint delete_at {A} (i : nat) (l : list A) : list A :=
  match l, i with
  | nil, _ => nil
  | _ :: t, O => t
  | x :: t, S j => x :: delete_at j t
  end.

(** The list object [species_limbo] is the shared default list of
    [ReducedModel.limbo_species], or another list.  Changes of the former are
    changes of the world; changes of a list of the caller's own are not
    tracked beyond the call. *)
Definition set_limbo (shared : bool) (l : list string) : M unit := fun w =>
  (Ok tt, if shared then mkWorld (w_fs w) l else w).

Definition read_limbo (lim : limbo) : M (list string) := fun w =>
  (Ok (match lim with Shared => w_shared w | Own l => l end), w).

Inductive algorithm := Initial | Greedy.

(** [abs(error - current)] of line 205: exact here, with doubles in
    Model/DoubleError.v. *)
Definition error_distance (e current : xnum) : xnum := xabs (xsub e current).

(** What [run_sa] is called with, and the arithmetic of that distance. *)
Record sa_job := mkSAWith {
  s_file : string;
  s_phase : string;
  s_path : string;
  s_start : xnum;             (* starting_error *)
  s_conds : conds;
  s_limit : xnum;             (* error_limit *)
  s_safe : list string;
  s_alg : algorithm;          (* algorithm_type: "greedy", or anything else *)
  s_limbo : limbo;            (* species_limbo; the default is an empty list *)
  s_far : xnum -> xnum -> xnum
}.
Notation mkSA file phase path start cs limit safe alg lim :=
  (mkSAWith file phase path start cs limit safe alg lim error_distance).

(** sensitivity_analysis.py:203-259 — the loop.  [tmp] is the directory of
    line 202, [tmp2] that of [evaluate_species_errors].  Fuel counts rounds. *)
Fixpoint sa_loop (fuel : nat) (K : sa_job) (shared : bool) (tmp tmp2 : string) (metrics : list xnum)
         (cur : rmodel) (errs : list xnum) (limbo : list string) : M rmodel :=
  match limbo with
  | nil => mret cur
  | _ =>
      match fuel with
      | O => mlift NoFuel
      | S fuel =>
          let idx := argmin (map (fun e => s_far K e (r_error cur)) errs) in
          let errs := delete_at idx errs in
          match nth_error limbo idx with
          | None => mraise IndexError
          | Some sp =>
              let limbo := delete_at idx limbo in
              set_limbo shared limbo ;;;
              r <- try_without tmp (r_file cur) (s_phase K) (s_conds K) metrics sp ;;
              let '(m, f, e) := r in
              if xgt e (s_limit K) then mret cur
              else
                let cur := mkRM m f e Shared in
                match s_alg K with
                | Initial => sa_loop fuel K shared tmp tmp2 metrics cur errs limbo
                | Greedy =>
                    errs <- evaluate_species_errors tmp2 (r_file cur) (s_phase K) (s_conds K) metrics limbo ;;
                    least <- mlift (py_min errs) ;;
                    if xgt least (s_limit K) then mret cur
                    else sa_loop fuel K shared tmp tmp2 metrics cur errs limbo
                end
          end
      end
  end.

(** sensitivity_analysis.py:101-276 — [run_sa]. *)
Definition run_sa (fuel : nat) (tmp tmp2 : string) (K : sa_job) : M rmodel :=
  sol <- load (s_file K) (s_phase K) ;;
  let cur := mkRM sol (s_file K) (s_start K) Shared in
  metrics <- sample_metrics (s_file K) (s_phase K) (s_conds K) true ;;
  given <- read_limbo (s_limbo K) ;;
  let '(limbo, shared) :=
    match given, s_limbo K with
    | nil, _ => (not_in (species_names sol) (s_safe K), false)
    | _, Shared => (given, true)
    | _, Own _ => (given, false)
    end in
  errs <- evaluate_species_errors tmp2 (s_file K) (s_phase K) (s_conds K) metrics limbo ;;
  cur <- with_temp tmp (fun d => sa_loop fuel K shared d tmp2 metrics cur errs limbo) ;;
  let name := reduced_name (n_species (r_model cur)) in
  yaml_write (r_model cur) name (s_path K) ;;;
  mret (mkRM (r_model cur) name (r_error cur) Shared).
