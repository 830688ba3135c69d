(** Small concrete jobs used in the examples beside the driver theorems. *)
From Coq Require Import String List QArith Bool.
From Verif.Base Require Import Py Num XNum Paths.
From Verif.Model Require Import Mech Matrices Graph World Metrics Drivers.
From Verif.Spec Require Import TrimSpec Samples GraphSpec DriverSpec.
Import ListNotations.
Local Open Scope string_scope.

(** A simulation that gives 2 with the species [s] and [bad] without it. *)
Definition needs (s : string) (bad : xnum) : cond :=
  fun m => Ok [if str_in s (species_names m) then Fin 2 else bad].

Definition toy_conds (bad : xnum) : conds := mkConds [needs "HO2" bad] nil nil.

(** The file system with [toy] in mech.yaml and nothing else. *)
Definition toy_world : world :=
  mkWorld (fun f => if String.eqb f "mech.yaml" then Some (FMech [toy]) else None) nil.

Definition toy_job (safe : list string) (bad : xnum) : job :=
  mkJob "mech.yaml" "" "out" ["O2"] safe (toy_conds bad) None.

Definition toy_rops : list (list Q) := [[2; 0; 3; (-2); 4]].

(** Sampling that touches nothing. *)
Definition toy_sampler : sampler := mret ([Fin 2], toy_rops).

Definition with_upper (u : Q) (J : job) : job :=
  mkJob (j_file J) (j_phase J) (j_path J) (j_targets J) (j_safe J) (j_conds J) (Some u).

(** What can be printed of an outcome: species, file, error, limbo species. *)
Definition view (x : res rmodel * world) : res (list string * string * xnum * list string) :=
  match fst x with
  | Ok r => Ok (species_names (r_model r), r_file r, r_error r, limbo_of (snd x) r)
  | Raise e => Raise e
  | NoFuel => NoFuel
  end.

(** A with three products at very different rates. *)
Definition fan : mech := mkMech "fan"
  [sp "A" 0; sp "B" 1; sp "C" 2; sp "D" 3]
  [rx [("A", 1)] [("B", 1)] None 0; rx [("A", 1)] [("C", 1)] None 1; rx [("A", 1)] [("D", 1)] None 2]
  "" (300, 101325).
Definition fan_rops : list (list Q) := [[1; 45 # 10000; 75 # 10000]].
Definition fan_sampler : sampler := mret ([Fin 2], fan_rops).
Definition fan_job (file : string) : job :=
  mkJob file "" "" ["A"] nil (mkConds [needs "C" (Fin 3)] nil nil) None.
Definition fan_world (file : string) : world :=
  mkWorld (fun f => if String.eqb f file then Some (FMech [fan]) else None) nil.

(** Which of the given files exist, and the number of species in them. *)
Definition look (w : world) (fs : list string) : list (option nat) :=
  map (fun f => match w_fs w f with Some (FMech [m]) => Some (n_species m) | Some _ => Some 0%nat | None => None end) fs.
