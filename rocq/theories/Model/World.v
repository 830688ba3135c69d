(** The state that the drivers act on, and a state/exception monad. *)
From Coq Require Import String List QArith Bool.
From Verif.Base Require Import Py Num XNum Paths.
From Verif.Model Require Import Mech.
Import ListNotations.
Local Open Scope string_scope.

(** One recorded point of a simulation: time, temperature, pressure and mass
    fractions (the closure [record], simulation.py:273-277). *)
Record point := mkPoint { p_time : Q; p_T : Q; p_P : Q; p_Y : list Q }.

(** Content of a file: a YAML file with the phases it defines, a text file
    with one number per line, a text table, the HDF5 file of an ignition run
    (simulation.py:354-360), or anything else. *)
Inductive file : Type :=
| FMech (phases : list mech)
| FNums (l : list xnum)
| FTable (rows : list (list xnum))
| FProfile (l : list point)
| FOther.

(** The world: the files, and the one list object that is the default of
    [ReducedModel.limbo_species] (reduce_model.py:15), which all instances
    created without that argument share. *)
Record world := mkWorld {
  w_fs : string -> option file;
  w_shared : list string
}.

Definition M (A : Type) := world -> res A * world.

Definition mret {A} (a : A) : M A := fun w => (Ok a, w).
Definition mraise {A} (e : exn) : M A := fun w => (Raise e, w).
Definition mlift {A} (r : res A) : M A := fun w => (r, w).
Definition mbind {A B} (m : M A) (k : A -> M B) : M B := fun w =>
  match m w with
  | (Ok a, w') => k a w'
  | (Raise e, w') => (Raise e, w')
  | (NoFuel, w') => (NoFuel, w')
  end.

Notation "x <- m ;; k" := (mbind m (fun x => k)) (at level 61, m at next level, right associativity).
Notation "m ;;; k" := (mbind m (fun _ => k)) (at level 61, right associativity).

Fixpoint mmap {A B} (f : A -> M B) (l : list A) : M (list B) :=
  match l with
  | nil => mret nil
  | x :: t => y <- f x ;; ys <- mmap f t ;; mret (y :: ys)
  end.

Definition fs_set (f : string) (c : option file) (fs : string -> option file) :=
  fun g => if String.eqb g f then c else fs g.

Definition get_file (f : string) : M (option file) := fun w => (Ok (w_fs w f), w).
Definition put_file (f : string) (c : file) : M unit :=
  fun w => (Ok tt, mkWorld (fs_set f (Some c) (w_fs w)) (w_shared w)).

(** [os.path.isfile] *)
Definition is_file (f : string) : M bool :=
  fun w => (Ok (match w_fs w f with Some _ => true | None => false end), w).

(** [os.remove] *)
Definition remove_file (f : string) : M unit :=
  fun w => match w_fs w f with
           | Some _ => (Ok tt, mkWorld (fs_set f None (w_fs w)) (w_shared w))
           | None => (Raise FileNotFoundError, w)
           end.

(** [ct.Solution(file, phase)]: with an empty phase name the first phase of
    the file, otherwise the phase of that name. *)
Definition pick_phase (phases : list mech) (phase : string) : res mech :=
  if String.eqb phase "" then
    match phases with m :: _ => Ok m | nil => Raise CanteraError end
  else
    match find (fun m => String.eqb (m_name m) phase) phases with
    | Some m => Ok m
    | None => Raise CanteraError
    end.

Definition load (f phase : string) : M mech :=
  c <- get_file f ;;
  match c with
  | Some (FMech phases) => mlift (pick_phase phases phase)
  | _ => mraise CanteraError
  end.

(** soln2yaml.py:9-42 — [write].  Cantera's [write_yaml] then [Solution(...)]
    is taken to give back the same mechanism; the target directory exists. *)
Definition yaml_write (sol : mech) (output_filename path : string) : M string :=
  let f := if String.eqb output_filename "" then path_join path (m_name sol ++ ".yaml")
           else path_join path output_filename in
  ex <- is_file f ;;
  (if ex then remove_file f else mret tt) ;;;
  put_file f (FMech [sol]) ;;;
  mret f.

(** reduce_model.py:18-85 — [trim], including the loading of the model. *)
Definition trim (initial_model_file : string) (exclusion_list : list string)
           (new_model_file phase : string) : M mech :=
  sol <- load initial_model_file phase ;;
  mlift (trim_mech sol exclusion_list new_model_file phase).
