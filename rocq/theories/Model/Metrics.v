(** Global metrics and the error measure. *)
From Coq Require Import String List QArith Bool Arith.
From Verif.Base Require Import Py Num XNum.
From Verif.Model Require Import Mech World.
Import ListNotations.
Local Open Scope string_scope.

(** A simulation condition, represented by its effect: the metrics that a
    loaded model yields for it (one number for ignition and flames, three for
    a PSR), or the exception that escapes from it. *)
Definition cond := mech -> res (list xnum).

(** numpy broadcasting of two 1-D arrays. *)
Definition bcast (a b : list xnum) : res (list (xnum * xnum)) :=
  if Nat.eqb (length a) (length b) then Ok (combine a b)
  else match a, b with
       | [x], _ => Ok (map (fun y => (x, y)) b)
       | _, [y] => Ok (map (fun x => (x, y)) a)
       | _, _ => Raise ValueError
       end.

(** sampling.py:284-305 — [calculate_error]. *)
Definition calculate_error (metrics_original metrics_test : list xnum) : res xnum :=
  bind (bcast metrics_original metrics_test) (fun pairs =>
    match map (fun ot => xdiv (xabs (xsub (fst ot) (snd ot))) (fst ot)) pairs with
    | nil => Raise ValueError
    | e :: es =>
        let error := xmul (Fin 100) (xmax_list e es) in
        Ok (if existsb (fun t => xeq t (Fin 0)) metrics_test then Fin 100 else error)
    end).

(** The three lists of conditions that all drivers take, and the arithmetic of
    the error: [calculate_error] as above, or with doubles as in
    Model/DoubleError.v. *)
Record conds := mkCondsWith {
  c_ign : list cond;
  c_psr : list cond;
  c_flame : list cond;
  c_error : list xnum -> list xnum -> res xnum
}.
Notation mkConds ign psr flame := (mkCondsWith ign psr flame calculate_error).

(** sampling.py:13-20 — [data_files]. *)
Definition data_ignition := "ignition_data.dat".
Definition output_ignition := "ignition_output.txt".
Definition data_psr := "psr_data.dat".
Definition output_psr := "psr_output.txt".
Definition data_flame := "laminarflame_data.dat".
Definition output_flame := "laminarflame_output.txt".

(** What [np.genfromtxt(f, delimiter=",")] gives: a 2-D array if there are at
    least two rows and two columns, otherwise a flat one (for a single number
    even less); rows of different lengths are an error. *)
Inductive txtarr := Arr1 (l : list xnum) | Arr2 (rows : list (list xnum)).

Definition rect (rows : list (list xnum)) : bool :=
  match rows with nil => true | r :: t => forallb (fun x => Nat.eqb (length x) (length r)) t end.

Definition text_array (c : file) : res txtarr :=
  match c with
  | FNums l => Ok (Arr1 l)
  | FTable rows =>
      if negb (rect rows) then Raise ValueError
      else match rows with
           | nil => Ok (Arr1 nil)
           | [r] => Ok (Arr1 r)
           | r :: _ => if Nat.leb (length r) 1 then Ok (Arr1 (concat rows)) else Ok (Arr2 rows)
           end
  | _ => Raise ValueError
  end.

(** A metrics file with several numbers per line, which pyMARS never writes,
    would give a 2-D array; the model raises instead. *)
Definition flat (a : txtarr) : res (list xnum) := match a with Arr1 l => Ok l | Arr2 _ => Raise ValueError end.

(** [np.atleast_1d(np.genfromtxt(f, delimiter=","))] of an output file. *)
Definition read_nums (f : string) : M (list xnum) :=
  c <- get_file f ;;
  match c with
  | Some c => mlift (bind (text_array c) flat)
  | None => mraise FileNotFoundError
  end.

(** One of the three parts of [read_metrics]. *)
Definition read_part (cases : list cond) (out : string) : M (list xnum) :=
  match cases with
  | nil => mret nil
  | _ => exists_output <- is_file out ;; if exists_output then read_nums out else mraise SystemError
  end.

(** sampling.py:308-355 — [read_metrics]. *)
Definition read_metrics (cs : conds) : M (list xnum) :=
  i <- read_part (c_ign cs) output_ignition ;;
  p <- read_part (c_psr cs) output_psr ;;
  f <- read_part (c_flame cs) output_flame ;;
  mret (i ++ p ++ f)%list.

(** sampling.py:265-281 — [_run_metric_jobs]: the cases in order, each
    loading the model file (simulation.py, [__init__]/[setup_case]).  Process
    pools are treated separately. *)
Definition run_metric_jobs (model phase : string) (cases : list cond) : M (list xnum) :=
  ls <- mmap (fun c : cond => sol <- load model phase ;; mlift (c sol)) cases ;;
  mret (concat ls).

(** One of the three parts of [sample_metrics]: [initial] is the value before
    the saved file is looked up, [expected] the number of metrics. *)
Definition metrics_part (model phase : string) (cases : list cond) (out : string)
           (initial : list xnum) (expected : nat) (reuse_saved : bool) : M (list xnum) :=
  match cases with
  | nil => mret nil
  | _ =>
      exists_output <- is_file out ;;
      saved <- (if reuse_saved && exists_output then read_nums out else mret initial) ;;
      if reuse_saved && Nat.eqb (length saved) expected then mret saved
      else run_metric_jobs model phase cases
  end.

(** sampling.py:358-502 — [sample_metrics].  For ignition and flames the
    array starts as zeros of the expected length (lines 409, 468), for PSRs it
    starts empty (line 439). *)
Definition sample_metrics (model phase : string) (cs : conds) (reuse_saved : bool)
  : M (list xnum) :=
  i <- metrics_part model phase (c_ign cs) output_ignition
         (repeat (Fin 0) (length (c_ign cs))) (length (c_ign cs)) reuse_saved ;;
  p <- metrics_part model phase (c_psr cs) output_psr
         nil (3 * length (c_psr cs)) reuse_saved ;;
  f <- metrics_part model phase (c_flame cs) output_flame
         (repeat (Fin 0) (length (c_flame cs))) (length (c_flame cs)) reuse_saved ;;
  mret (i ++ p ++ f)%list.
