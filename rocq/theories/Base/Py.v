(** Python building blocks: exceptions as values, string membership, dicts.

    These are not transcriptions of pyMARS code; they give the meaning of the
    Python constructs that the transcriptions in [Model] use. *)
From Coq Require Import String List Bool Arith.
Import ListNotations.
Local Open Scope string_scope.

(** Exceptions that the modelled code can raise (or let through). *)
Inductive exn : Type :=
| ValueError
| KeyError
| AssertionError
| TypeError
| AttributeError
| UnboundLocalError
| IndexError
| FileNotFoundError
| CanteraError
| RuntimeError
| SystemExit
| SystemError
| NotImplementedErr.

(** Outcome of a call: a value, an exception, or not finished within the
    given amount of fuel. *)
Inductive res (A : Type) : Type :=
| Ok (a : A)
| Raise (e : exn)
| NoFuel.
Arguments Ok {A} a.
Arguments Raise {A} e.
Arguments NoFuel {A}.

Definition bind {A B} (r : res A) (k : A -> res B) : res B :=
  match r with
  | Ok a => k a
  | Raise e => Raise e
  | NoFuel => NoFuel
  end.

(** Run a computation on every element, stopping at the first exception, as a
    Python [for] loop that appends to a list. *)
Fixpoint mapM {A B} (f : A -> res B) (l : list A) : res (list B) :=
  match l with
  | nil => Ok nil
  | x :: t => bind (f x) (fun y => bind (mapM f t) (fun ys => Ok (y :: ys)))
  end.

(** [x in l] for a list of strings. *)
Definition str_in (x : string) (l : list string) : bool :=
  existsb (String.eqb x) l.

(** [list(set(l))].  Python leaves the order unspecified; the model keeps the
    order of last occurrences and no theorem depends on it. *)
Definition set_of (l : list string) : list string := nodup string_dec l.

(** Python dicts with string keys, as association lists in insertion order. *)
Definition dict (V : Type) := list (string * V).

Fixpoint dget {V} (k : string) (d : dict V) : option V :=
  match d with
  | nil => None
  | (k', v) :: t => if String.eqb k k' then Some v else dget k t
  end.

(** [d[k] = v] *)
Fixpoint dset {V} (k : string) (v : V) (d : dict V) : dict V :=
  match d with
  | nil => [(k, v)]
  | (k', v') :: t => if String.eqb k k' then (k', v) :: t else (k', v') :: dset k v t
  end.

(** [k in d] *)
Definition dmem {V} (k : string) (d : dict V) : bool :=
  match dget k d with Some _ => true | None => false end.

(** [list(d.keys())] *)
Definition dkeys {V} (d : dict V) : list string := map fst d.
