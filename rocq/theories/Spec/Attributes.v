(** Attributes of objects in terms of the answers of their methods. *)
From Coq Require Import List.
From Verif.Base Require Import Py.
Import ListNotations.

(** The samples in an answer, and the last ones in a list of answers. *)
Definition rows_in {A R} (r : res (A * option R)) : option R :=
  match r with Ok (_, Some x) => Some x | _ => None end.
Fixpoint last_rows {A R} (rs : list (res (A * option R))) : option R :=
  match rs with
  | [] => None
  | r :: t => match last_rows t with Some x => Some x | None => rows_in r end
  end.
