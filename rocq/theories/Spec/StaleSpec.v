(** Saved samples that do not fit. *)
From Coq Require Import String List Arith.
From Verif.Base Require Import XNum.
From Verif.Model Require Import World.
Import ListNotations.

(** A table of at least two lines and two columns, and its number of columns. *)
Definition table_of (rows : list (list xnum)) (cols : nat) : Prop :=
  (2 <= length rows)%nat /\ (2 <= cols)%nat /\ forall r, In r rows -> length r = cols.

(** A metrics file with [n] numbers, one or several to a line. *)
Inductive holds_numbers : file -> nat -> Prop :=
| one_to_a_line l : holds_numbers (FNums l) (length l)
| several_to_a_line rows cols : table_of rows cols -> holds_numbers (FTable rows) (length rows * cols).

(** For [metrics] numbers and a table of [rows] by [cols], one of the two files
    is not there or has another size. *)
Definition does_not_fit (w : world) (data output : string) (metrics rows cols : nat) : Prop :=
  w_fs w data = None \/ w_fs w output = None \/
  exists c n d k, w_fs w output = Some c /\ holds_numbers c n /\ w_fs w data = Some (FTable d) /\ table_of d k /\
    (n <> metrics \/ length d <> rows \/ k <> cols).
