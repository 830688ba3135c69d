(** Exact rational arithmetic used in place of numpy floats. *)
From Coq Require Import List QArith Qminmax Qabs Bool.
Import ListNotations.
Local Open Scope Q_scope.

(** [np.sum] of a 1-D array. *)
Definition sumQ (l : list Q) : Q := fold_right Qplus 0 l.

(** [a < b] and [a != 0] as tests. *)
Definition Qlt_bool (a b : Q) : bool := negb (Qle_bool b a).
Definition Qnz (a : Q) : bool := negb (Qeq_bool a 0).

(** [np.maximum(a, b)] on finite numbers. *)
Definition Qmaxb (a b : Q) : Q := if Qle_bool a b then b else a.

(** A 2-D array as a list of rows. *)
Definition matrix := list (list Q).
Definition mget (M : matrix) (i j : nat) : Q := nth j (nth i M nil) 0.

(** An [n] by [m] array given by its entries. *)
Definition mtab (n m : nat) (f : nat -> nat -> Q) : matrix :=
  map (fun i => map (fun j => f i j) (seq 0 m)) (seq 0 n).

(** [M[i, j] = v] in place. *)
Fixpoint lset {A} (l : list A) (i : nat) (v : A) : list A :=
  match l, i with
  | nil, _ => nil
  | _ :: t, O => v :: t
  | x :: t, S k => x :: lset t k v
  end.
Definition mset (M : matrix) (i j : nat) (v : Q) : matrix :=
  lset M i (lset (nth i M nil) j v).
