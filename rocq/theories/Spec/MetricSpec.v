(** Vocabulary for statements about metrics and errors. *)
From Coq Require Import List QArith Qabs.
From Verif.Base Require Import Num XNum.
Import ListNotations.
Local Open Scope Q_scope.

(** Finite and positive, as ignition delays, flame speeds, residence times
    and temperatures of a working model are. *)
Definition positive (x : xnum) : Prop := exists q, x = Fin q /\ 0 < q.

(** Finite and nonzero. *)
Definition usable (x : xnum) : Prop := exists q, x = Fin q /\ ~ q == 0.

(** The same number (rationals up to [==], NaN equal to itself). *)
Definition same_num (a b : xnum) : Prop :=
  match a, b with
  | Fin p, Fin q => p == q
  | PInf, PInf | NInf, NInf | NaN, NaN => True
  | _, _ => False
  end.

(** [t] is finite and off from [o] by at most [l] percent of [o]. *)
Definition within (l : Q) (o t : xnum) : Prop :=
  exists p q, o = Fin p /\ t = Fin q /\ 100 * Qabs (p - q) <= l * p.
