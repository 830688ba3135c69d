(** Numbers as numpy float64 sees them, without rounding: finite rationals,
    the two infinities and NaN, with the IEEE rules.  The sign of zero is not
    modelled; a zero divisor counts as +0. *)
From Coq Require Import QArith Qabs List Bool.
From Verif.Base Require Import Num.
Import ListNotations.
Local Open Scope Q_scope.

Inductive xnum : Type :=
| Fin (q : Q)
| PInf
| NInf
| NaN.

Definition xneg (a : xnum) : xnum :=
  match a with
  | Fin q => Fin (- q)
  | PInf => NInf
  | NInf => PInf
  | NaN => NaN
  end.

Definition xadd (a b : xnum) : xnum :=
  match a, b with
  | Fin p, Fin q => Fin (p + q)
  | NaN, _ | _, NaN => NaN
  | PInf, NInf | NInf, PInf => NaN
  | PInf, _ | _, PInf => PInf
  | NInf, _ | _, NInf => NInf
  end.

Definition xsub (a b : xnum) : xnum := xadd a (xneg b).

Definition xabs (a : xnum) : xnum :=
  match a with
  | Fin q => Fin (Qabs q)
  | NaN => NaN
  | _ => PInf
  end.

(** The sign of a number: -1, 0, 1. *)
Definition sgn_inf (q : Q) (pos neg zero : xnum) : xnum :=
  if Qlt_bool 0 q then pos else if Qlt_bool q 0 then neg else zero.

Definition xmul (a b : xnum) : xnum :=
  match a, b with
  | NaN, _ | _, NaN => NaN
  | Fin p, Fin q => Fin (p * q)
  | Fin p, PInf | PInf, Fin p => sgn_inf p PInf NInf NaN
  | Fin p, NInf | NInf, Fin p => sgn_inf p NInf PInf NaN
  | PInf, PInf | NInf, NInf => PInf
  | PInf, NInf | NInf, PInf => NInf
  end.

Definition xdiv (a b : xnum) : xnum :=
  match a, b with
  | NaN, _ | _, NaN => NaN
  | Fin p, Fin q =>
      if Qeq_bool q 0 then sgn_inf p PInf NInf NaN else Fin (p / q)
  | Fin _, _ => Fin 0
  | PInf, Fin q => if Qlt_bool q 0 then NInf else PInf
  | NInf, Fin q => if Qlt_bool q 0 then PInf else NInf
  | _, _ => NaN
  end.

Definition xle (a b : xnum) : bool :=
  match a, b with
  | NaN, _ | _, NaN => false
  | NInf, _ | _, PInf => true
  | Fin p, Fin q => Qle_bool p q
  | _, _ => false
  end.

Definition xlt (a b : xnum) : bool :=
  match a, b with
  | NaN, _ | _, NaN => false
  | _, NInf | PInf, _ => false
  | Fin p, Fin q => Qlt_bool p q
  | _, _ => true
  end.

(** [a > b] *)
Definition xgt (a b : xnum) : bool := xlt b a.

(** [a == b] *)
Definition xeq (a b : xnum) : bool := xle a b && xle b a.

Definition is_nan (a : xnum) : bool := match a with NaN => true | _ => false end.

(** [np.maximum]: NaN propagates. *)
Definition xmax (a b : xnum) : xnum :=
  if is_nan a then NaN else if is_nan b then NaN else if xlt a b then b else a.

(** [np.max] of a nonempty array with first element [a]. *)
Definition xmax_list (a : xnum) (l : list xnum) : xnum := fold_left xmax l a.
