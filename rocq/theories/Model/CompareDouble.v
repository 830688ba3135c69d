(** [tools.compare_models] with doubles. *)
From Coq Require Import QArith Bool.
From Coq Require Import Floats.SpecFloat.
From Verif.Base Require Import Py XNum B64.
From Verif.Model Require Import Chem Compare FloatMatrix DoubleError.

(** [np.isfinite] *)
Definition b64_isfinite (x : b64) : bool :=
  match x with S754_zero _ | S754_finite _ _ _ => true | _ => false end.

(** tools.py:44-49, 99-153 — [np.isclose(a, b)] with [rtol] 1e-5 and [atol]
    1e-8: [abs(a - b) <= atol + rtol * abs(b)] for finite numbers, [a == b] for
    others. *)
Definition double_close (a b : xnum) : bool :=
  let x := b64_of_x a in
  let y := b64_of_x b in
  if b64_isfinite x && b64_isfinite y
  then b64_le (b64_abs (b64_sub x y))
              (b64_add (b64_of_frac 1 100000000) (b64_mul (b64_of_frac 1 100000) (b64_abs y)))
  else b64_eq x y.

(** tools.py:14-166 — [compare_models]; the comparisons with [==] and [!=] are
    exact on doubles anyway. *)
Definition double_compare : csolution -> csolution -> res bool := compare_with double_close.
