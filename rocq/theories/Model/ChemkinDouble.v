(** The arithmetic of [soln2ck] with doubles. *)
From Coq Require Import QArith.
From Verif.Base Require Import Py XNum B64.
From Verif.Model Require Import Chem Chemkin DoubleError.

(** soln2ck.py:35-52, 80-104, 222-226, 389-401 — [x * y] and [x / y] on
    doubles; constants are rounded to doubles first, as in Python.  None of
    the divisors is zero. *)
Definition double_times (x y : xnum) : xnum := x_of_b64 (b64_mul (b64_of_x x) (b64_of_x y)).
Definition double_over (x y : xnum) : xnum := x_of_b64 (b64_div (b64_of_x x) (b64_of_x y)).

(** [pow1000] is [1e3 ** k], which Python leaves to the C library. *)
Definition double_arith (pow1000 : Q -> b64) : arith :=
  mkArith double_times double_over (fun k => x_of_b64 (pow1000 k)).
