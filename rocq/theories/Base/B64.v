(** IEEE binary64 arithmetic (round to nearest, ties to even), computed with
    the standard library's [SpecFloat]; no primitive floats are used. *)
From Coq Require Import ZArith QArith List Bool.
From Coq Require Import Floats.SpecFloat.
Import ListNotations.

Definition b64 := spec_float.
Definition b64_add : b64 -> b64 -> b64 := SFadd 53 1024.
Definition b64_sub : b64 -> b64 -> b64 := SFsub 53 1024.
Definition b64_mul : b64 -> b64 -> b64 := SFmul 53 1024.
Definition b64_div : b64 -> b64 -> b64 := SFdiv 53 1024.
Definition b64_le : b64 -> b64 -> bool := SFleb.
Definition b64_lt : b64 -> b64 -> bool := SFltb.
Definition b64_eq : b64 -> b64 -> bool := SFeqb.

(** The binary64 number nearest to an integer. *)
Definition b64_of_Z (z : Z) : b64 := binary_normalize 53 1024 z 0 false.

(** The binary64 number nearest to n/d (correctly rounded division of exact
    integers below 2^53). *)
Definition b64_of_frac (n : Z) (d : Z) : b64 := b64_div (b64_of_Z n) (b64_of_Z d).

(** Left-to-right summation. *)
Definition b64_sum (l : list b64) : b64 := fold_left b64_add l (b64_of_Z 0).
