(** Text: padding, joining and Python's number formats.

    These are not transcriptions of pyMARS code; they give the meaning of the
    format specifications that the transcriptions in [Model] use. *)
From Coq Require Import String Ascii List Bool Arith ZArith NArith QArith Qabs.
From Verif.Base Require Import Num XNum.
Import ListNotations.
Local Open Scope string_scope.

Definition newline : string := String (ascii_of_nat 10) EmptyString.

(** [n * " "] *)
Fixpoint spaces (n : nat) : string :=
  match n with O => "" | S k => String " "%char (spaces k) end.
(** [f"{s:<w}"] and [f"{s:>w}"] *)
Definition ljust (w : nat) (s : string) : string := s ++ spaces (w - String.length s).
Definition rjust (w : nat) (s : string) : string := spaces (w - String.length s) ++ s.

(** A decimal digit. *)
Definition digit (n : Z) : string := String (ascii_of_N (48 + Z.to_N n)) EmptyString.
(** The last [k] decimal digits of [n]. *)
Fixpoint pad (k : nat) (n : Z) : string :=
  match k with O => "" | S j => pad j (n / 10) ++ digit (n mod 10) end.
(** The number of decimal digits of a natural number, 1 for zero. *)
Fixpoint ndig (fuel : nat) (n : Z) : nat :=
  match fuel with
  | O => 1%nat
  | S f => if (n <? 10)%Z then 1%nat else S (ndig f (n / 10))
  end.
Definition ndigits (n : Z) : nat := ndig (Z.to_nat (Z.log2 n)) n.
(** [str(n)] *)
Definition str_pos (n : Z) : string := pad (ndigits n) n.
Definition str_int (n : Z) : string := if (n <? 0)%Z then "-" ++ str_pos (- n) else str_pos n.

(** Nearest integer, ties to even, of a number that is not negative. *)
Definition round_even (q : Q) : Z :=
  let n := Qnum q in let d := Zpos (Qden q) in
  let fl := (n / d)%Z in
  match Z.compare (2 * (n mod d)) d with
  | Lt => fl
  | Gt => (fl + 1)%Z
  | Eq => if Z.even fl then fl else (fl + 1)%Z
  end.

Definition sign (q : Q) : string := if Qlt_bool q 0 then "-" else "".
Definition pow10 (e : Z) : Q := Qpower (inject_Z 10) e.

(** [f"{q:.kf}"]: [k] decimals.  Python rounds the exact value, ties to even.
    The model has no negative zero. *)
Definition fixed (k : nat) (q : Q) : string :=
  let m := round_even (Qabs q * pow10 (Z.of_nat k)) in
  let b := (10 ^ Z.of_nat k)%Z in
  sign q ++ str_pos (m / b) ++ "." ++ pad k (m mod b).

(** The decimal exponent of a positive number: [10^e <= q < 10^(e+1)]. *)
Definition exponent (q : Q) : Z :=
  let a := Z.of_nat (ndigits (Qnum q)) in
  let b := Z.of_nat (ndigits (Zpos (Qden q))) in
  if Qle_bool (pow10 (a - b)) q then (a - b)%Z else (a - b - 1)%Z.

(** Mantissa with [k] decimals, as an integer, and exponent. *)
Definition scientific (k : nat) (q : Q) : Z * Z :=
  if Qeq_bool q 0 then (0%Z, 0%Z)
  else
    let e := exponent q in
    let m := round_even (q * pow10 (Z.of_nat k - e)) in
    if (m =? 10 ^ Z.of_nat (S k))%Z then ((10 ^ Z.of_nat k)%Z, (e + 1)%Z) else (m, e).

(** The exponent has at least two digits. *)
Definition str_exp (e : Z) : string :=
  (if (e <? 0)%Z then "-" else "+") ++ (let a := Z.abs e in if (a <? 10)%Z then pad 2 a else str_pos a).

(** [f"{q:.ke}"] *)
Definition sci (k : nat) (q : Q) : string :=
  let '(m, e) := scientific k (Qabs q) in
  let b := (10 ^ Z.of_nat k)%Z in
  sign q ++ digit (m / b) ++ "." ++ pad k (m mod b) ++ "e" ++ str_exp e.

(** The same for infinities and NaN. *)
Definition xformat (f : Q -> string) (x : xnum) : string :=
  match x with Fin q => f q | PInf => "inf" | NInf => "-inf" | NaN => "nan" end.
Definition xfixed (k : nat) : xnum -> string := xformat (fixed k).
Definition xsci (k : nat) : xnum -> string := xformat (sci k).
