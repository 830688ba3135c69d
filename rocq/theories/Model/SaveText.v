(** The text of the files with saved samples.

    sampling.py writes them with [np.savetxt(file, array, delimiter=",")] and
    reads them with [np.genfromtxt(file, delimiter=",")] (sampling.py:332,
    341, 349, 562-565, 597-598, 617-620, 644-645, 661-664, 699-700).  Neither
    call gives a format: numpy prints every number with ["%.18e"] and reads it
    with Python's [float]. *)
From Coq Require Import String Ascii List Bool ZArith QArith.
From Coq Require Import Floats.SpecFloat.
From Verif.Base Require Import Num XNum Text B64.
From Verif.Model Require Import FloatDrivers.
From Verif.Spec Require Import TextSpec.
Import ListNotations.
Local Open Scope string_scope.

(** ["%.18e" % x]: the exact value of [x] rounded to 19 digits.  Minus zero
    keeps its sign. *)
Definition print_b64 (x : b64) : string :=
  match x with
  | S754_nan => "nan"
  | S754_infinity s => if s then "-inf" else "inf"
  | S754_zero s => (if s then "-" else "") ++ sci 18 0
  | S754_finite _ _ _ => sci 18 (b64_val x)
  end.

(** [np.savetxt] (sampling.py:597, 644, 699): the numbers of a row separated
    by commas, and a line break after every row.  An array with one dimension
    (sampling.py:598, 645, 700) is written as a column. *)
Definition savetxt_rows (rows : list (list b64)) : string :=
  String.concat "" (map (fun r => String.concat "," (map print_b64 r) ++ newline) rows).
Definition savetxt_nums (l : list b64) : string := savetxt_rows (map (fun x => [x]) l).

(** The double nearest to [q], ties to even; too large a number gives an
    infinity.  [neg] is the sign of zero. *)
Definition b64_of_Q (neg : bool) (q : Q) : b64 :=
  match Qnum q with
  | Z0 => S754_zero neg
  | Zpos n => let '(m, e, l) := SFdiv_core_binary 53 1024 (Zpos n) 0 (Zpos (Qden q)) 0 in
              binary_round_aux 53 1024 false m e l
  | Zneg n => let '(m, e, l) := SFdiv_core_binary 53 1024 (Zpos n) 0 (Zpos (Qden q)) 0 in
              binary_round_aux 53 1024 true m e l
  end.

(** One field for [np.genfromtxt]: [float(s)], and NaN if that fails or the
    field is empty.  Of the spellings that [float] accepts, only those that
    printed numbers and their beginnings have are modelled. *)
Definition starts_minus (s : string) : bool :=
  match s with String c _ => Ascii.eqb c "-" | EmptyString => false end.
Definition read_b64 (s : string) : b64 :=
  if String.eqb s "inf" then S754_infinity false
  else if String.eqb s "-inf" then S754_infinity true
  else match read_num s with
       | Some q => b64_of_Q (starts_minus s) q
       | None => S754_nan
       end.

(** The rows that [np.genfromtxt] finds: empty lines are skipped.  What it
    makes of them is [text_array] in [Model/Sampling.v]. *)
Definition is_comma (c : ascii) : bool := Ascii.eqb c ",".
Definition genfromtxt_rows (text : string) : list (list b64) :=
  map (fun l => map read_b64 (split_on is_comma l)) (filter (fun l => negb (String.eqb l "")) (lines text)).
