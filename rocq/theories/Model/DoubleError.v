(** The error of metrics with doubles, in the form that the drivers take
    ([c_error] in Model/Metrics.v). *)
From Coq Require Import List QArith Bool.
From Coq Require Import Floats.SpecFloat.
From Verif.Base Require Import Py Num XNum B64.
From Verif.Model Require Import World Metrics FloatDrivers FloatMatrix FloatSampling SaveText.

(** The double nearest to a number, and the number that a double stands for;
    the sign of zero is dropped, as everywhere in [xnum]. *)
Definition b64_of_x (x : xnum) : b64 :=
  match x with
  | Fin q => b64_of_Q false q
  | PInf => S754_infinity false
  | NInf => S754_infinity true
  | NaN => S754_nan
  end.
Definition x_of_b64 (d : b64) : xnum :=
  match d with
  | S754_nan => NaN
  | S754_infinity false => PInf
  | S754_infinity true => NInf
  | _ => Fin (b64_val d)
  end.

(** sampling.py:284-305 — [calculate_error] on metrics that are doubles, for
    arrays of the same length. *)
Definition double_error (metrics_original metrics_test : list xnum) : res xnum :=
  bind (f_calculate_error (map b64_of_x metrics_original) (map b64_of_x metrics_test))
       (fun e => Ok (x_of_b64 e)).

(** sensitivity_analysis.py:205 — [np.abs(species_errors - error)], one entry,
    on doubles. *)
Definition double_distance (e current : xnum) : xnum :=
  x_of_b64 (b64_abs (b64_sub (b64_of_x e) (b64_of_x current))).
