(** Sampling of a temperature profile and the error of metrics in IEEE
    binary64.  The exact counterparts are in Model/Simulation.v and
    Model/Metrics.v. *)
From Coq Require Import String List ZArith QArith Qround Bool Arith.
From Coq Require Import Floats.SpecFloat.
From Verif.Base Require Import Py Num B64.
From Verif.Model Require Import FloatDrivers FloatMatrix.
Import ListNotations.

(** A state of a profile: temperature, pressure, mass fractions. *)
Record fpoint := mkFPoint { fp_T : b64; fp_P : b64; fp_Y : list b64 }.

(** [np.arange(start, stop, step)] as numpy computes it: the length is the
    ceiling of (stop - start) / step, the second value is start + step, and the
    others are start + i (second - start), without fused operations. *)
Definition np_arange (start stop step : b64) : list b64 :=
  let n := Z.to_nat (Qceiling (b64_val (b64_div (b64_sub stop start) step))) in
  let second := b64_add start step in
  let d := b64_sub second start in
  map (fun i => match i with
                | 0%nat => start
                | 1%nat => second
                | _ => b64_add start (b64_mul (b64_of_Z (Z.of_nat i)) d)
                end) (seq 0 n).

(** simulation.py:117-118 — [delta] and [deltas]. *)
Definition fdeltas : list b64 :=
  let delta := b64_div fone (b64_of_Z 20) in
  np_arange delta (b64_add fone delta) delta.

(** A row of the sampled data (simulation.py:133-134). *)
Definition frow_of (p : fpoint) : list b64 := fp_T p :: fp_P p :: fp_Y p.

(** simulation.py:127-135 — the loop; [ds] are the shares of the rows that are
    not filled yet. *)
Fixpoint f_sample_loop (T0 diff : b64) (ds : list b64) (ps : list fpoint) : list (list b64) :=
  match ps with
  | nil => nil
  | p :: t =>
      match ds with
      | nil => nil
      | d :: ds' =>
          if b64_le (b64_add T0 (b64_mul d diff)) (fp_T p)
          then frow_of p :: f_sample_loop T0 diff ds' t
          else f_sample_loop T0 diff ds t
      end
  end.

(** simulation.py:95-137 — [_sample_profile]. *)
Definition f_sample_profile (ps : list fpoint) : res (list (list b64)) :=
  match ps with
  | nil => Raise IndexError
  | p0 :: _ =>
      let diff := b64_sub (fp_T (last ps p0)) (fp_T p0) in
      let rows := f_sample_loop (fp_T p0) diff fdeltas ps in
      Ok (rows ++ repeat (repeat fzero (2 + length (fp_Y p0))) (length fdeltas - length rows))%list
  end.

(** [np.max] of a list that is not empty; a NaN is passed on. *)
Fixpoint fmax_list (e : b64) (es : list b64) : b64 :=
  match es with nil => e | x :: t => fmax_list (b64_max e x) t end.

(** sampling.py:284-305 — [calculate_error] for arrays of the same length;
    others raise ValueError unless one of them has a single entry, which does
    not occur because both have one entry per case.  [np.max] of an empty array
    raises ValueError. *)
Definition f_calculate_error (metrics_original metrics_test : list b64) : res b64 :=
  if Nat.eqb (length metrics_original) (length metrics_test) then
    match map (fun ot => b64_div (b64_abs (b64_sub (fst ot) (snd ot))) (fst ot))
              (combine metrics_original metrics_test) with
    | nil => Raise ValueError
    | e :: es =>
        let error := b64_mul (b64_of_Z 100) (fmax_list e es) in
        Ok (if existsb (fun t => b64_eq t fzero) metrics_test then b64_of_Z 100 else error)
    end
  else Raise ValueError.
