(** Vocabulary for the drivers whose errors are computed with doubles. *)
From Coq Require Import String List ZArith QArith Qabs Bool.
From Verif.Base Require Import Py Num XNum B64.
From Verif.Model Require Import Mech World Metrics Drivers FloatDrivers FloatSampling FloatRun DoubleError.
From Verif.Spec Require Import DriverSpec FloatSamplingSpec.
Import ListNotations.

(** A metric that is a double between 2^-400 and 2^400; a metric of a case that
    failed is zero. *)
Definition double_metric (x : xnum) : Prop :=
  exists q d, x = Fin q /\ metric d /\ (b64_val d == q)%Q.
Definition failed_metric (x : xnum) : Prop := exists q, x = Fin q /\ (q == 0)%Q.

(** A metric that is such a double, infinite or not a number. *)
Definition any_metric (x : xnum) : Prop := double_metric x \/ x = NaN \/ x = PInf \/ x = NInf.

(** The same job with another arithmetic of the error. *)
Definition with_errors (E : list xnum -> list xnum -> res xnum) (J : job) : job :=
  mkJob (j_file J) (j_phase J) (j_path J) (j_targets J) (j_safe J)
        (mkCondsWith (c_ign (j_conds J)) (c_psr (j_conds J)) (c_flame (j_conds J)) E) (j_upper J).

(** The metrics of the detailed model and of every candidate are doubles, as
    many of the one as of the other. *)
Definition double_metrics (J : job) (sampled : list xnum) : Prop :=
  sampled <> nil /\ (forall x, In x sampled -> double_metric x) /\
  forall m ts, metrics_of (j_conds J) m = Ok ts ->
    length ts = length sampled /\ forall x, In x ts -> double_metric x \/ failed_metric x.

(** No candidate has an exact error next to the limit [l]. *)
Definition clear_of (J : job) (sampled : list xnum) (l : Q) : Prop :=
  forall m ts e, metrics_of (j_conds J) m = Ok ts -> calculate_error sampled ts = Ok (Fin e) ->
    (e * (1 + (2 # 1) ^ (-51)) <= l \/ l * (1 + (2 # 1) ^ (-50)) < e)%Q.

(** Two outcomes of a driver that differ at most in the last digits of the
    reported error. *)
Definition near_error (a b : xnum) : Prop :=
  exists e f, a = Fin e /\ b = Fin f /\ (Qabs (f - e) <= (2 # 1) ^ (-51) * e)%Q.
Definition same_outcome (a b : res rmodel * world) : Prop :=
  snd a = snd b /\
  match fst a, fst b with
  | Ok r, Ok r' => r_model r = r_model r' /\ r_file r = r_file r' /\ r_limbo r = r_limbo r' /\
                   near_error (r_error r) (r_error r')
  | Raise e, Raise e' => e = e'
  | NoFuel, NoFuel => True
  | _, _ => False
  end.

(** The species of the model a driver returns, with the file it is in. *)
Definition returned (x : res rmodel * world) : res (list string * string) :=
  match fst x with
  | Ok r => Ok (species_names (r_model r), r_file r)
  | Raise e => Raise e
  | NoFuel => NoFuel
  end.
