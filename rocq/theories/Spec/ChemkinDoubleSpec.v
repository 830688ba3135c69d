(** Models whose numbers are doubles, and how far conversions computed with
    doubles may be off. *)
From Coq Require Import String List ZArith QArith Qabs.
From Verif.Base Require Import Py XNum B64.
From Verif.Model Require Import Chem FloatDrivers.
From Verif.Spec Require Import FloatMatrixSpec TextSpec ChemkinSpec CardSpec CompareDoubleSpec.
Import ListNotations.

(** A double that is 0 or far from under- and overflow. *)
Definition moderate_number (x : xnum) : Prop :=
  match x with
  | Fin q => (exists d, b64_finite d /\ (b64_val d == q)%Q) /\
             (q == 0 \/ (2 # 1) ^ (-800) <= Qabs q <= (2 # 1) ^ 800)%Q
  | _ => True
  end.

(** The C library's power of 1000 is off by at most one unit in the last place;
    it is needed for small integers only. *)
Definition good_power (pow1000 : Q -> b64) : Prop :=
  forall k z, (k == inject_Z z)%Q -> (-15 <= z <= 15)%Z ->
  b64_finite (pow1000 k) /\ (Qabs (b64_val (pow1000 k) - 1000 ^ z) <= (2 # 1) ^ (-52) * 1000 ^ z)%Q.

(** Four units of relative rounding error. *)
Definition rounded (x y : Q) : Prop := (Qabs (y - x) <= (2 # 1) ^ (-51) * Qabs x)%Q.

Definition double_rates (s : csolution) : Prop :=
  forall r, In r (so_reactions s) ->
    (forall x, In x (rate_values (cr_rate r)) -> moderate_number x) /\ (forall n, order r n -> (0 <= n <= 15)%Z).
Definition double_transport (s : csolution) : Prop :=
  forall x t a v, In x (so_species s) -> cs_transport x = Some t -> dget a t = Some (TNum v) -> moderate_number v.

(** A little less than nine columns. *)
Definition roomy (x : Q) : Prop := (-(9998) <= x <= 99998)%Q.
