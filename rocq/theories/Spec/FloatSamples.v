(** Samples for the properties of the coefficients computed with doubles. *)
From Coq Require Import String List ZArith QArith Qabs Bool Arith.
From Coq Require Import Floats.SpecFloat.
From Verif.Base Require Import Py Num B64.
From Verif.Model Require Import Matrices FloatDrivers FloatMatrix.
From Verif.Spec Require Import MatrixSpec FloatMatrixSpec.
Import ListNotations.
Local Open Scope string_scope.

Definition abc : list string := ["A"; "B"; "C"].

(** A -> B, B -> C, A -> C at rates 0.3, 0.1 and 0.001. *)
Definition burn : fkinetics :=
  mkFKin 3
    [[fzero; fzero; fzero]; [fone; fzero; fzero]; [fzero; fone; fone]]
    [[fone; fzero; fone]; [fzero; fone; fzero]; [fzero; fzero; fzero]]
    [b64_of_frac 3 10; b64_of_frac 1 10; b64_of_frac 1 1000].

(** The same with other rates: -1e-9 (backwards), 7 and 2. *)
Definition burn2 : fkinetics :=
  mkFKin 3 (fk_prod burn) (fk_reac burn) [b64_of_frac (-1) 1000000000; b64_of_Z 7; b64_of_Z 2].

(** A -> B and three times A -> C, at rates 1/4, 1/4, 2^-55, 2^-55: the last
    two are lost when the consumption of A is added up with doubles. *)
Definition tie : fkinetics :=
  mkFKin 3
    [[fzero; fzero; fzero; fzero]; [fone; fzero; fzero; fzero]; [fzero; fone; fone; fone]]
    [[fone; fone; fone; fone]; [fzero; fzero; fzero; fzero]; [fzero; fzero; fzero; fzero]]
    [b64_of_frac 1 4; b64_of_frac 1 4; b64_of_frac 1 36028797018963968; b64_of_frac 1 36028797018963968].

(** A -> B at rate 0.7 and B -> A, as a separate reaction, at rate 0.1. *)
Definition swap : fkinetics :=
  mkFKin 2 [[fzero; fone]; [fone; fzero]] [[fone; fzero]; [fzero; fone]] [b64_of_frac 7 10; b64_of_frac 1 10].

(** A decision procedure for [sized] and [moderate]. *)
Definition sizedb (x : b64) (m : Q) : bool :=
  match x with
  | S754_zero _ => Qle_bool 0 m
  | S754_finite _ k e => bounded 53 1024 k e && Qle_bool (Qabs (b64_val x)) m
  | _ => false
  end.

Definition moderateb (K : fkinetics) : bool :=
  forallb (forallb (fun x => sizedb x ((2 # 1) ^ 100))) (fk_prod K) &&
  forallb (forallb (fun x => sizedb x ((2 # 1) ^ 100))) (fk_reac K) &&
  forallb (fun x => sizedb x ((2 # 1) ^ 700)) (fk_rop K) &&
  (Z.of_nat (length (fk_rop K)) <=? 2 ^ 40)%Z.

Definition not_tinyb (x : Q) : bool := Qeq_bool x 0 || Qle_bool ((2 # 1) ^ (-900)) x.
