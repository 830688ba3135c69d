(** A gas of two species with one Arrhenius reaction that turns the first into
    the second, for the examples. *)
From Coq Require Import Reals Arith.
From Verif.Model Require Import PsrJac.
Local Open Scope R_scope.

Definition two_rate (C : rvec) (T : R) (i : nat) : R :=
  match i with O => - (exp (- (1 / T)) * C O) | _ => exp (- (1 / T)) * C O end.
Definition two_dC (C : rvec) (T : R) (i m : nat) : R :=
  match m with O => match i with O => - exp (- (1 / T)) | _ => exp (- (1 / T)) end | _ => 0 end.
Definition two_dT (C : rvec) (T : R) (i : nat) : R :=
  match i with O => - (exp (- (1 / T)) / T ^ 2 * C O) | _ => exp (- (1 / T)) / T ^ 2 * C O end.
Definition two_H (k : nat) (T : R) : R := match k with O => 5 + 2 * T | _ => 3 * T end.
Definition two_Cp (k : nat) (T : R) : R := match k with O => 2 | _ => 3 end.
Definition two_W : rvec := fun k => match k with O => 2 | _ => 4 end.
Definition two_mw (Y : rvec) (T : R) : R := 1 / sum_to 2 (fun k => Y k / two_W k).
Definition two_rho (Y : rvec) (T : R) : R := 100 * two_mw Y T / (8 * T).
Definition two_conc (Y : rvec) (T : R) : rvec := fun k => two_rho Y T * Y k / two_W k.
Definition two_gas : rgas :=
  mkRGas 2 two_W two_rho two_mw
    (fun Y T => two_rate (two_conc Y T) T) (fun Y T => two_dC (two_conc Y T) T) (fun Y T => two_dT (two_conc Y T) T)
    (fun Y T => sum_to 2 (fun k => Y k / two_W k * two_H k T)) (fun _ T k => two_H k T)
    (fun Y T => sum_to 2 (fun k => Y k / two_W k * two_Cp k T)).

(** At mass fractions 1/2 and 1/2, T = 1 and tau = 1. *)
Definition two_Y : rvec := fun k => match k with 0%nat | 1%nat => 1 / 2 | _ => 0 end.
