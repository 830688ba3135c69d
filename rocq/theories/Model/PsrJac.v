(** The residual of the stirred reactor and its analytic Jacobian over the
    real numbers: psr_solver.py.  The residual is that of [Psr.core_residual]
    where no penalty applies. *)
From Coq Require Import Reals Arith.
Local Open Scope R_scope.

(** Arrays are functions of the index.  [sum_to n f] adds [f 0 … f (n-1)]. *)
Definition rvec := nat -> R.
Fixpoint sum_to (n : nat) (f : rvec) : R :=
  match n with O => 0 | S k => sum_to k f + f k end.

(** What the two functions read from the gas object, as functions of the mass
    fractions and the temperature that were set (the pressure is fixed). *)
Record rgas := mkRGas {
  j_n : nat;                              (* n_species *)
  j_W : rvec;                             (* molecular_weights *)
  j_rho : rvec -> R -> R;                 (* density *)
  j_mw : rvec -> R -> R;                  (* mean_molecular_weight *)
  j_wdot : rvec -> R -> rvec;             (* net_production_rates *)
  j_ddC : rvec -> R -> nat -> rvec;       (* net_production_rates_ddCi *)
  j_ddT : rvec -> R -> rvec;              (* net_production_rates_ddT *)
  j_h : rvec -> R -> R;                   (* enthalpy_mass *)
  j_hk : rvec -> R -> rvec;               (* partial_molar_enthalpies *)
  j_cp : rvec -> R -> R                   (* cp_mass *)
}.

Section Jac.
Variable g : rgas.
Variable Yin : rvec.
Variables h_in h_scale : R.

(** psr_solver.py:98-100 — the [i]-th residual. *)
Definition residual (Y : rvec) (T tau : R) (i : nat) : R :=
  if (i <? j_n g)%nat
  then (Y i - Yin i) - tau * j_wdot g Y T i * j_W g i / j_rho g Y T
  else (j_h g Y T - h_in) / h_scale.

(** psr_solver.py:118-121 *)
Definition yow (Y : rvec) (i : nat) : R := Y i / j_W g i.
Definition drho_dY (Y : rvec) (T : R) (j : nat) : R := - j_rho g Y T * j_mw g Y T / j_W g j.
Definition dCdY (Y : rvec) (T : R) (i j : nat) : R :=
  yow Y i * drho_dY Y T j + (if Nat.eqb i j then j_rho g Y T / j_W g i else 0).

(** psr_solver.py:122 *)
Definition ds_dY (Y : rvec) (T : R) (i j : nat) : R :=
  j_W g i * (sum_to (j_n g) (fun m => j_ddC g Y T i m * dCdY Y T m j) / j_rho g Y T
             - j_wdot g Y T i * drho_dY Y T j / (j_rho g Y T) ^ 2).

(** psr_solver.py:123-124 *)
Definition drho_dT (Y : rvec) (T : R) : R := - j_rho g Y T / T.
Definition ds_dT (Y : rvec) (T : R) (i : nat) : R :=
  j_W g i * ((j_ddT g Y T i + sum_to (j_n g) (fun m => j_ddC g Y T i m * (drho_dT Y T * yow Y m))) / j_rho g Y T
             - j_wdot g Y T i * drho_dT Y T / (j_rho g Y T) ^ 2).

(** psr_solver.py:125-131 — the entry of [_core_jacobian] in row [i] and
    column [j]. *)
Definition core_jacobian (Y : rvec) (T tau : R) (i j : nat) : R :=
  let n := j_n g in
  if (i <? n)%nat then
    if (j <? n)%nat then (if Nat.eqb i j then 1 else 0) - tau * ds_dY Y T i j
    else if Nat.eqb j n then - tau * ds_dT Y T i
    else - (j_wdot g Y T i * j_W g i / j_rho g Y T)
  else
    if (j <? n)%nat then j_hk g Y T j / j_W g j / h_scale
    else if Nat.eqb j n then j_cp g Y T / h_scale
    else 0.

(** psr_solver.py:207-212 — [unpack] and [core_res]: the unknowns are the mass
    fractions, the temperature over 1000 and the logarithm of tau. *)
Definition u_T (u : rvec) : R := u (j_n g) * 1000.
Definition u_tau (u : rvec) : R := exp (u (j_n g + 1)%nat).
Definition scaled_residual (u : rvec) (i : nat) : R := residual u (u_T u) (u_tau u) i.

(** psr_solver.py:214-219 — [core_jac]. *)
Definition scaled_jacobian (u : rvec) (i j : nat) : R :=
  let e := core_jacobian u (u_T u) (u_tau u) i j in
  if Nat.eqb j (j_n g) then e * 1000
  else if Nat.eqb j (j_n g + 1) then e * u_tau u
  else e.

(** psr_solver.py:295-299 — [augmented_res] and [augmented_jac]: one more row. *)
Definition aug_residual (t up : rvec) (ds : R) (u : rvec) (i : nat) : R :=
  if (i <? j_n g + 1)%nat then scaled_residual u i
  else sum_to (j_n g + 2) (fun j => t j * (u j - up j)) - ds.
Definition aug_jacobian (t : rvec) (u : rvec) (i j : nat) : R :=
  if (i <? j_n g + 1)%nat then scaled_jacobian u i j else t j.
End Jac.
