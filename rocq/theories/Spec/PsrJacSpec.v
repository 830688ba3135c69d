(** What the gas object computes for an ideal gas, and derivatives. *)
From Coq Require Import Reals Arith Lra.
From Verif.Model Require Import PsrJac.
Local Open Scope R_scope.

(** [u] with [x] as its [j]-th entry. *)
Definition put (u : rvec) (j : nat) (x : R) : rvec := fun i => if Nat.eqb i j then x else u i.

(** Rates given by concentrations and temperature, with partial derivatives
    [dC] and [dT]: along every differentiable path at positive temperature the
    chain rule holds. *)
Definition rates_differentiable (n : nat) (rate : rvec -> R -> rvec)
           (dC : rvec -> R -> nat -> rvec) (dT : rvec -> R -> rvec) : Prop :=
  forall (C : R -> rvec) (C' : rvec) (T : R -> R) (T' x : R) (i : nat), (i < n)%nat ->
    (forall m, (m < n)%nat -> derivable_pt_lim (fun s => C s m) x (C' m)) ->
    derivable_pt_lim T x T' -> 0 < T x ->
    derivable_pt_lim (fun s => rate (C s) (T s) i) x
      (sum_to n (fun m => dC (C x) (T x) i m * C' m) + dT (C x) (T x) i * T').

(** The gas object for an ideal gas with [n] species of weights [W] at the
    pressure [P]: mean weight, density, concentrations, rates and their
    derivatives, enthalpy and heat capacity. *)
Definition ideal_gas (g : rgas) (P Rgas : R) (rate : rvec -> R -> rvec)
           (dC : rvec -> R -> nat -> rvec) (dT : rvec -> R -> rvec)
           (H Cp : nat -> R -> R) : Prop :=
  let n := j_n g in
  let W := j_W g in
  forall Y T,
    let moles := sum_to n (fun k => Y k / W k) in
    let conc := fun k => j_rho g Y T * Y k / W k in
    j_mw g Y T = 1 / moles /\
    j_rho g Y T = P * j_mw g Y T / (Rgas * T) /\
    (forall k, j_wdot g Y T k = rate conc T k) /\
    (forall k m, j_ddC g Y T k m = dC conc T k m) /\
    (forall k, j_ddT g Y T k = dT conc T k) /\
    j_h g Y T = sum_to n (fun k => Y k / W k * H k T) /\
    (forall k, j_hk g Y T k = H k T) /\
    j_cp g Y T = sum_to n (fun k => Y k / W k * Cp k T).
