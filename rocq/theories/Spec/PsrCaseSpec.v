(** Words for the statements about the objects for stirred reactors. *)
From Coq Require Import List QArith Bool.
From Verif.Base Require Import Py Num XNum.
From Verif.Model Require Import Mech Simulation Psr PsrCase.
From Verif.Spec Require Import PsrSpec.
Import ListNotations.

(** numpy and scipy do what is asked of them, and every gas has as many
    entries in its arrays as its model has species. *)
Definition works (E : engine) : Prop :=
  numerics (e_norm E) (e_exp E) (e_log E) (e_sqrt E) (e_solve E) (e_root E) /\
  forall m s, consistent (e_gas E m s) /\ g_n (e_gas E m s) = n_species m.

(** The gas at the inlet, and the curve traced from there. *)
Definition at_inlet (E : engine) (c : in_psr) (m : mech) : gas := e_gas E m (e_set E m (e_inlet E c m)).
Definition curve_from_inlet (E : engine) (c : in_psr) (m : mech) : res (list (xnum * xnum) * psr_curve) :=
  trace_extinction_curve (e_norm E) (e_exp E) (e_log E) (e_sqrt E) (e_solve E) (e_root E) (at_inlet E c m)
    (mkArgs true (1 # 10) (1 # 1000) (2 # 5) 1 (1 # 2) (6 * 1000)).

Definition has_curve (E : engine) (c : in_psr) (m : mech) (k : psr_curve) : Prop :=
  exists branch, curve_from_inlet E c m = Ok (branch, k).
Definition no_curve (E : engine) (c : in_psr) (m : mech) : Prop :=
  curve_from_inlet E c m = Raise CanteraError \/ curve_from_inlet E c m = Raise RuntimeError.

(** The three metrics, and a row of samples. *)
Definition three (k : psr_curve) : list xnum := [pp_tau (pc_ext k); pp_T (pc_mid k); pp_T (pc_near k)].
Definition row_of {A : calc} (c : in_psr) (p : psr_point) : list xnum :=
  pp_T p :: Fin (c_times (ps_P c) 101325) :: pp_Y p.

(** What a call answers. *)
Inductive answers {A : calc} (E : engine) (c : in_psr) (m : mech) : psr_call -> res (list xnum * option (list (list xnum))) -> Prop :=
| ans_metrics : forall call k, has_curve E c m k -> call <> CallProcess false ->
    answers E c m call (Ok (three k, None))
| ans_samples : forall k, has_curve E c m k ->
    answers E c m (CallProcess false)
      (Ok (three k, Some [row_of c (pc_ext k); row_of c (pc_mid k); row_of c (pc_near k)]))
| ans_zero : no_curve E c m -> answers E c m CallCalculate (Ok ([Fin 0; Fin 0; Fin 0], None))
| ans_none : forall call, no_curve E c m -> call <> CallCalculate -> answers E c m call (Raise RuntimeError)
| ans_other : forall call e, curve_from_inlet E c m = Raise e -> e <> CanteraError -> e <> RuntimeError ->
    answers E c m call (Raise e)
| ans_fuel : forall call, curve_from_inlet E c m = NoFuel -> answers E c m call NoFuel.
