(** Objects for the cases of stirred reactors: the class PSRSimulation of
    simulation.py, on top of the solver of Model/Psr.v. *)
From Coq Require Import String List QArith Bool.
From Verif.Base Require Import Py Num XNum.
From Verif.Model Require Import Mech Simulation Psr.
Import ListNotations.

(** Temperature, pressure and mass fractions of a gas object. *)
Record gstate := mkGState { gs_T : xnum; gs_P : xnum; gs_Y : list xnum }.

(** What is taken from Cantera, numpy and scipy: the functions of the solver
    (see Model/Psr.v); the gas as the solver sees it when it is called in some
    state; the state in which [_setup_gas] (simulation.py:55-92) leaves the
    gas; the state after [gas.TPY = ...]; and the one in which the solver,
    which uses the gas as scratch space, leaves it. *)
Record engine := mkEngine {
  e_norm : vec -> xnum;
  e_exp : xnum -> xnum;
  e_log : xnum -> xnum;
  e_sqrt : xnum -> xnum;
  e_solve : list vec -> vec -> option vec;
  e_root : (vec -> vec) -> vec -> res (bool * vec * vec);
  e_gas : mech -> gstate -> gas;
  e_inlet : in_psr -> mech -> gstate;
  e_set : mech -> gstate -> gstate;
  e_left : mech -> gstate -> gstate
}.

(** [trace_extinction_curve(gas, stop_at_extinction=True)] for a gas in the
    state [s], without the branch. *)
Definition e_trace (E : engine) (m : mech) (s : gstate) : res psr_curve :=
  bind (trace_extinction_curve (e_norm E) (e_exp E) (e_log E) (e_sqrt E) (e_solve E) (e_root E)
          (e_gas E m s) default_args) (fun r => Ok (snd r)).

(** The object: the case and the model it was made for, and the attributes
    [gas] (its state), [_inlet_state], [psr_metrics], [_result] and
    [sampled_data].  None stands for Python's None, and for [sampled_data]
    before it is set. *)
Record psr_obj := mkObj {
  po_case : in_psr;
  po_mech : mech;
  po_gas : gstate;
  po_inlet : gstate;
  po_metrics : option (list xnum);
  po_result : option psr_curve;
  po_data : option (list (list xnum))
}.

(** simulation.py:43-53, 664-671 — the constructor and [setup_case]. *)
Definition obj_setup (E : engine) (c : in_psr) (m : mech) : res psr_obj :=
  bind (setup_gas (ps_mix c) m) (fun _ =>
    let s := e_inlet E c m in Ok (mkObj c m s s None None None)).

Definition set_gas (o : psr_obj) (s : gstate) : psr_obj :=
  mkObj (po_case o) (po_mech o) s (po_inlet o) (po_metrics o) (po_result o) (po_data o).
Definition set_metrics (o : psr_obj) (l : list xnum) : psr_obj :=
  mkObj (po_case o) (po_mech o) (po_gas o) (po_inlet o) (Some l) (po_result o) (po_data o).
Definition set_result (o : psr_obj) (r : option psr_curve) : psr_obj :=
  mkObj (po_case o) (po_mech o) (po_gas o) (po_inlet o) (po_metrics o) r (po_data o).
Definition set_data (o : psr_obj) (d : list (list xnum)) : psr_obj :=
  mkObj (po_case o) (po_mech o) (po_gas o) (po_inlet o) (po_metrics o) (po_result o) (Some d).

(** simulation.py:673-694 — [_detect]. *)
Definition obj_detect (E : engine) (o : psr_obj) : res (option psr_curve) * psr_obj :=
  let o1 := set_gas o (e_set E (po_mech o) (po_inlet o)) in
  let r := e_trace E (po_mech o1) (po_gas o1) in
  let o2 := set_gas o1 (e_left E (po_mech o1) (po_gas o1)) in
  match r with
  | Ok c => (Ok (Some c), set_result o2 (Some c))
  | Raise CanteraError | Raise RuntimeError => (Ok None, set_result o2 None)
  | Raise e => (Raise e, o2)
  | NoFuel => (NoFuel, o2)
  end.

(** simulation.py:708-731 — [run_case]; its argument is not used. *)
Definition obj_run_case (E : engine) (o : psr_obj) : res (list xnum) * psr_obj :=
  match obj_detect E o with
  | (Ok (Some c), o') => (Ok (psr_metrics c), set_metrics o' (psr_metrics c))
  | (Ok None, o') => (Raise RuntimeError, o')
  | (Raise e, o') => (Raise e, o')
  | (NoFuel, o') => (NoFuel, o')
  end.

(** simulation.py:733-758 — [calculate]. *)
Definition obj_calculate (E : engine) (o : psr_obj) : res (list xnum) * psr_obj :=
  match obj_detect E o with
  | (Ok (Some c), o') => (Ok (psr_metrics c), set_metrics o' (psr_metrics c))
  | (Ok None, o') => let z := [Fin 0; Fin 0; Fin 0] in (Ok z, set_metrics o' z)
  | (Raise e, o') => (Raise e, o')
  | (NoFuel, o') => (NoFuel, o')
  end.

Section Calculations.
Context {A : calc}.

(** simulation.py:760-791 — [process_results].  [_result] is read again after
    [run_case]; subscripting None raises TypeError. *)
Definition obj_process (E : engine) (skip_data : bool) (o : psr_obj)
  : res (list xnum * option (list (list xnum))) * psr_obj :=
  match obj_run_case E o with
  | (Ok metrics, o') =>
      if skip_data then (Ok (metrics, None), o')
      else match po_result o' with
           | None => (Raise TypeError, o')
           | Some c =>
               let row := psr_row (ps_P (po_case o')) in
               let data := [row (pc_ext c); row (pc_mid c); row (pc_near c)] in
               (Ok (metrics, Some data), set_data o' data)
           end
  | (Raise e, o') => (Raise e, o')
  | (NoFuel, o') => (NoFuel, o')
  end.

(** A call of one of the public methods, and what it returns: metrics, and
    samples if there are any. *)
Inductive psr_call := CallRun | CallCalculate | CallProcess (skip_data : bool).
Definition only_metrics (r : res (list xnum)) : res (list xnum * option (list (list xnum))) :=
  bind r (fun l => Ok (l, None)).
Definition obj_call (E : engine) (k : psr_call) (o : psr_obj)
  : res (list xnum * option (list (list xnum))) * psr_obj :=
  match k with
  | CallRun => let (r, o') := obj_run_case E o in (only_metrics r, o')
  | CallCalculate => let (r, o') := obj_calculate E o in (only_metrics r, o')
  | CallProcess skip => obj_process E skip o
  end.

(** Calls one after the other; an exception is caught by the caller, who goes
    on with the object. *)
Fixpoint obj_calls (E : engine) (ks : list psr_call) (o : psr_obj)
  : list (res (list xnum * option (list (list xnum)))) * psr_obj :=
  match ks with
  | [] => ([], o)
  | k :: t =>
      let (r, o1) := obj_call E k o in
      let (rs, o2) := obj_calls E t o1 in (r :: rs, o2)
  end.

End Calculations.

(** The physics that the other parts of the model use, with stirred reactors
    simulated as here. *)
Definition with_engine (E : engine) (Ph : physics) : physics :=
  mkPhysics (ph_calc Ph) (ph_reactor Ph) (ph_flame Ph)
    (fun c m => e_trace E m (e_set E m (e_inlet E c m))).
