(** Objects for the flame cases: the class FlameSimulation of simulation.py. *)
From Coq Require Import String List QArith Bool Arith.
From Verif.Base Require Import Py Num XNum.
From Verif.Model Require Import Mech World Simulation.
Import ListNotations.

(** A [FreeFlame], as far as it is used: what its [n]-th call of [solve] gives
    (n = 0, 1, ...), which starts from whatever the calls before left: the
    velocity at the first grid point and the grid points, or an exception. *)
Definition flame := nat -> res (xnum * list point).

(** The object: the case, the floor, the flame and how often it was solved, and
    the attributes [flame_speed] and [sampled_data] (None before it is set). *)
Record flame_obj := mkFlameObj {
  fo_case : in_flame;
  fo_floor : Q;
  fo_flame : flame;
  fo_solved : nat;
  fo_speed : xnum;
  fo_data : option (list (list Q))
}.

(** simulation.py:43-53, 487-505 — the constructor and [setup_case]; [F] gives
    the new flame of a case and a model. *)
Definition flame_setup (F : in_flame -> mech -> flame) (min_flame_speed : option Q) (c : in_flame) (m : mech)
  : res flame_obj :=
  bind (setup_gas (fl_mix c) m) (fun _ => Ok (mkFlameObj c (flame_floor min_flame_speed) (F c m) 0 (Fin 0) None)).

Definition set_speed (v : xnum) (o : flame_obj) : flame_obj :=
  mkFlameObj (fo_case o) (fo_floor o) (fo_flame o) (fo_solved o) v (fo_data o).
Definition set_flame_rows (x : list (list Q)) (o : flame_obj) : flame_obj :=
  mkFlameObj (fo_case o) (fo_floor o) (fo_flame o) (fo_solved o) (fo_speed o) (Some x).

(** simulation.py:507-523 — [_solve_flame]. *)
Definition solve_flame (o : flame_obj) : res (xnum * list point) * flame_obj :=
  let o1 := mkFlameObj (fo_case o) (fo_floor o) (fo_flame o) (S (fo_solved o)) (fo_speed o) (fo_data o) in
  match fo_flame o (fo_solved o) with
  | Ok (v, ps) => (Ok (v, ps), set_speed v o1)
  | Raise e => (Raise e, o1)
  | NoFuel => (NoFuel, o1)
  end.

(** simulation.py:525-545 — [_flame_detected], with the grid points that the
    flame then has. *)
Definition obj_flame_detected (o : flame_obj) : res (option (xnum * list point)) * flame_obj :=
  match solve_flame o with
  | (Ok (v, ps), o') => (Ok (if xle v (Fin (fo_floor o')) then None else Some (v, ps)), o')
  | (Raise CanteraError, o') => (Ok None, o')
  | (Raise e, o') => (Raise e, o')
  | (NoFuel, o') => (NoFuel, o')
  end.

(** simulation.py:547-571 — [run_case]; its argument is not used. *)
Definition flame_run (o : flame_obj) : res (xnum * list point) * flame_obj :=
  match obj_flame_detected o with
  | (Ok (Some (v, ps)), o') => (Ok (v, ps), set_speed v o')
  | (Ok None, o') => (Raise RuntimeError, o')
  | (Raise e, o') => (Raise e, o')
  | (NoFuel, o') => (NoFuel, o')
  end.

(** simulation.py:573-596 — [calculate]. *)
Definition flame_calc (o : flame_obj) : res xnum * flame_obj :=
  match obj_flame_detected o with
  | (Ok (Some (v, _)), o') => (Ok v, set_speed v o')
  | (Ok None, o') => (Ok (Fin 0), set_speed (Fin 0) o')
  | (Raise e, o') => (Raise e, o')
  | (NoFuel, o') => (NoFuel, o')
  end.

Section Calculations.
Context {A : calc}.

(** simulation.py:598-627 — [process_results]. *)
Definition flame_results (skip_data : bool) (o : flame_obj) : res (xnum * option (list (list Q))) * flame_obj :=
  match flame_run o with
  | (Ok (v, ps), o') =>
      let o2 := set_speed v o' in
      if skip_data then (Ok (v, None), o2)
      else match sample_profile ps with
           | Ok rows => (Ok (fo_speed o2, Some rows), set_flame_rows rows o2)
           | Raise e => (Raise e, o2)
           | NoFuel => (NoFuel, o2)
           end
  | (Raise e, o') => (Raise e, o')
  | (NoFuel, o') => (NoFuel, o')
  end.

(** A call of one of the public methods. *)
Inductive flame_call := CallFlameRun | CallFlameCalculate | CallFlameProcess (skip_data : bool).
Definition flame_answer : Type := res (xnum * option (list (list Q))).
Definition flame_do (k : flame_call) (o : flame_obj) : flame_answer * flame_obj :=
  match k with
  | CallFlameRun => let (r, o') := flame_run o in (bind r (fun x => Ok (fst x, None)), o')
  | CallFlameCalculate => let (r, o') := flame_calc o in (bind r (fun v => Ok (v, None)), o')
  | CallFlameProcess skip => flame_results skip o
  end.
Fixpoint flame_calls (ks : list flame_call) (o : flame_obj) : list flame_answer * flame_obj :=
  match ks with
  | [] => ([], o)
  | k :: t =>
      let (r, o1) := flame_do k o in
      let (rs, o2) := flame_calls t o1 in (r :: rs, o2)
  end.

End Calculations.

(** The physics that the other parts of the model use, with flames simulated
    as here. *)
Definition with_flames (F : in_flame -> mech -> flame) (Ph : physics) : physics :=
  mkPhysics (ph_calc Ph) (ph_reactor Ph) (fun c m => F c m 0%nat) (ph_psr Ph).
