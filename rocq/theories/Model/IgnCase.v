(** Objects for the ignition cases: the class IgnitionSimulation of
    simulation.py, with the reactor network that it advances. *)
From Coq Require Import String List QArith ZArith Bool Arith.
From Verif.Base Require Import Py Num XNum Paths.
From Verif.Model Require Import Mech World Simulation Psr.
Import ListNotations.

Section Calculations.
Context {A : calc}.

(** What the class does to its network: [sim.step()], also one that fails, and
    [sim.reinitialize()]. *)
Inductive ev := EStep | EReinit.

(** A [ReactorNet], as a function of what was done to it since [setup_case]
    made it, the latest first: the time and the state of the gas; whether the
    last step succeeded; the vector [get_state()]; and the numbers [rtol],
    [atol] and [np.sqrt(n_vars)].  [nt_norm] is [np.linalg.norm].  Reading
    the network does not change it. *)
Record network := mkNet {
  nt_point : list ev -> point;
  nt_ok : list ev -> bool;
  nt_state : list ev -> vec;
  nt_rtol : Q;
  nt_atol : Q;
  nt_norm : vec -> xnum;
  nt_root_n : xnum
}.

(** The object: the case, the name of the data file, the network and what was
    done to it, and the attributes [ignition_delay] and [sampled_data] (None
    before it is set). *)
Record ign_obj := mkIgnObj {
  io_case : in_ign;
  io_file : string;
  io_net : network;
  io_past : list ev;
  io_delay : Q;
  io_data : option (list (list Q))
}.

(** simulation.py:43-53, 186-217 — the constructor and [setup_case]; [N] gives
    the new network of a case and a model. *)
Definition ign_setup (N : in_ign -> mech -> network) (path : string) (idx : nat) (c : in_ign) (m : mech)
  : res ign_obj :=
  bind (setup_gas (ig_mix c) m) (fun _ => Ok (mkIgnObj c (h5_name path idx) (N c m) [] 0 None)).

Definition did (e : ev) (o : ign_obj) : ign_obj :=
  mkIgnObj (io_case o) (io_file o) (io_net o) (e :: io_past o) (io_delay o) (io_data o).
Definition set_delay (d : Q) (o : ign_obj) : ign_obj :=
  mkIgnObj (io_case o) (io_file o) (io_net o) (io_past o) d (io_data o).
Definition set_rows (x : list (list Q)) (o : ign_obj) : ign_obj :=
  mkIgnObj (io_case o) (io_file o) (io_net o) (io_past o) (io_delay o) (Some x).

Definition now (o : ign_obj) : point := nt_point (io_net o) (io_past o).
Definition state_now (o : ign_obj) : vec := nt_state (io_net o) (io_past o).

(** simulation.py:219-238 — [_step]; None: CanteraError. *)
Definition take_step (o : ign_obj) : option unit * ign_obj :=
  let o' := did EStep o in
  (if nt_ok (io_net o') (io_past o') then Some tt else None, o').

(** simulation.py:290-304 — integration to a given time; [ps] are the recorded
    points and [flag] is [ignition_flag].  Fuel counts steps. *)
Fixpoint obj_to_time (fuel : nat) (stop : bool) (ps : list point) (flag : bool) (o : ign_obj)
  : res (list point * bool) * ign_obj :=
  if Qlt_bool (p_time (now o)) (ig_end (io_case o)) then
    match fuel with
    | O => (NoFuel, o)
    | S fuel =>
        match take_step o with
        | (None, o1) => (Raise RuntimeError, o1)
        | (Some _, o1) =>
            let ps := ps ++ [now o1] in
            if hot (ig_T (io_case o1)) (p_T (now o1)) && negb flag then
              let o2 := set_delay (p_time (now o1)) o1 in
              if stop then (Ok (ps, true), o2) else obj_to_time fuel stop ps true o2
            else obj_to_time fuel stop ps flag o1
        end
    end
  else (Ok (ps, flag), o).

(** simulation.py:331-334 — the residual. *)
Definition residual (N : network) (state previous max_values : vec) : xnum :=
  xdiv (nt_norm N (map2 xdiv (vsub state previous) (map (fun x => xadd x (Fin (nt_atol N))) max_values)))
       (nt_root_n N).

(** simulation.py:313-337 — integration to steady state, [todo] iterations
    remain.  Returns how many iterations are left after the last one that was
    made. *)
Fixpoint obj_to_steady (todo : nat) (stop : bool) (max_values : vec) (ps : list point) (flag : bool) (o : ign_obj)
  : res (list point * bool * nat) * ign_obj :=
  match todo with
  | O => (Ok (ps, flag, O), o)
  | S todo =>
      let previous := state_now o in
      match take_step o with
      | (None, o1) => (Raise RuntimeError, o1)
      | (Some _, o1) =>
          let ps := ps ++ [now o1] in
          let ignited := hot (ig_T (io_case o1)) (p_T (now o1)) && negb flag in
          let o2 := if ignited then set_delay (p_time (now o1)) o1 else o1 in
          if ignited && stop then (Ok (ps, true, todo), o2)
          else
            let state := state_now o2 in
            let max_values := map2 xmax max_values state in
            if xlt (residual (io_net o2) state previous max_values) (Fin (10 * nt_rtol (io_net o2)))
            then (Ok (ps, flag || ignited, todo), o2)
            else obj_to_steady todo stop max_values ps (flag || ignited) o2
      end
  end.

(** simulation.py:267-352 — the integration.  [step == self.max_steps - 1] says
    that no iteration was left; a negative limit leaves [step] unbound. *)
Definition obj_integrate (fuel : nat) (stop : bool) (o : ign_obj) : res (list point * bool) * ign_obj :=
  let ps := [now o] in
  if Qnz (ig_end (io_case o)) then obj_to_time fuel stop ps false o
  else
    let o := did EReinit o in
    if (max_steps (io_case o) <? 0)%Z then (Raise UnboundLocalError, o)
    else match obj_to_steady (Z.to_nat (max_steps (io_case o))) stop (state_now o) ps false o with
         | (Ok (ps, flag, more), o) => (if Nat.eqb more 0 then Raise RuntimeError else Ok (ps, flag), o)
         | (Raise e, o) => (Raise e, o)
         | (NoFuel, o) => (NoFuel, o)
         end.

(** simulation.py:240-366 — [run_case]; None is Python's None. *)
Definition ign_run (fuel : nat) (stop restart : bool) (o : ign_obj) (w : world) : res (option Q) * ign_obj * world :=
  if restart && (match w_fs w (io_file o) with Some _ => true | None => false end) then (Ok None, o, w)
  else match obj_integrate fuel stop o with
       | (Ok (ps, flag), o) =>
           let w := snd (put_file (io_file o) (FProfile ps) w) in
           (if flag then Ok (Some (io_delay o)) else Raise RuntimeError, o, w)
       | (Raise e, o) => (Raise e, o, w)
       | (NoFuel, o) => (NoFuel, o, w)
       end.

(** simulation.py:387-394 — [calculate], integration to a given time. *)
Fixpoint obj_calc_time (fuel : nat) (o : ign_obj) : res Q * ign_obj :=
  if Qlt_bool (p_time (now o)) (ig_end (io_case o)) then
    match fuel with
    | O => (NoFuel, o)
    | S fuel =>
        match take_step o with
        | (None, o1) => (Ok 0%Q, set_delay 0 o1)
        | (Some _, o1) =>
            if hot (ig_T (io_case o1)) (p_T (now o1)) then
              let o2 := set_delay (p_time (now o1)) o1 in (Ok (io_delay o2), o2)
            else obj_calc_time fuel o1
        end
    end
  else (Ok (io_delay o), o).

(** simulation.py:399-405 — the same for a limited number of steps. *)
Fixpoint obj_calc_steps (todo : nat) (o : ign_obj) : Q * ign_obj :=
  match todo with
  | O => (io_delay o, o)
  | S todo =>
      match take_step o with
      | (None, o1) => (0%Q, set_delay 0 o1)
      | (Some _, o1) =>
          if hot (ig_T (io_case o1)) (p_T (now o1)) then
            let o2 := set_delay (p_time (now o1)) o1 in (io_delay o2, o2)
          else obj_calc_steps todo o1
      end
  end.

(** simulation.py:368-418 — [calculate]. *)
Definition ign_calculate (fuel : nat) (o : ign_obj) : res Q * ign_obj :=
  if Qnz (ig_end (io_case o)) then obj_calc_time fuel o
  else if (max_steps (io_case o) <? 0)%Z then (Raise UnboundLocalError, o)
  else let (d, o') := obj_calc_steps (Z.to_nat (max_steps (io_case o))) o in (Ok d, o').

(** simulation.py:420-457 — [process_results]. *)
Definition ign_process (skip_data : bool) (o : ign_obj) (w : world) : res (Q * option (list (list Q))) * ign_obj :=
  match w_fs w (io_file o) with
  | Some (FProfile (p0 :: t)) =>
      let o1 := set_delay (first_hot (p_T p0) (p0 :: t)) o in
      if skip_data then (Ok (io_delay o1, None), o1)
      else match sample_profile (p0 :: t) with
           | Ok rows => (Ok (io_delay o1, Some rows), set_rows rows o1)
           | Raise e => (Raise e, o1)
           | NoFuel => (NoFuel, o1)
           end
  | Some (FProfile []) => (Raise IndexError, o)
  | _ => (Raise FileNotFoundError, o)       (* OSError if it is not an HDF5 file *)
  end.

(** A call of one of the public methods, and what it returns: the delay (None
    for a skipped run), and the samples if there are any. *)
Inductive ign_call :=
| CallIgnRun (stop_at_ignition restart : bool)
| CallIgnCalculate
| CallIgnProcess (skip_data : bool)
| CallIgnClean.
Definition answer : Type := res (option Q * option (list (list Q))).
Definition ign_do (fuel : nat) (k : ign_call) (o : ign_obj) (w : world) : answer * ign_obj * world :=
  match k with
  | CallIgnRun stop restart =>
      let '(r, o, w) := ign_run fuel stop restart o w in (bind r (fun d => Ok (d, None)), o, w)
  | CallIgnCalculate => let (r, o) := ign_calculate fuel o in (bind r (fun d => Ok (Some d, None)), o, w)
  | CallIgnProcess skip => let (r, o) := ign_process skip o w in (bind r (fun x => Ok (Some (fst x), snd x)), o, w)
  | CallIgnClean => (Ok (None, None), o, snd (clean (io_file o) w))
  end.

(** Calls one after the other; an exception is caught by the caller, who goes
    on with the object. *)
Fixpoint ign_calls (fuel : nat) (ks : list ign_call) (o : ign_obj) (w : world) : list answer * ign_obj * world :=
  match ks with
  | [] => ([], o, w)
  | k :: t =>
      let '(r, o, w) := ign_do fuel k o w in
      let '(rs, o, w) := ign_calls fuel t o w in (r :: rs, o, w)
  end.

(** A new network as the other parts of the model see it.  The states up to
    the [n]-th step; their greatest values; whether the residual is small. *)
Definition steps_of (n : nat) : list ev := repeat EStep n.
Fixpoint greatest (N : network) (n : nat) : vec :=
  match n with
  | O => nt_state N (steps_of 0)
  | S k => map2 xmax (greatest N k) (nt_state N (steps_of n))
  end.
Definition reactor_of (N : network) : reactor :=
  mkReactor (nt_point N [])
    (fun n => if nt_ok N (steps_of n) then Some (nt_point N (steps_of n)) else None)
    (fun n => xlt (residual N (nt_state N (steps_of n)) (nt_state N (steps_of (n - 1))) (greatest N n))
                  (Fin (10 * nt_rtol N))).

End Calculations.

(** The physics that the other parts of the model use, with ignition simulated
    as here. *)
Definition with_networks (N : in_ign -> mech -> network) (Ph : physics) : physics :=
  mkPhysics (ph_calc Ph) (fun c m => reactor_of (N c m)) (ph_flame Ph) (ph_psr Ph).
