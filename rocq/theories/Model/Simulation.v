(** The simulation classes: simulation.py. *)
From Coq Require Import String List QArith ZArith Bool Arith.
From Verif.Base Require Import Py Num XNum Paths.
From Verif.Model Require Import Mech World Metrics Drivers.
Import ListNotations.
Local Open Scope string_scope.

(** How the composition of a case is given (fields of the three input classes
    in sampling.py:23-72). *)
Record mixture := mkMix {
  x_phi : Q;               (* equivalence_ratio *)
  x_fuel : dict Q;
  x_oxidizer : dict Q;
  x_reactants : dict Q;
  x_type : string          (* composition_type *)
}.

(** sampling.py:23-37 — [InputIgnition]. *)
Record in_ign := mkIgn { ig_kind : string; ig_T : Q; ig_P : Q; ig_end : Q; ig_steps : Z; ig_mix : mixture }.
(** sampling.py:40-54 — [InputPSR]. *)
Record in_psr := mkPSR { ps_T : Q; ps_P : Q; ps_mix : mixture }.
(** sampling.py:57-72 — [InputLaminarFlame]. *)
Record in_flame := mkFlame { fl_T : Q; fl_P : Q; fl_width : Q; fl_mix : mixture }.

(** The species whose amounts [_setup_gas] sets (simulation.py:71-90). *)
Definition set_species (x : mixture) : list string :=
  if Qnz (x_phi x) then dkeys (x_fuel x) ++ dkeys (x_oxidizer x) else dkeys (x_reactants x).

(** simulation.py:55-92 — [_setup_gas] after loading: Cantera refuses species
    that the model does not have.  With all species present it is taken to
    succeed. *)
Definition setup_gas (x : mixture) (m : mech) : res unit :=
  if forallb (fun s => str_in s (species_names m)) (set_species x) then Ok tt else Raise CanteraError.

(** The reactor network of an ignition case: its initial state, the state
    after the n-th call of [step] (n = 1, 2, …; None when the integrator
    raises CanteraError), and whether the residual after the n-th step is
    below the threshold (simulation.py:329-336). *)
Record reactor := mkReactor {
  ra_init : point;
  ra_step : nat -> option point;
  ra_small : nat -> bool
}.

(** A traced PSR curve, as far as it is used: residence time, temperature and
    mass fractions at the three points of the result. *)
Record psr_point := mkPP { pp_tau : xnum; pp_T : xnum; pp_Y : list xnum }.
Record psr_curve := mkCurve { pc_ext : psr_point; pc_mid : psr_point; pc_near : psr_point }.

(** The arithmetic of this module: additions, subtractions and multiplications,
    and the entries of [np.arange(delta, 1 + delta, delta)] with
    [delta = 1 / 20] (simulation.py:117-118), as they are computed.  Exact
    arithmetic is the default; doubles are in Model/FloatSimulation.v. *)
Definition num_sample_points : nat := 20.
Definition fraction (k : nat) : Q := inject_Z (Z.of_nat (S k)) / inject_Z (Z.of_nat num_sample_points).
Class calc := mkCalc {
  c_plus : Q -> Q -> Q;
  c_minus : Q -> Q -> Q;
  c_times : Q -> Q -> Q;
  c_share : nat -> Q
}.
Global Instance exact_calc : calc | 100 := mkCalc Qplus Qminus Qmult fraction.

(** What Cantera and the PSR solver compute for a case and a model that the
    case can be set up with.  A flame gives the speed and the profile.
    [ph_calc] is the arithmetic of the simulations. *)
Record physics := mkPhysics {
  ph_calc : calc;
  ph_reactor : in_ign -> mech -> reactor;
  ph_flame : in_flame -> mech -> res (xnum * list point);
  ph_psr : in_psr -> mech -> res psr_curve
}.

Section Calculations.
Context {A : calc}.

(** ** Ignition *)

(** simulation.py:190-200: attributes set by [setup_case]. *)
Definition max_steps (c : in_ign) : Z := if Z.eqb (ig_steps c) 0 then 10000%Z else ig_steps c.

(** [T >= T0 + 400.0] *)
Definition hot (T0 T : Q) : bool := Qle_bool (c_plus T0 400) T.

(** Local state of [run_case]: the recorded points, latest last; the ignition
    delay (0.0 before); the flag. *)
Record run_state := mkRS { rs_points : list point; rs_delay : Q; rs_flag : bool }.

(** simulation.py:293-301, 316-324: what follows a successful step. *)
Definition after_step (T0 : Q) (p : point) (s : run_state) : run_state :=
  let ign := hot T0 (p_T p) && negb (rs_flag s) in
  mkRS (rs_points s ++ [p])
       (if ign then p_time p else rs_delay s)
       (rs_flag s || ign).

(** simulation.py:290-304 — integration to a given time.  [n] steps were made,
    the last one ending at [t].  Sampling never stops at ignition
    (sampling.py:98).  Fuel counts steps. *)
Fixpoint run_to_time (fuel : nat) (R : reactor) (T0 tend : Q) (n : nat) (t : Q) (s : run_state)
  : res run_state :=
  if Qlt_bool t tend then
    match fuel with
    | O => NoFuel
    | S fuel =>
        match ra_step R (S n) with
        | None => Raise RuntimeError
        | Some p => run_to_time fuel R T0 tend (S n) (p_time p) (after_step T0 p s)
        end
    end
  else Ok s.

(** simulation.py:313-337 — integration to steady state; [todo] iterations
    remain.  The result says whether the last iteration ended the loop or the
    loop was todo before, by the value of [step] (the index of the last
    iteration). *)
Fixpoint run_to_steady (todo : nat) (R : reactor) (T0 : Q) (n : nat) (s : run_state)
  : res (run_state * nat) :=
  match todo with
  | O => Ok (s, n)
  | S todo =>
      match ra_step R (S n) with
      | None => Raise RuntimeError
      | Some p =>
          let s := after_step T0 p s in
          if ra_small R (S n) then Ok (s, S n) else run_to_steady todo R T0 (S n) s
      end
  end.

(** simulation.py:267-352 — the integration; the number of iterations made is
    [step + 1], so the test [step == self.max_steps - 1] compares that number
    with the limit.  A negative limit leaves [step] unbound. *)
Definition integrate (fuel : nat) (R : reactor) (c : in_ign) : res run_state :=
  let s0 := mkRS [ra_init R] 0 false in
  if Qnz (ig_end c) then run_to_time fuel R (ig_T c) (ig_end c) 0 (p_time (ra_init R)) s0
  else if (max_steps c <? 0)%Z then Raise UnboundLocalError
  else bind (run_to_steady (Z.to_nat (max_steps c)) R (ig_T c) 0 s0) (fun sn =>
         if Nat.eqb (snd sn) (Z.to_nat (max_steps c)) then Raise RuntimeError else Ok (fst sn)).

(** simulation.py:240-366 — [run_case]: writes the points, then fails if there
    was no ignition. *)
Definition run_case (fuel : nat) (R : reactor) (c : in_ign) (save_file : string) : M Q :=
  s <- mlift (integrate fuel R c) ;;
  put_file save_file (FProfile (rs_points s)) ;;;
  if rs_flag s then mret (rs_delay s) else mraise RuntimeError.

(** simulation.py:387-418 — [calculate], integration to a given time. *)
Fixpoint calc_to_time (fuel : nat) (R : reactor) (T0 tend : Q) (n : nat) (t : Q) : res Q :=
  if Qlt_bool t tend then
    match fuel with
    | O => NoFuel
    | S fuel =>
        match ra_step R (S n) with
        | None => Ok 0%Q
        | Some p => if hot T0 (p_T p) then Ok (p_time p) else calc_to_time fuel R T0 tend (S n) (p_time p)
        end
    end
  else Ok 0%Q.

(** The same for a limited number of steps; without convergence check. *)
Fixpoint calc_steps (todo : nat) (R : reactor) (T0 : Q) (n : nat) : Q :=
  match todo with
  | O => 0%Q
  | S todo =>
      match ra_step R (S n) with
      | None => 0%Q
      | Some p => if hot T0 (p_T p) then p_time p else calc_steps todo R T0 (S n)
      end
  end.

Definition calculate (fuel : nat) (R : reactor) (c : in_ign) : res Q :=
  if Qnz (ig_end c) then calc_to_time fuel R (ig_T c) (ig_end c) 0 (p_time (ra_init R))
  else if (max_steps c <? 0)%Z then Raise UnboundLocalError
  else Ok (calc_steps (Z.to_nat (max_steps c)) R (ig_T c) 0).

(** ** Sampling a profile *)

(** A row of the sampled data (simulation.py:133-134). *)
Definition row_of (p : point) : list Q := p_T p :: p_P p :: p_Y p.

(** simulation.py:127-135 — the loop; [idx] rows are filled. *)
Fixpoint sample_loop (T0 diff : Q) (idx : nat) (ps : list point) : list (list Q) :=
  match ps with
  | nil => nil
  | p :: t =>
      if Nat.leb num_sample_points idx then nil
      else if Qle_bool (c_plus T0 (c_times (c_share idx) diff)) (p_T p)
      then row_of p :: sample_loop T0 diff (S idx) t
      else sample_loop T0 diff idx t
  end.

(** simulation.py:95-137 — [_sample_profile]; rows that are not reached stay
    zero.  An empty profile, which cannot occur, would raise IndexError. *)
Definition sample_profile (ps : list point) : res (list (list Q)) :=
  match ps with
  | nil => Raise IndexError
  | p0 :: _ =>
      let diff := c_minus (p_T (last ps p0)) (p_T p0) in
      let rows := sample_loop (p_T p0) diff 0 ps in
      Ok (rows ++ repeat (repeat 0%Q (2 + length (p_Y p0))) (num_sample_points - length rows))%list
  end.

(** simulation.py:443-450: the first time at which the temperature is 400 K
    above that of the first point. *)
Fixpoint first_hot (T0 : Q) (ps : list point) : Q :=
  match ps with
  | nil => 0%Q
  | p :: t => if hot T0 (p_T p) then p_time p else first_hot T0 t
  end.

(** simulation.py:420-457 — [process_results] of an ignition case. *)
Definition process_results (save_file : string) : M (Q * list (list Q)) :=
  c <- get_file save_file ;;
  match c with
  | None => mraise FileNotFoundError
  | Some (FProfile ps) =>
      match ps with
      | nil => mraise IndexError
      | p0 :: _ =>
          rows <- mlift (sample_profile ps) ;;
          mret (first_hot (p_T p0) ps, rows)
      end
  | Some _ => mraise FileNotFoundError     (* OSError: not an HDF5 file *)
  end.

(** simulation.py:155-165 — [clean]. *)
Definition clean (save_file : string) : M unit := fun w =>
  match remove_file save_file w with (_, w') => (Ok tt, w') end.

(** simulation.py:214, 435: the name of the intermediate file. *)
Definition h5_name (path : string) (idx : nat) : string := path_join path (str_nat idx ++ ".h5").

(** ** Flames *)

(** simulation.py:525-545 — [_flame_detected]: None if Cantera fails or the
    speed is at or below the floor. *)
Definition flame_detected (floor : Q) (r : res (xnum * list point)) : res (option (xnum * list point)) :=
  match r with
  | Raise CanteraError => Ok None
  | Raise e => Raise e
  | NoFuel => NoFuel
  | Ok (v, prof) => if xle v (Fin floor) then Ok None else Ok (Some (v, prof))
  end.

(** simulation.py:573-596 — [calculate] of a flame. *)
Definition flame_calculate (floor : Q) (r : res (xnum * list point)) : res xnum :=
  bind (flame_detected floor r) (fun o => Ok (match o with Some (v, _) => v | None => Fin 0 end)).

(** simulation.py:547-571, 598-627 — [process_results] of a flame. *)
Definition flame_process (floor : Q) (r : res (xnum * list point)) : res (xnum * list (list Q)) :=
  bind (flame_detected floor r) (fun o =>
    match o with
    | None => Raise RuntimeError
    | Some (v, prof) => bind (sample_profile prof) (fun rows => Ok (v, rows))
    end).

(** simulation.py:487-495: the floor. *)
Definition flame_floor (min_flame_speed : option Q) : Q :=
  match min_flame_speed with Some q => q | None => 1 # 20 end.

(** ** Stirred reactors *)

(** simulation.py:673-694 — [_detect]. *)
Definition psr_detect (r : res psr_curve) : res (option psr_curve) :=
  match r with
  | Ok c => Ok (Some c)
  | Raise CanteraError | Raise RuntimeError => Ok None
  | Raise e => Raise e
  | NoFuel => NoFuel
  end.

(** simulation.py:696-706 — [_metrics]. *)
Definition psr_metrics (c : psr_curve) : list xnum :=
  [pp_tau (pc_ext c); pp_T (pc_mid c); pp_T (pc_near c)].

(** simulation.py:733-758 — [calculate] of a PSR. *)
Definition psr_calculate (r : res psr_curve) : res (list xnum) :=
  bind (psr_detect r) (fun o =>
    Ok (match o with Some c => psr_metrics c | None => [Fin 0; Fin 0; Fin 0] end)).

(** simulation.py:708-731, 760-791 — [process_results] of a PSR; the rows are
    temperature, pressure, mass fractions.  [atm] is [ct.one_atm]. *)
Definition atm : Q := 101325.
Definition psr_row (P : Q) (p : psr_point) : list xnum := pp_T p :: Fin (c_times P atm) :: pp_Y p.
Definition psr_process (P : Q) (r : res psr_curve) : res (list xnum * list (list xnum)) :=
  bind (psr_detect r) (fun o =>
    match o with
    | None => Raise RuntimeError
    | Some c => Ok (psr_metrics c, [psr_row P (pc_ext c); psr_row P (pc_mid c); psr_row P (pc_near c)])
    end).

End Calculations.

(** ** Cases as conditions

    The worker functions for candidate models (sampling.py:105-122, 145-162,
    189-206): set up, then [calculate]. *)
Definition ign_cond (fuel : nat) (Ph : physics) (c : in_ign) : cond := fun m =>
  bind (setup_gas (ig_mix c) m) (fun _ =>
  bind (calculate (A := ph_calc Ph) fuel (ph_reactor Ph c m) c) (fun d => Ok [Fin d])).
Definition psr_cond (Ph : physics) (c : in_psr) : cond := fun m =>
  bind (setup_gas (ps_mix c) m) (fun _ => psr_calculate (ph_psr Ph c m)).
Definition flame_cond (Ph : physics) (floor : option Q) (c : in_flame) : cond := fun m =>
  bind (setup_gas (fl_mix c) m) (fun _ =>
  bind (flame_calculate (flame_floor floor) (ph_flame Ph c m)) (fun v => Ok [v])).

(** The three lists of cases that all functions take. *)
Record cases := mkCases { ca_ign : list in_ign; ca_psr : list in_psr; ca_flame : list in_flame }.

Definition conds_of (fuel : nat) (Ph : physics) (floor : option Q) (C : cases) : conds :=
  mkConds (map (ign_cond fuel Ph) (ca_ign C)) (map (psr_cond Ph) (ca_psr C))
          (map (flame_cond Ph floor) (ca_flame C)).
