(** The reduction steps and the drivers of DRG, DRGEP and PFA with doubles
    throughout: stoichiometry, rates of progress, coefficients, path products
    and thresholds.  The errors of the reduced models are computed by the
    [c_error] of the conditions: exact, or with doubles as in
    Model/DoubleError.v.  The exact counterparts are in
    Model/Drivers.v. *)
From Coq Require Import String List ZArith QArith Bool Arith.
From Coq Require Import Floats.SpecFloat.
From Verif.Base Require Import Py Num XNum B64 Paths.
From Verif.Model Require Import Mech Matrices Graph World Metrics Drivers FloatDrivers FloatMatrix FloatPfa SaveText.
From Verif.Spec Require Import DriverSpec.
Import ListNotations.
Local Open Scope string_scope.

(** drg.py:30-44, drgep.py:176-190, pfa.py:30-44 — what the builders read from
    Cantera at a state with the net rates of progress [rop]: the coefficients
    of the mechanism as doubles, and the rates. *)
Definition fstoich_of (side : reaction -> dict Q) (m : mech) : fmatrix :=
  map (map (b64_of_Q false)) (stoich_of side m).
Definition fkin_of (m : mech) (rop : list b64) : fkinetics :=
  mkFKin (n_species m) (fstoich_of rx_products m) (fstoich_of rx_reactants m) rop.

(** [threshold_upper] as a double, and its truth: None and 0 are false. *)
Definition f_upper (J : job) : option b64 := option_map (b64_of_Q false) (j_upper J).
Definition f_truthy (o : option b64) : bool := match o with Some u => b64_nz u | None => false end.

(** drg.py:185-192 — the union over all states. *)
Definition fretained (Fs : list fmatrix) (names targets : list string) (thr : b64) : res (list string) :=
  bind (mapM (fun F => f_trim_drg F names targets thr) Fs) (fun ls => Ok (set_of (concat ls))).

(** drg.py:125-238 — [reduce_drg]. *)
Definition freduce_drg (J : job) (Fs : list fmatrix) (sampled : list xnum)
           (thr : b64) (previous : option rmodel) : M rmodel :=
  sol <- load (j_file J) (j_phase J) ;;
  keep <- mlift (fretained Fs (species_names sol) (j_targets J) thr) ;;
  let go :=
    let removed := not_in (species_names sol) (keep ++ j_safe J) in
    r <- cut_and_score J sampled removed ;;
    let '(red, f, error) := r in
    limbo <- (if f_truthy (f_upper J)
              then mlift (fretained Fs (species_names sol) (j_targets J)
                                    (match f_upper J with Some u => u | None => fzero end))
              else mret nil) ;;
    mret (mkRM red f error (Own limbo)) in
  match previous with
  | Some p => if Nat.eqb (length keep) (n_species (r_model p)) then mret p else go
  | None => go
  end.

(** pfa.py:149-264 — [reduce_pfa]; the limbo search uses the loop variable
    [matrix] as in Model/Drivers.v. *)
Definition freduce_pfa (J : job) (Fs : list fmatrix) (sampled : list xnum)
           (thr : b64) (previous : option rmodel) : M rmodel :=
  sol <- load (j_file J) (j_phase J) ;;
  ls <- mlift (mapM (fun F => f_trim_pfa F (species_names sol) (j_targets J) thr) Fs) ;;
  let keep := set_of (concat ls) in
  let go :=
    let removed := not_in (species_names sol) (keep ++ j_safe J) in
    r <- cut_and_score J sampled removed ;;
    let '(red, f, error) := r in
    limbo <- (match (if f_truthy (f_upper J) then f_upper J else None) with
              | None => mret nil
              | Some u =>
                  match last (map Some Fs) None with
                  | None => mraise UnboundLocalError
                  | Some F =>
                      more <- mlift (f_trim_pfa F (species_names sol) (j_targets J) u) ;;
                      mret (not_in (species_names sol) ((keep ++ more) ++ j_safe J ++ removed))
                  end
              end) ;;
    mret (mkRM red f error (Own limbo)) in
  match previous with
  | Some p => if Nat.eqb (length keep) (n_species (r_model p)) then mret p else go
  | None => go
  end.

(** drgep.py:286-372 — [reduce_drgep]. *)
Definition freduce_drgep (J : job) (imp : dict b64) (sampled : list xnum)
           (thr : b64) (previous : option rmodel) : M rmodel :=
  sol <- load (j_file J) (j_phase J) ;;
  removed <- mlift (f_below imp (j_safe J) thr (species_names sol)) ;;
  let go :=
    r <- cut_and_score J sampled removed ;;
    let '(red, f, error) := r in
    mret (mkRM red f error Shared) in
  match previous with
  | Some p =>
      if Z.eqb (Z.of_nat (length removed))
               (Z.of_nat (n_species sol) - Z.of_nat (n_species (r_model p)))
      then mret p else go
  | None => go
  end.

(** State of the loop. *)
Record fstate := mkFS {
  s_prev : rmodel;            (* previous_model *)
  s_first : bool;
  s_err : xnum;               (* error_current *)
  s_thr : b64;                (* threshold *)
  s_inc : b64;                (* threshold_increment *)
  s_last : option rmodel      (* reduced_model, unbound before the first pass *)
}.

(** drg.py:325-372, drgep.py:464-509, pfa.py:351-398 — the [while] loop.
    [red] is the reduction step; fuel counts iterations. *)
Fixpoint fthr_loop (fuel : nat) (red : b64 -> option rmodel -> M rmodel)
         (limit : xnum) (floor : b64 -> bool) (s : fstate) : M fstate :=
  if xle (s_err s) limit then
    match fuel with
    | O => mlift NoFuel
    | S f =>
        r <- red (s_thr s) (Some (s_prev s)) ;;
        if s_first s && xgt (r_error r) limit then
          let t := b64_div (s_thr s) (b64_of_Z 10) in
          let i := b64_div (s_inc s) (b64_of_Z 10) in
          if floor t then mraise SystemExit
          else fthr_loop f red limit floor (mkFS (s_prev s) (s_first s) (Fin 0) t i (Some r))
        else
          let t := b64_add (s_thr s) (s_inc s) in
          (if Nat.eqb (n_species (r_model (s_prev s))) (n_species (r_model r)) then mret tt
           else remove_file (r_file r)) ;;;
          fthr_loop f red limit floor (mkFS r false (r_error r) t (s_inc s) (Some r))
    end
  else mret s.

(** What follows the loop (drg.py:374-395, drgep.py:511-530, pfa.py:400-421):
    [threshold -= 2 * threshold_increment] and one more step.  [by_last] as in
    Model/Drivers.v. *)
Definition fthr_finish (path : string) (red : b64 -> option rmodel -> M rmodel)
           (limit : xnum) (by_last : bool) (s : fstate) : M rmodel :=
  let again := red (b64_sub (s_thr s) (b64_mul (b64_of_Z 2) (s_inc s))) None in
  if by_last then
    match s_last s with
    | None => mraise UnboundLocalError
    | Some r => if xgt (r_error r) limit then again else write_wrong path (Some r)
    end
  else if xgt (s_err s) limit then again else write_wrong path (s_last s).

(** drg.py:319-324, drgep.py:458-463, pfa.py:345-350: [threshold = 0.01]. *)
Definition fthr_init (sol : mech) (file : string) : fstate :=
  mkFS (mkRM sol file (Fin 0) Shared) true (Fin 0) (b64_of_frac 1 100) (b64_of_frac 1 100) None.

Definition fthr_run (fuel : nat) (J : job) (sol : mech)
           (red : b64 -> option rmodel -> M rmodel) (limit : xnum)
           (floor : b64 -> bool) (by_last : bool) : M rmodel :=
  s <- fthr_loop fuel red limit floor (fthr_init sol (j_file J)) ;;
  fthr_finish (j_path J) red limit by_last s.

(** Sampling: the metrics of the detailed model and, for each sampled state,
    the net rates of progress there. *)
Definition fsampler := M (list xnum * list (list b64)).

(** drg.py:241-405 — [run_drg]. *)
Definition frun_drg (fuel : nat) (J : job) (smp : fsampler) (limit : xnum) : M rmodel :=
  sol <- load (j_file J) (j_phase J) ;;
  match j_targets J with
  | nil => mraise AssertionError
  | _ =>
      sd <- smp ;;
      let Fs := map (fun rop => f_drg_matrix (fkin_of sol rop)) (snd sd) in
      fthr_run fuel J sol (freduce_drg J Fs (fst sd)) limit (floor_f DRG) false
  end.

(** pfa.py:267-431 — [run_pfa]. *)
Definition frun_pfa (fuel : nat) (J : job) (smp : fsampler) (limit : xnum) : M rmodel :=
  sol <- load (j_file J) (j_phase J) ;;
  match j_targets J with
  | nil => mraise AssertionError
  | _ =>
      sd <- smp ;;
      let Fs := map (fun rop => f_pfa_matrix (fkin_of sol rop)) (snd sd) in
      fthr_run fuel J sol (freduce_pfa J Fs (fst sd)) limit (floor_f PFA) true
  end.

(** drgep.py:375-545 — [run_drgep].  [dfuel] bounds the path search. *)
Definition frun_drgep (fuel dfuel : nat) (J : job) (smp : fsampler) (limit : xnum) : M rmodel :=
  sol <- load (j_file J) (j_phase J) ;;
  match j_targets J with
  | nil => mraise AssertionError
  | _ =>
      sd <- smp ;;
      let Fs := map (fun rop => f_drgep_matrix (fkin_of sol rop)) (snd sd) in
      imp <- mlift (f_importance_coeffs dfuel (species_names sol) (j_targets J) Fs) ;;
      r <- fthr_run fuel J sol (freduce_drgep J imp (fst sd)) limit (floor_f DRGEP) true ;;
      if f_truthy (f_upper J) then
        l <- mlift (f_below imp (j_safe J) (match f_upper J with Some u => u | None => fzero end)
                            (species_names (r_model r))) ;;
        append_limbo r l
      else mret r
  end.

(** The three under one name. *)
Definition frun (me : method) (fuel dfuel : nat) (J : job) (smp : fsampler) (limit : xnum) : M rmodel :=
  match me with
  | DRG => frun_drg fuel J smp limit
  | PFA => frun_pfa fuel J smp limit
  | DRGEP => frun_drgep fuel dfuel J smp limit
  end.
