(** The whole program with a given number of processes: [num_threads] as
    pymars.py:152-290 hands it on to the drivers, to [run_sa], and from there to
    [sample] and [sample_metrics].  Numbers are doubles as in Model/FloatMain.v;
    the parts that start no processes are those of the other models. *)
From Coq Require Import String List QArith ZArith Bool Arith.
From Verif.Base Require Import Py Num XNum B64 Paths.
From Verif.Model Require Import Mech Matrices Graph World Metrics Drivers Sensitivity Simulation Sampling Main
  FloatDrivers FloatMatrix FloatPfa FloatRun DoubleError FloatMain Pool.
From Verif.Spec Require Import DriverSpec.
Import ListNotations.
Local Open Scope string_scope.

(** Something that ends in one way only. *)
Definition just {A} (m : M A) : ends A := fun w r w' => m w = (r, w').
Notation "x <== e ;; k" := (ethen e (fun x => k)) (at level 61, e at next level, right associativity).
Notation "e ;;= k" := (ethen e (fun _ => k)) (at level 61, right associativity).

(** A loop over a list that collects results. *)
Fixpoint emap {A B} (f : A -> ends B) (l : list A) : ends (list B) :=
  match l with
  | nil => just (mret nil)
  | x :: t => y <== f x ;; ys <== emap f t ;; just (mret (y :: ys))
  end.

(** [with TemporaryDirectory() as d], see Model/Sensitivity.v. *)
Definition temp_with {A} (d : string) (body : string -> ends A) : ends A := fun w r w' =>
  exists w1, body d w r w1 /\ w' = mkWorld (fun f => if under d f then None else w_fs w1 f) (w_shared w1).

Section Processes.
  (** The number of processors and the argument [num_threads]. *)
  Variables cpus threads : Z.

  (** sampling.py:404-502 — one of the three parts of [sample_metrics]. *)
  Definition metrics_part_with (model phase : string) (cases : list cond) (out : string)
             (initial : list xnum) (expected : nat) (reuse_saved : bool) : ends (list xnum) :=
    match cases with
    | nil => just (mret nil)
    | _ =>
        exists_output <== just (is_file out) ;;
        saved <== just (if reuse_saved && exists_output then read_nums out else mret initial) ;;
        if reuse_saved && Nat.eqb (length saved) expected then just (mret saved)
        else ls <== metrics_with cpus threads model phase cases ;; just (mret (concat ls))
    end.

  (** sampling.py:358-502 — [sample_metrics]. *)
  Definition sample_metrics_with (model phase : string) (cs : conds) (reuse_saved : bool) : ends (list xnum) :=
    i <== metrics_part_with model phase (c_ign cs) output_ignition
            (repeat (Fin 0) (length (c_ign cs))) (length (c_ign cs)) reuse_saved ;;
    p <== metrics_part_with model phase (c_psr cs) output_psr
            nil (3 * length (c_psr cs)) reuse_saved ;;
    f <== metrics_part_with model phase (c_flame cs) output_flame
            (repeat (Fin 0) (length (c_flame cs))) (length (c_flame cs)) reuse_saved ;;
    just (mret (i ++ p ++ f)%list).

  (** drg.py:203-221, pfa.py:227-245, drgep.py:350-368: trim, write, evaluate. *)
  Definition cut_and_score_with (J : job) (sampled : list xnum) (removed : list string) : ends (mech * string * xnum) :=
    red <== just (trim (j_file J) removed ("reduced_" ++ j_file J) (j_phase J)) ;;
    f <== just (yaml_write red (reduced_name (n_species red)) (j_path J)) ;;
    metrics <== sample_metrics_with f (j_phase J) (j_conds J) false ;;
    error <== just (mlift (c_error (j_conds J) sampled metrics)) ;;
    just (mret (red, f, error)).

  (** drg.py:125-238 — [reduce_drg]. *)
  Definition reduce_drg_with (J : job) (Fs : list fmatrix) (sampled : list xnum)
             (thr : b64) (previous : option rmodel) : ends rmodel :=
    sol <== just (load (j_file J) (j_phase J)) ;;
    keep <== just (mlift (fretained Fs (species_names sol) (j_targets J) thr)) ;;
    let go :=
      let removed := not_in (species_names sol) (keep ++ j_safe J) in
      r <== cut_and_score_with J sampled removed ;;
      let '(red, f, error) := r in
      limbo <== just (if f_truthy (f_upper J)
                      then mlift (fretained Fs (species_names sol) (j_targets J)
                                            (match f_upper J with Some u => u | None => fzero end))
                      else mret nil) ;;
      just (mret (mkRM red f error (Own limbo))) in
    match previous with
    | Some p => if Nat.eqb (length keep) (n_species (r_model p)) then just (mret p) else go
    | None => go
    end.

  (** pfa.py:149-264 — [reduce_pfa]. *)
  Definition reduce_pfa_with (J : job) (Fs : list fmatrix) (sampled : list xnum)
             (thr : b64) (previous : option rmodel) : ends rmodel :=
    sol <== just (load (j_file J) (j_phase J)) ;;
    ls <== just (mlift (mapM (fun F => f_trim_pfa F (species_names sol) (j_targets J) thr) Fs)) ;;
    let keep := set_of (concat ls) in
    let go :=
      let removed := not_in (species_names sol) (keep ++ j_safe J) in
      r <== cut_and_score_with J sampled removed ;;
      let '(red, f, error) := r in
      limbo <== just (match (if f_truthy (f_upper J) then f_upper J else None) with
                      | None => mret nil
                      | Some u =>
                          match last (map Some Fs) None with
                          | None => mraise UnboundLocalError
                          | Some F =>
                              more <- mlift (f_trim_pfa F (species_names sol) (j_targets J) u) ;;
                              mret (not_in (species_names sol) ((keep ++ more) ++ j_safe J ++ removed))
                          end
                      end) ;;
      just (mret (mkRM red f error (Own limbo))) in
    match previous with
    | Some p => if Nat.eqb (length keep) (n_species (r_model p)) then just (mret p) else go
    | None => go
    end.

  (** drgep.py:286-372 — [reduce_drgep]. *)
  Definition reduce_drgep_with (J : job) (imp : dict b64) (sampled : list xnum)
             (thr : b64) (previous : option rmodel) : ends rmodel :=
    sol <== just (load (j_file J) (j_phase J)) ;;
    removed <== just (mlift (f_below imp (j_safe J) thr (species_names sol))) ;;
    let go :=
      r <== cut_and_score_with J sampled removed ;;
      let '(red, f, error) := r in
      just (mret (mkRM red f error Shared)) in
    match previous with
    | Some p =>
        if Z.eqb (Z.of_nat (length removed))
                 (Z.of_nat (n_species sol) - Z.of_nat (n_species (r_model p)))
        then just (mret p) else go
    | None => go
    end.

  (** drg.py:325-372, drgep.py:464-509, pfa.py:351-398 — the [while] loop. *)
  Fixpoint thr_loop_with (fuel : nat) (red : b64 -> option rmodel -> ends rmodel)
           (limit : xnum) (floor : b64 -> bool) (s : fstate) : ends fstate :=
    if xle (s_err s) limit then
      match fuel with
      | O => just (mlift NoFuel)
      | S f =>
          r <== red (s_thr s) (Some (s_prev s)) ;;
          if s_first s && xgt (r_error r) limit then
            let t := b64_div (s_thr s) (b64_of_Z 10) in
            let i := b64_div (s_inc s) (b64_of_Z 10) in
            if floor t then just (mraise SystemExit)
            else thr_loop_with f red limit floor (mkFS (s_prev s) (s_first s) (Fin 0) t i (Some r))
          else
            let t := b64_add (s_thr s) (s_inc s) in
            just (if Nat.eqb (n_species (r_model (s_prev s))) (n_species (r_model r)) then mret tt
                  else remove_file (r_file r)) ;;=
            thr_loop_with f red limit floor (mkFS r false (r_error r) t (s_inc s) (Some r))
      end
    else just (mret s).

  (** drg.py:374-395, drgep.py:511-530, pfa.py:400-421 — what follows it. *)
  Definition thr_finish_with (path : string) (red : b64 -> option rmodel -> ends rmodel)
             (limit : xnum) (by_last : bool) (s : fstate) : ends rmodel :=
    let again := red (b64_sub (s_thr s) (b64_mul (b64_of_Z 2) (s_inc s))) None in
    if by_last then
      match s_last s with
      | None => just (mraise UnboundLocalError)
      | Some r => if xgt (r_error r) limit then again else just (write_wrong path (Some r))
      end
    else if xgt (s_err s) limit then again else just (write_wrong path (s_last s)).

  Definition thr_run_with (fuel : nat) (J : job) (sol : mech)
             (red : b64 -> option rmodel -> ends rmodel) (limit : xnum)
             (floor : b64 -> bool) (by_last : bool) : ends rmodel :=
    s <== thr_loop_with fuel red limit floor (fthr_init sol (j_file J)) ;;
    thr_finish_with (j_path J) red limit by_last s.

  (** drg.py:241-405 — [run_drg]. *)
  Definition run_drg_with (fuel : nat) (J : job) (smp : ends (list xnum * list (list b64))) (limit : xnum) : ends rmodel :=
    sol <== just (load (j_file J) (j_phase J)) ;;
    match j_targets J with
    | nil => just (mraise AssertionError)
    | _ =>
        sd <== smp ;;
        let Fs := map (fun rop => f_drg_matrix (fkin_of sol rop)) (snd sd) in
        thr_run_with fuel J sol (reduce_drg_with J Fs (fst sd)) limit (floor_f DRG) false
    end.

  (** pfa.py:267-431 — [run_pfa]. *)
  Definition run_pfa_with (fuel : nat) (J : job) (smp : ends (list xnum * list (list b64))) (limit : xnum) : ends rmodel :=
    sol <== just (load (j_file J) (j_phase J)) ;;
    match j_targets J with
    | nil => just (mraise AssertionError)
    | _ =>
        sd <== smp ;;
        let Fs := map (fun rop => f_pfa_matrix (fkin_of sol rop)) (snd sd) in
        thr_run_with fuel J sol (reduce_pfa_with J Fs (fst sd)) limit (floor_f PFA) true
    end.

  (** drgep.py:375-545 — [run_drgep]. *)
  Definition run_drgep_with (fuel dfuel : nat) (J : job) (smp : ends (list xnum * list (list b64))) (limit : xnum)
    : ends rmodel :=
    sol <== just (load (j_file J) (j_phase J)) ;;
    match j_targets J with
    | nil => just (mraise AssertionError)
    | _ =>
        sd <== smp ;;
        let Fs := map (fun rop => f_drgep_matrix (fkin_of sol rop)) (snd sd) in
        imp <== just (mlift (f_importance_coeffs dfuel (species_names sol) (j_targets J) Fs)) ;;
        r <== thr_run_with fuel J sol (reduce_drgep_with J imp (fst sd)) limit (floor_f DRGEP) true ;;
        just (if f_truthy (f_upper J) then
                l <- mlift (f_below imp (j_safe J) (match f_upper J with Some u => u | None => fzero end)
                                    (species_names (r_model r))) ;;
                append_limbo r l
              else mret r)
    end.

  (** sensitivity_analysis.py:78-96 and 209-231. *)
  Definition try_without_with (d file phase : string) (cs : conds) (metrics : list xnum) (sp : string)
    : ends (mech * string * xnum) :=
    m <== just (trim file [sp] (test_name sp) phase) ;;
    f <== just (yaml_write m (test_name sp) d) ;;
    ms <== sample_metrics_with f phase cs false ;;
    e <== just (mlift (c_error cs metrics ms)) ;;
    just (mret (m, f, e)).

  (** sensitivity_analysis.py:36-98 — [evaluate_species_errors]. *)
  Definition evaluate_with (tmp file phase : string) (cs : conds)
             (metrics : list xnum) (species_limbo : list string) : ends (list xnum) :=
    temp_with tmp (fun d =>
      emap (fun sp => r <== try_without_with d file phase cs metrics sp ;; just (mret (snd r))) species_limbo).

  (** sensitivity_analysis.py:203-259 — the loop. *)
  Fixpoint sa_loop_with (fuel : nat) (K : sa_job) (shared : bool) (tmp tmp2 : string) (metrics : list xnum)
           (cur : rmodel) (errs : list xnum) (limbo : list string) : ends rmodel :=
    match limbo with
    | nil => just (mret cur)
    | _ =>
        match fuel with
        | O => just (mlift NoFuel)
        | S fuel =>
            let idx := argmin (map (fun e => s_far K e (r_error cur)) errs) in
            let errs := delete_at idx errs in
            match nth_error limbo idx with
            | None => just (mraise IndexError)
            | Some sp =>
                let limbo := delete_at idx limbo in
                just (set_limbo shared limbo) ;;=
                r <== try_without_with tmp (r_file cur) (s_phase K) (s_conds K) metrics sp ;;
                let '(m, f, e) := r in
                if xgt e (s_limit K) then just (mret cur)
                else
                  let cur := mkRM m f e Shared in
                  match s_alg K with
                  | Initial => sa_loop_with fuel K shared tmp tmp2 metrics cur errs limbo
                  | Greedy =>
                      errs <== evaluate_with tmp2 (r_file cur) (s_phase K) (s_conds K) metrics limbo ;;
                      least <== just (mlift (py_min errs)) ;;
                      if xgt least (s_limit K) then just (mret cur)
                      else sa_loop_with fuel K shared tmp tmp2 metrics cur errs limbo
                  end
            end
        end
    end.

  (** sensitivity_analysis.py:101-276 — [run_sa]. *)
  Definition run_sa_with (fuel : nat) (tmp tmp2 : string) (K : sa_job) : ends rmodel :=
    sol <== just (load (s_file K) (s_phase K)) ;;
    let cur := mkRM sol (s_file K) (s_start K) Shared in
    metrics <== sample_metrics_with (s_file K) (s_phase K) (s_conds K) true ;;
    given <== just (read_limbo (s_limbo K)) ;;
    let '(limbo, shared) :=
      match given, s_limbo K with
      | nil, _ => (not_in (species_names sol) (s_safe K), false)
      | _, Shared => (given, true)
      | _, Own _ => (given, false)
      end in
    errs <== evaluate_with tmp2 (s_file K) (s_phase K) (s_conds K) metrics limbo ;;
    cur <== temp_with tmp (fun d => sa_loop_with fuel K shared d tmp2 metrics cur errs limbo) ;;
    let name := reduced_name (n_species (r_model cur)) in
    just (yaml_write (r_model cur) name (s_path K)) ;;=
    just (mret (mkRM (r_model cur) name (r_error cur) Shared)).

  (** The sampling that a driver does for [main], see Model/Main.v. *)
  Definition sampler_procs (K : machine) (rates : mech -> list xnum -> res (list b64)) (floor : option Q) (C : cases)
             (a : main_in) : ends (list xnum * list (list b64)) :=
    sol <== just (load (a_file a) (a_phase a)) ;;
    r <== sample_with cpus threads (k_torn K) (k_fuel K) (k_physics K) floor (a_file a) (a_phase a) (a_path a) C ;;
    rops <== just (mlift (mapM (rates sol) (snd r))) ;;
    just (mret (fst r, rops)).

  (** pymars.py:152-290 — [main] with the argument [num_threads]. *)
  Definition main_procs (B : limits) (K : machine) (rates : mech -> list xnum -> res (list b64)) (floor : option Q)
             (C : cases) (a : main_in) : ends rmodel :=
    let cs := double_conds (conds_of (k_fuel K) (k_physics K) floor C) in
    let smp := sampler_procs K rates floor C a in
    let J := graph_job a cs in
    if graph_method (a_method a) && match a_targets a with nil => true | _ => false end
    then just (mraise AssertionError)
    else if String.eqb (a_method a) "" && negb (a_sa a) then just (mraise ValueError)
    else
      red <== (if String.eqb (a_method a) "DRG" then
                 r <== run_drg_with (b_thr B) J smp (a_limit a) ;; just (mret (Some r))
               else if String.eqb (a_method a) "DRGEP" then
                 r <== run_drgep_with (b_thr B) (b_path B) J smp (a_limit a) ;; just (mret (Some r))
               else if String.eqb (a_method a) "PFA" then
                 r <== run_pfa_with (b_thr B) J smp (a_limit a) ;; just (mret (Some r))
               else just (mret None)) ;;
      let '(model_file, error, limbo_species) :=
        match red with
        | Some r => (r_file r, r_error r, r_limbo r)
        | None => (a_file a, Fin 0, Own nil)
        end in
      if a_sa a then
        let t := if String.eqb (a_type a) "" then "greedy" else a_type a in
        run_sa_with (b_sa B) (b_tmp B) (b_tmp2 B)
          (mkSAWith model_file (a_phase a) (a_path a) error cs (a_limit a) (a_targets a ++ a_safe a)
                    (if String.eqb t "greedy" then Greedy else Initial) limbo_species double_distance)
      else
        match red with
        | Some r => just (mret r)
        | None => just (mraise UnboundLocalError)
        end.
End Processes.
