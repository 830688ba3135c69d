(** The reduction steps and the threshold loops of DRG, DRGEP and PFA. *)
From Coq Require Import String List QArith Bool Arith DecimalString.
From Verif.Base Require Import Py Num XNum Paths.
From Verif.Model Require Import Mech Matrices Graph World Metrics.
Import ListNotations.
Local Open Scope string_scope.

(** The object held by a [limbo_species] field: the shared default list, or a
    list of its own. *)
Inductive limbo := Shared | Own (l : list string).

(** reduce_model.py:9-15 — [ReducedModel]. *)
Record rmodel := mkRM { r_model : mech; r_file : string; r_error : xnum; r_limbo : limbo }.

(** [f"{n}"] for a natural number. *)
Definition str_nat (n : nat) : string := NilEmpty.string_of_uint (Nat.to_uint n).

(** [f"reduced_{n}.yaml"] *)
Definition reduced_name (n : nat) : string := "reduced_" ++ str_nat n ++ ".yaml".

(** Python truth of an optional number: None and 0 are false. *)
Definition truthy (o : option Q) : bool :=
  match o with Some q => Qnz q | None => false end.

(** Everything the reduction functions are called with that stays the same
    while thresholds vary. *)
Record job := mkJob {
  j_file : string;             (* model_file *)
  j_phase : string;            (* phase_name *)
  j_path : string;             (* path *)
  j_targets : list string;     (* species_targets *)
  j_safe : list string;        (* species_safe *)
  j_conds : conds;             (* the three lists of conditions *)
  j_upper : option Q           (* threshold_upper *)
}.

(** drg.py:203-221, pfa.py:227-245, drgep.py:350-368: trim, write, evaluate. *)
Definition cut_and_score (J : job) (sampled : list xnum) (removed : list string)
  : M (mech * string * xnum) :=
  red <- trim (j_file J) removed ("reduced_" ++ j_file J) (j_phase J) ;;
  f <- yaml_write red (reduced_name (n_species red)) (j_path J) ;;
  metrics <- sample_metrics f (j_phase J) (j_conds J) false ;;
  error <- mlift (c_error (j_conds J) sampled metrics) ;;
  mret (red, f, error).

(** drg.py:185-192 and pfa.py:209-216: the union over all states. *)
Definition retained (Ms : list matrix) (names targets : list string) (thr : Q)
  : res (list string) :=
  bind (mapM (fun Mx => trim_drg Mx names targets thr) Ms) (fun ls => Ok (set_of (concat ls))).

(** [sp not in (a + b)] over the names of the model. *)
Definition not_in (names keep : list string) : list string :=
  filter (fun s => negb (str_in s keep)) names.

(** drg.py:125-238 — [reduce_drg]. *)
Definition reduce_drg (J : job) (Ms : list matrix) (sampled : list xnum)
           (thr : Q) (previous : option rmodel) : M rmodel :=
  sol <- load (j_file J) (j_phase J) ;;
  keep <- mlift (retained Ms (species_names sol) (j_targets J) thr) ;;
  let go :=
    let removed := not_in (species_names sol) (keep ++ j_safe J) in
    r <- cut_and_score J sampled removed ;;
    let '(red, f, error) := r in
    limbo <- (if truthy (j_upper J)
              then mlift (retained Ms (species_names sol) (j_targets J)
                                   (match j_upper J with Some u => u | None => 0%Q end))
              else mret nil) ;;
    mret (mkRM red f error (Own limbo)) in
  match previous with
  | Some p => if Nat.eqb (length keep) (n_species (r_model p)) then mret p else go
  | None => go
  end.

(** pfa.py:149-264 — [reduce_pfa].  The limbo search uses [matrix], the loop
    variable left over from the loop above it; with no matrix the name is
    unbound. *)
Definition reduce_pfa (J : job) (Ms : list matrix) (sampled : list xnum)
           (thr : Q) (previous : option rmodel) : M rmodel :=
  sol <- load (j_file J) (j_phase J) ;;
  ls <- mlift (mapM (fun Mx => trim_pfa Mx (species_names sol) (j_targets J) thr) Ms) ;;
  let keep := set_of (concat ls) in
  let go :=
    let removed := not_in (species_names sol) (keep ++ j_safe J) in
    r <- cut_and_score J sampled removed ;;
    let '(red, f, error) := r in
    limbo <- (match (if truthy (j_upper J) then j_upper J else None) with
              | None => mret nil
              | Some u =>
                  match last (map Some Ms) None with
                  | None => mraise UnboundLocalError
                  | Some Mx =>
                      more <- mlift (trim_pfa Mx (species_names sol) (j_targets J) u) ;;
                      mret (not_in (species_names sol) ((keep ++ more) ++ j_safe J ++ removed))
                  end
              end) ;;
    mret (mkRM red f error (Own limbo)) in
  match previous with
  | Some p => if Nat.eqb (length keep) (n_species (r_model p)) then mret p else go
  | None => go
  end.

(** [importance_coeffs[sp]] *)
Definition coeff (imp : dict Q) (s : string) : res Q :=
  match dget s imp with Some v => Ok v | None => Raise KeyError end.

(** drgep.py:338-342: names whose coefficient is below the threshold and that
    are not safe. *)
Definition below (imp : dict Q) (safe : list string) (thr : Q) (names : list string)
  : res (list string) :=
  bind (mapM (fun s => bind (coeff imp s) (fun v => Ok (s, v))) names) (fun l =>
    Ok (map fst (filter (fun sv => Qlt_bool (snd sv) thr && negb (str_in (fst sv) safe)) l))).

(** drgep.py:286-372 — [reduce_drgep].  The result is created without
    [limbo_species], so it holds the shared default list. *)
Definition reduce_drgep (J : job) (imp : dict Q) (sampled : list xnum)
           (thr : Q) (previous : option rmodel) : M rmodel :=
  sol <- load (j_file J) (j_phase J) ;;
  removed <- mlift (below imp (j_safe J) thr (species_names sol)) ;;
  let go :=
    r <- cut_and_score J sampled removed ;;
    let '(red, f, error) := r in
    mret (mkRM red f error Shared) in
  match previous with
  | Some p =>
      if Z.eqb (Z.of_nat (length removed))
               (Z.of_nat (n_species sol) - Z.of_nat (n_species (r_model p)))
      then mret p else go
  | None => go
  end.

(** The arithmetic of the threshold: 0.01, [/ 10], [+], [t - 2 * inc], and the
    comparison of a threshold with a coefficient through its exact value. *)
Record arith := mkArith {
  A_t : Type;
  A_start : A_t;                  (* 0.01 *)
  A_div10 : A_t -> A_t;
  A_add : A_t -> A_t -> A_t;
  A_back : A_t -> A_t -> A_t;     (* threshold - 2 * increment *)
  A_val : A_t -> Q
}.

(** State of the loop. *)
Record lstate (A : arith) := mkLS {
  l_prev : rmodel;            (* previous_model *)
  l_first : bool;
  l_err : xnum;               (* error_current *)
  l_thr : A_t A;              (* threshold *)
  l_inc : A_t A;              (* threshold_increment *)
  l_last : option rmodel      (* reduced_model, unbound before the first pass *)
}.
Arguments mkLS {A}. Arguments l_prev {A}. Arguments l_first {A}. Arguments l_err {A}.
Arguments l_thr {A}. Arguments l_inc {A}. Arguments l_last {A}.

(** drg.py:325-372, drgep.py:464-509, pfa.py:351-398 — the [while] loop.
    [red] is the reduction step, [floor] the comparison that gives up
    (1e-5 for DRG and PFA, 1e-6 for DRGEP).  Fuel counts iterations. *)
Fixpoint thr_loop (A : arith) (fuel : nat) (red : Q -> option rmodel -> M rmodel)
         (limit : xnum) (floor : A_t A -> bool) (s : lstate A) : M (lstate A) :=
  if xle (l_err s) limit then
    match fuel with
    | O => mlift NoFuel
    | S f =>
        r <- red (A_val A (l_thr s)) (Some (l_prev s)) ;;
        if l_first s && xgt (r_error r) limit then
          let t := A_div10 A (l_thr s) in
          let i := A_div10 A (l_inc s) in
          if floor t then mraise SystemExit
          else thr_loop A f red limit floor (mkLS (l_prev s) (l_first s) (Fin 0) t i (Some r))
        else
          let t := A_add A (l_thr s) (l_inc s) in
          (if Nat.eqb (n_species (r_model (l_prev s))) (n_species (r_model r)) then mret tt
           else remove_file (r_file r)) ;;;
          thr_loop A f red limit floor (mkLS r false (r_error r) t (l_inc s) (Some r))
    end
  else mret s.

(** The [else] branch after the loop (drg.py:392-395, drgep.py:527-530,
    pfa.py:418-421): [soln2yaml.write] is called with the [ReducedModel]
    instead of the Solution; it deletes an existing file of that name and then
    fails because a [ReducedModel] has no [write_yaml]. *)
Definition write_wrong {B} (path : string) (last : option rmodel) : M B :=
  match last with
  | None => mraise UnboundLocalError
  | Some r =>
      let f := path_join path (reduced_name (n_species (r_model r))) in
      ex <- is_file f ;;
      (if ex then remove_file f else mret tt) ;;;
      mraise AttributeError
  end.

(** What follows the loop.  [by_last]: the test uses [reduced_model.error]
    (drgep.py:511, pfa.py:400) rather than [error_current] (drg.py:374). *)
Definition thr_finish (A : arith) (path : string) (red : Q -> option rmodel -> M rmodel)
           (limit : xnum) (by_last : bool) (s : lstate A) : M rmodel :=
  let again := red (A_val A (A_back A (l_thr s) (l_inc s))) None in
  if by_last then
    match l_last s with
    | None => mraise UnboundLocalError
    | Some r => if xgt (r_error r) limit then again else write_wrong path (Some r)
    end
  else if xgt (l_err s) limit then again else write_wrong path (l_last s).

(** The initial state: drg.py:319-324, drgep.py:458-463, pfa.py:345-350. *)
Definition thr_init (A : arith) (sol : mech) (file : string) : lstate A :=
  mkLS (mkRM sol file (Fin 0) Shared) true (Fin 0) (A_start A) (A_start A) None.

Definition thr_run (A : arith) (fuel : nat) (J : job) (sol : mech)
           (red : Q -> option rmodel -> M rmodel) (limit : xnum)
           (floor : A_t A -> bool) (by_last : bool) : M rmodel :=
  s <- thr_loop A fuel red limit floor (thr_init A sol (j_file J)) ;;
  thr_finish A (j_path J) red limit by_last s.

(** Sampling, as a computation that gives the metrics of the detailed model
    and, for each sampled state, the net rates of progress there. *)
Definition sampler := M (list xnum * list (list Q)).

(** drg.py:241-405 — [run_drg]. *)
Definition run_drg (A : arith) (floor : A_t A -> bool) (fuel : nat) (J : job)
           (smp : sampler) (limit : xnum) : M rmodel :=
  sol <- load (j_file J) (j_phase J) ;;
  match j_targets J with
  | nil => mraise AssertionError
  | _ =>
      sd <- smp ;;
      let Ms := map (fun rop => create_drg_matrix (kin_of sol rop)) (snd sd) in
      thr_run A fuel J sol (reduce_drg J Ms (fst sd)) limit floor false
  end.

(** pfa.py:267-431 — [run_pfa]. *)
Definition run_pfa (A : arith) (floor : A_t A -> bool) (fuel : nat) (J : job)
           (smp : sampler) (limit : xnum) : M rmodel :=
  sol <- load (j_file J) (j_phase J) ;;
  match j_targets J with
  | nil => mraise AssertionError
  | _ =>
      sd <- smp ;;
      let Ms := map (fun rop => create_pfa_matrix (kin_of sol rop)) (snd sd) in
      thr_run A fuel J sol (reduce_pfa J Ms (fst sd)) limit floor true
  end.

(** [reduced_model.limbo_species.append(sp)] for a list of species. *)
Definition append_limbo (r : rmodel) (l : list string) : M rmodel := fun w =>
  match r_limbo r with
  | Shared => (Ok r, mkWorld (w_fs w) (w_shared w ++ l))
  | Own l0 => (Ok (mkRM (r_model r) (r_file r) (r_error r) (Own (l0 ++ l))), w)
  end.

(** drgep.py:375-545 — [run_drgep].  [dfuel] bounds the path search. *)
Definition run_drgep (A : arith) (floor : A_t A -> bool) (fuel dfuel : nat) (J : job)
           (smp : sampler) (limit : xnum) : M rmodel :=
  sol <- load (j_file J) (j_phase J) ;;
  match j_targets J with
  | nil => mraise AssertionError
  | _ =>
      sd <- smp ;;
      let Ms := map (fun rop => create_drgep_matrix (kin_of sol rop)) (snd sd) in
      imp <- mlift (get_importance_coeffs dfuel (species_names sol) (j_targets J) Ms) ;;
      r <- thr_run A fuel J sol (reduce_drgep J imp (fst sd)) limit floor true ;;
      if truthy (j_upper J) then
        l <- mlift (below imp (j_safe J) (match j_upper J with Some u => u | None => 0%Q end)
                          (species_names (r_model r))) ;;
        append_limbo r l
      else mret r
  end.

(** Exact thresholds. *)
Definition exactA : arith :=
  mkArith Q (1 # 100) (fun t => t / 10)%Q Qplus (fun t i => t - 2 * i)%Q (fun t => t).

(** [threshold <= 1e-5] and [threshold <= 1e-6] *)
Definition floor5 (t : Q) : bool := Qle_bool t (1 # 100000).
Definition floor6 (t : Q) : bool := Qle_bool t (1 # 1000000).

(** What reading [r.limbo_species] gives. *)
Definition limbo_of (w : world) (r : rmodel) : list string :=
  match r_limbo r with Shared => w_shared w | Own l => l end.
