(** Vocabulary for the properties of the reduction drivers. *)
From Coq Require Import String List QArith Bool.
From Verif.Base Require Import Py Num XNum Paths.
From Verif.Model Require Import Mech Matrices Graph World Metrics Drivers.
From Verif.Spec Require Import TrimSpec GraphSpec.
Import ListNotations.
Local Open Scope string_scope.

Inductive method := DRG | PFA | DRGEP.
Definition method_dec (a b : method) : {a = b} + {a <> b}.
Proof. decide equality. Defined.

(** One array per sampled state. *)
Definition matrices (me : method) (sol : mech) (rops : list (list Q)) : list matrix :=
  map (fun rop => match me with
                  | DRG => create_drg_matrix
                  | PFA => create_pfa_matrix
                  | DRGEP => create_drgep_matrix
                  end (kin_of sol rop)) rops.

(** Species [s] is to be kept at threshold [t]: it is safe, or reachable from
    a target at some state (DRG, PFA), or important enough (DRGEP). *)
Definition kept (me : method) (J : job) (sol : mech) (rops : list (list Q)) (t : Q) (s : string)
  : Prop :=
  In s (j_safe J) \/
  match me with
  | DRG | PFA => exists Mx tgt, In Mx (matrices me sol rops) /\ In tgt (j_targets J) /\
                   reach (species_names sol) Mx t tgt s
  | DRGEP => exists m, is_importance (species_names sol) (j_targets J) (matrices me sol rops) s m /\
                   (t <= m)%Q
  end.

(** [m] is [sol] with all species outside [K] trimmed away. *)
Definition cut_to (J : job) (sol : mech) (K : string -> Prop) (m : mech) : Prop :=
  exists removed,
    (forall s, In s (species_names sol) -> (In s removed <-> ~ K s)) /\
    trim_mech sol removed ("reduced_" ++ j_file J) (j_phase J) = Ok m.

(** The metrics that simulating [m] gives, and its error. *)
Definition metrics_of (cs : conds) (m : mech) : res (list xnum) :=
  bind (mapM (fun c : cond => c m) (c_ign cs ++ c_psr cs ++ c_flame cs)%list) (fun ls => Ok (concat ls)).
Definition error_of (cs : conds) (sampled : list xnum) (m : mech) : res xnum :=
  bind (metrics_of cs m) (c_error cs sampled).

(** The error is computed with exact numbers. *)
Definition exact_errors (cs : conds) : Prop := c_error cs = calculate_error.

(** The same mechanism apart from the name of the phase. *)
Definition same_content (m m' : mech) : Prop :=
  m_species m = m_species m' /\ m_reactions m = m_reactions m' /\
  m_transport m = m_transport m' /\ m_TP m = m_TP m'.

(** The conditions give the same metrics whatever the phase is called. *)
Definition name_blind (cs : conds) : Prop :=
  forall c m m', In c (c_ign cs ++ c_psr cs ++ c_flame cs)%list -> same_content m m' -> c m = c m'.

(** Loading [f] gives [sol]. *)
Definition holds (w : world) (f phase : string) (sol : mech) : Prop :=
  exists phases, w_fs w f = Some (FMech phases) /\ pick_phase phases phase = Ok sol.

(** Where models are written. *)
Definition out_file (J : job) (n : nat) : string := path_join (j_path J) (reduced_name n).

(** The input model is not called <path>/reduced_<k>.yaml. *)
Definition input_apart (J : job) : Prop := forall n, out_file J n <> j_file J.

(** The three drivers and their reduction steps under one name.  [dfuel]
    bounds the path search of DRGEP and is ignored by the others. *)
Definition reduce (me : method) (dfuel : nat) (J : job) (sol : mech) (rops : list (list Q))
           (sampled : list xnum) (t : Q) (previous : option rmodel) : M rmodel :=
  match me with
  | DRG => reduce_drg J (matrices DRG sol rops) sampled t previous
  | PFA => reduce_pfa J (matrices PFA sol rops) sampled t previous
  | DRGEP =>
      imp <- mlift (get_importance_coeffs dfuel (species_names sol) (j_targets J)
                                          (matrices DRGEP sol rops)) ;;
      reduce_drgep J imp sampled t previous
  end.

Definition run (me : method) (A : arith) (floor : A_t A -> bool) (fuel dfuel : nat) (J : job)
           (smp : sampler) (limit : xnum) : M rmodel :=
  match me with
  | DRG => run_drg A floor fuel J smp limit
  | PFA => run_pfa A floor fuel J smp limit
  | DRGEP => run_drgep A floor fuel dfuel J smp limit
  end.

(** The floor each driver uses, for exact thresholds. *)
Definition floor_of (me : method) : Q -> bool :=
  match me with DRG | PFA => floor5 | DRGEP => floor6 end.

(** A mechanism that a job can be run on: targets are species of it. *)
Definition job_ok (J : job) (sol : mech) : Prop :=
  j_targets J <> nil /\ incl (j_targets J) (species_names sol).

(** Models that successive calls with rising thresholds hand to the next
    call: the detailed model, then each result. *)
Inductive history (red : Q -> option rmodel -> M rmodel) (f phase : string) (sol : mech)
  : Q -> rmodel -> Prop :=
| hist_start t e l : history red f phase sol t (mkRM sol f e l)
| hist_step t t' p w r w' :
    history red f phase sol t p -> (t <= t')%Q -> holds w f phase sol ->
    red t' (Some p) w = (Ok r, w') -> history red f phase sol t' r.

(** Nothing but <path>/reduced_<k>.yaml changed. *)
Definition only_outputs (J : job) (w w' : world) : Prop :=
  (forall g, (forall n, g <> out_file J n) -> w_fs w' g = w_fs w g) /\ w_shared w' = w_shared w.

(** The model at threshold [t] evaluates within / above the limit. *)
Definition passes (J : job) (sol : mech) (sampled : list xnum) (limit : xnum) (K : string -> Prop) : Prop :=
  exists m e, cut_to J sol K m /\ error_of (j_conds J) sampled m = Ok e /\ xle e limit = true.
Definition exceeds (J : job) (sol : mech) (sampled : list xnum) (limit : xnum) (K : string -> Prop) : Prop :=
  exists m e, cut_to J sol K m /\ error_of (j_conds J) sampled m = Ok e /\ xgt e limit = true.

(** The path search of DRGEP finishes (it always does with enough fuel). *)
Definition search_ends (me : method) (dfuel : nat) (J : job) (sol : mech) (rops : list (list Q)) : Prop :=
  me = DRGEP -> exists imp,
    get_importance_coeffs dfuel (species_names sol) (j_targets J) (matrices DRGEP sol rops) = Ok imp.

(** The starting thresholds 1/100, 1/1000, … *)
Definition start_at (j : nat) : Q := Nat.iter j (fun t => t / 10)%Q (1 # 100).
Definition times (n : nat) (q : Q) : Q := (inject_Z (Z.of_nat n) * q)%Q.

(** What the documentation of the drivers promises: the starts before the
    [j]-th all give models above the limit; from the [j]-th start on, the
    thresholds 1, 2, …, n times that start all give models within the limit,
    and the next one does not. *)
Definition scanned (J : job) (sol : mech) (sampled : list xnum) (limit : xnum)
           (K : Q -> string -> Prop) (j n : nat) : Prop :=
  (forall i, (i < j)%nat -> exceeds J sol sampled limit (K (start_at i))) /\
  (1 <= n)%nat /\
  (forall i, (1 <= i <= n)%nat -> passes J sol sampled limit (K (times i (start_at j)))) /\
  exceeds J sol sampled limit (K (times (S n) (start_at j))).

(** A driver is called in world [w] on a job whose model file holds [sol];
    sampling succeeds, gives the metrics [sampled] and the rates [rops], and
    leaves the model file alone. *)
Record started (J : job) (smp : sampler) (w : world) (sol : mech)
       (sampled : list xnum) (rops : list (list Q)) (w1 : world) : Prop := {
  st_wf : TrimSpec.wf_mech sol;
  st_file : holds w (j_file J) (j_phase J) sol;
  st_job : job_ok J sol;
  st_apart : input_apart J;
  st_sample : smp w = (Ok (sampled, rops), w1);
  st_file1 : holds w1 (j_file J) (j_phase J) sol
}.

(** The conditions do not look at the name of the phase, the limit is not
    negative, and the detailed model itself evaluates within the limit. *)
Record fair (J : job) (sol : mech) (sampled : list xnum) (limit : xnum) : Prop := {
  fa_blind : name_blind (j_conds J);
  fa_limit : xle (Fin 0) limit = true;
  fa_detailed : exists e, error_of (j_conds J) sampled sol = Ok e /\ xle e limit = true
}.

(** How many starting thresholds a driver tries. *)
Definition starts (me : method) : nat := match me with DRG | PFA => 3 | DRGEP => 4 end.

(** The species that stay at the highest thresholds: the safe ones and, for DRG
    and PFA, the targets. *)
Definition core (me : method) (J : job) (s : string) : Prop :=
  In s (j_safe J) \/ (me <> DRGEP /\ In s (j_targets J)).

(** The upper threshold, when one is given. *)
Definition upper_of (J : job) : Q := match j_upper J with Some u => u | None => 0%Q end.

(** The limbo field of a DRG or PFA result, and of a DRGEP result before the
    driver extends it. *)
Definition limbo_spec (me : method) (J : job) (sol : mech) (rops : list (list Q)) (l : limbo) : Prop :=
  match me with
  | DRG => exists ss, l = Own ss /\
      if truthy (j_upper J)
      then forall s, In s ss <-> exists Mx tgt, In Mx (matrices DRG sol rops) /\ In tgt (j_targets J) /\
                                   reach (species_names sol) Mx (upper_of J) tgt s
      else ss = nil
  | PFA => l = Own nil
  | DRGEP => l = Shared
  end.

(** The species that [run_drgep] adds to the limbo list of the model [m]: those
    of its species that are not safe and less important than the upper
    threshold, in order. *)
Definition drgep_limbo (J : job) (sol : mech) (rops : list (list Q)) (m : mech) (l : list string) : Prop :=
  if truthy (j_upper J) then
    sublist l (species_names m) /\
    forall s, In s l <-> In s (species_names m) /\ ~ In s (j_safe J) /\
                exists v, is_importance (species_names sol) (j_targets J) (matrices DRGEP sol rops) s v /\
                          (v < upper_of J)%Q
  else l = nil.
