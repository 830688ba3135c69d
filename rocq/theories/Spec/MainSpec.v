(** Vocabulary for the properties of the whole program. *)
From Coq Require Import String List QArith Bool.
From Verif.Base Require Import Py Num XNum Paths.
From Verif.Model Require Import Mech World Metrics Drivers Sensitivity Simulation Sampling Main.
From Verif.Spec Require Import TrimSpec MetricSpec DriverSpec SensitivitySpec SimSpec SamplingSpec.
Import ListNotations.
Local Open Scope string_scope.

Definition method_name (me : method) : string :=
  match me with DRG => "DRG" | PFA => "PFA" | DRGEP => "DRGEP" end.

(** The directory is not where results are written. *)
Definition outputs_apart (path d : string) : Prop := forall n, under d (path_join path (reduced_name n)) = false.

(** The temporary directories are empty and not where results are written. *)
Definition temps_ok (w : world) (path : string) (B : limits) : Prop :=
  temps w (b_tmp B) (b_tmp2 B) /\ outputs_apart path (b_tmp B) /\ outputs_apart path (b_tmp2 B).

(** Sensitivity analysis is harmless for targets and safe species: after DRG
    only without upper threshold, after DRGEP with an upper threshold of at
    most 1 in a process that has not used DRGEP before. *)
Definition limbo_harmless (me : method) (a : main_in) (w : world) : Prop :=
  match me with
  | DRG => truthy (a_upper a) = false
  | PFA => True
  | DRGEP => w_shared w = nil /\ forall u, a_upper a = Some u -> (u <= 1)%Q
  end.

(** The simulators do not look at the name of the phase. *)
Definition physics_blind (Ph : physics) : Prop :=
  forall m m', same_content m m' ->
    (forall c, ph_reactor Ph c m = ph_reactor Ph c m') /\
    (forall c, ph_flame Ph c m = ph_flame Ph c m') /\
    (forall c, ph_psr Ph c m = ph_psr Ph c m').

(** A directory from which [main] can start: the model file holds [sol] and is
    not one of the files that get written, nothing is saved; simulators behave
    as such. *)
Record prepared (K : machine) (C : cases) (a : main_in) (w : world) (sol : mech) : Prop := {
  rd_wf : wf_mech sol;
  rd_file : holds w (a_file a) (a_phase a) sol;
  rd_targets : a_targets a <> nil /\ incl (a_targets a) (species_names sol);
  rd_apart : forall n, path_join (a_path a) (reduced_name n) <> a_file a;
  rd_samples : model_apart (a_path a) C (a_file a);
  rd_fresh : fresh w;
  rd_shaped : shaped (k_physics K) C sol;
  rd_starts : starts_right (k_physics K) C sol;
  rd_blind : physics_blind (k_physics K);
  rd_limit : xle (Fin 0) (a_limit a) = true
}.

(** The detailed model gives at least one metric, and its metrics are positive
    numbers. *)
Definition well_posed (K : machine) (floor : option Q) (C : cases) (sol : mech) : Prop :=
  forall ts, metrics_of (conds_of (k_fuel K) (k_physics K) floor C) sol = Ok ts ->
    ts <> nil /\ forall x, In x ts -> MetricSpec.positive x.

(** A species of the mixture of some case. *)
Definition in_mixture (C : cases) (s : string) : Prop :=
  (exists c, In c (ca_ign C) /\ sets (ig_mix c) s) \/
  (exists c, In c (ca_psr C) /\ sets (ps_mix c) s) \/
  (exists c, In c (ca_flame C) /\ sets (fl_mix c) s).
