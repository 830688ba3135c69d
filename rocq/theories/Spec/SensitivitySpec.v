(** Vocabulary for the properties of sensitivity analysis. *)
From Coq Require Import String List QArith Bool Arith.
From Verif.Base Require Import Py Num XNum Paths.
From Verif.Model Require Import Mech World Metrics Drivers Sensitivity.
From Verif.Spec Require Import TrimSpec DriverSpec.
Import ListNotations.
Local Open Scope string_scope.

(** A directory name: not empty and not ending in a slash. *)
Definition dir_name (d : string) : Prop := exists c, last_char d = Some c /\ c <> slash.

(** Two temporary directories: neither is inside the other and nothing is in
    them. *)
Record temps (w : world) (tmp tmp2 : string) : Prop := {
  te_name : dir_name tmp;
  te_name2 : dir_name tmp2;
  te_apart : forall f, under tmp f = true -> under tmp2 f = false;
  te_fresh : forall f, under tmp f = true -> w_fs w f = None;
  te_fresh2 : forall f, under tmp2 f = true -> w_fs w f = None
}.

(** [run_sa] is called in a world where the model file holds [sol]. *)
Record sa_started (K : sa_job) (w : world) (tmp tmp2 : string) (sol : mech) : Prop := {
  sa_wf : wf_mech sol;
  sa_file : holds w (s_file K) (s_phase K) sol;
  sa_temps : temps w tmp tmp2
}.

(** The list that the argument [species_limbo] refers to. *)
Definition given_limbo (w : world) (lim : limbo) : list string :=
  match lim with Shared => w_shared w | Own l => l end.

(** The species that [run_sa] considers: those given, or if none are given all
    that are not safe, in model order. *)
Definition candidates (K : sa_job) (w : world) (sol : mech) (l : list string) : Prop :=
  (l = given_limbo w (s_limbo K) /\ l <> nil) \/
  (given_limbo w (s_limbo K) = nil /\ sublist l (species_names sol) /\
   forall s, In s l <-> In s (species_names sol) /\ ~ In s (s_safe K)).

(** Removing the species of a list one after the other. *)
Inductive removals (phase : string) : mech -> list string -> mech -> Prop :=
| rem_nil m : removals phase m nil m
| rem_cons m s m1 l m' :
    trim_mech m [s] ("reduced_model_" ++ s ++ ".yaml") phase = Ok m1 ->
    removals phase m1 l m' -> removals phase m (s :: l) m'.

(** The metrics that errors are measured against, for the conditions [cases] of
    one kind with [each] metrics per condition: those saved in the file [out] if
    their number is right; without file, zeros for the kinds with one metric per
    condition; otherwise those of the model [m] that is being reduced. *)
Inductive reference_for (m : mech) (cases : list cond) (w : world) (out : string) (each : nat) : list xnum -> Prop :=
| ref_none : cases = nil -> reference_for m cases w out each nil
| ref_saved l : cases <> nil -> w_fs w out = Some (FNums l) -> length l = (each * length cases)%nat ->
    reference_for m cases w out each l
| ref_zeros : cases <> nil -> w_fs w out = None -> each = 1%nat ->
    reference_for m cases w out each (repeat (Fin 0) (length cases))
| ref_wrong_number l ls : cases <> nil -> w_fs w out = Some (FNums l) -> length l <> (each * length cases)%nat ->
    Forall2 (fun (c : cond) x => c m = Ok x) cases ls -> reference_for m cases w out each (concat ls)
| ref_evaluated ls : cases <> nil -> w_fs w out = None -> each = 3%nat ->
    Forall2 (fun (c : cond) x => c m = Ok x) cases ls -> reference_for m cases w out each (concat ls).

Definition reference (K : sa_job) (w : world) (ref : list xnum) : Prop :=
  exists m (i p f : list xnum), holds w (s_file K) (s_phase K) m /\ ref = (i ++ p ++ f)%list /\
    reference_for m (c_ign (s_conds K)) w "ignition_output.txt" 1 i /\
    reference_for m (c_psr (s_conds K)) w "psr_output.txt" 3 p /\
    reference_for m (c_flame (s_conds K)) w "laminarflame_output.txt" 1 f.

(** The error of [m] without [s]. *)
Definition error_without (K : sa_job) (ref : list xnum) (m : mech) (s : string) (e : xnum) : Prop :=
  exists m', removals (s_phase K) m [s] m' /\ error_of (s_conds K) ref m' = Ok e.

(** Every way of removing candidates gives a model within the limit. *)
Definition all_removable (K : sa_job) (sol : mech) (ref : list xnum) (cands : list string) : Prop :=
  forall l m, l <> nil -> incl l cands -> removals (s_phase K) sol l m ->
    exists e, error_of (s_conds K) ref m = Ok e /\ xgt e (s_limit K) = false.

(** Why sensitivity analysis stopped at the model [m]: nothing is left; the
    candidate [tried] last is over the limit; or, with the greedy algorithm,
    no remaining candidate is within it. *)
Definition stopped (K : sa_job) (ref : list xnum) (m : mech) (tried rest : list string) : Prop :=
  (tried = nil /\ rest = nil) \/
  (exists s e, tried = [s] /\ error_without K ref m s e /\ xgt e (s_limit K) = true) \/
  (s_alg K = Greedy /\ tried = nil /\ rest <> nil /\
   forall s, In s rest -> exists e, error_without K ref m s e /\ xle e (s_limit K) = false).
