(** What the inputs of a file hand to [main], as documented: numbers, names,
    compositions and cases. *)
From Coq Require Import String List QArith ZArith Bool.
From Verif.Base Require Import Py XNum.
From Verif.Model Require Import Mech Drivers Simulation Sampling Inputs Main.
From Verif.Spec Require Import InputSpec.
Import ListNotations.
Local Open Scope string_scope.

(** A number; YAML's truth values count as 1 and 0. *)
Inductive real : yval -> xnum -> Prop :=
| re_num x : real (YNum x) x
| re_int z : real (YInt z) (Fin (inject_Z z))
| re_true : real (YBool true) (Fin 1)
| re_false : real (YBool false) (Fin 0).
Definition finite (v : yval) (q : Q) : Prop := real v (Fin q).
Inductive counted : yval -> Z -> Prop :=
| co_int z : counted (YInt z) z
| co_true : counted (YBool true) 1
| co_false : counted (YBool false) 0.

(** [R], or the value [a] for something that says nothing. *)
Definition or_blank {A} (R : yval -> A -> Prop) (a : A) (v : yval) (x : A) : Prop :=
  (blank v /\ x = a) \/ (~ blank v /\ R v x).
(** A number, or null. *)
Definition maybe (v : yval) (x : option Q) : Prop :=
  (v = YNull /\ x = None) \/ exists q, x = Some q /\ finite v q.
(** A text; null and false are the empty one. *)
Inductive text : yval -> string -> Prop :=
| te_str s : text (YStr s) s
| te_null : text YNull ""
| te_false : text (YBool false) "".
(** A list of names. *)
Definition names (v : yval) (l : list string) : Prop :=
  exists vs, v = YList vs /\ Forall2 (fun v s => v = YStr s) vs l.

(** Amounts of species. *)
Definition quantities (v : yval) (l : dict Q) : Prop :=
  exists d, v = YDict d /\ Forall2 (fun kv sq => fst kv = YStr (fst sq) /\ finite (snd kv) (snd sq)) d l.
Record mixes (x : raw_mix) (m : mixture) : Prop := {
  mi_ratio : or_blank finite 0%Q (rm_ratio x) (x_phi m);
  mi_fuel : or_blank quantities [] (rm_fuel x) (x_fuel m);
  mi_oxidizer : or_blank quantities [] (rm_oxidizer x) (x_oxidizer m);
  mi_reactants : or_blank quantities [] (rm_reactants x) (x_reactants m);
  mi_type : rm_type x = YStr (x_type m)
}.

(** The cases. *)
Record ignites (r : raw_ign) (c : Simulation.in_ign) : Prop := {
  gi_kind : ri_kind r = YStr (ig_kind c);
  gi_T : finite (ri_T r) (ig_T c);
  gi_P : finite (ri_P r) (ig_P c);
  gi_end : or_blank finite 0%Q (ri_end r) (ig_end c);
  gi_steps : or_blank counted 0%Z (ri_steps r) (ig_steps c);
  gi_mix : mixes (ri_mix r) (ig_mix c)
}.
Record stirs (r : raw_psr) (c : Simulation.in_psr) : Prop := {
  gs_T : finite (rp_T r) (ps_T c);
  gs_P : finite (rp_P r) (ps_P c);
  gs_mix : mixes (rp_mix r) (ps_mix c)
}.
Record burns (r : raw_flame) (c : Simulation.in_flame) : Prop := {
  gb_T : finite (rf_T r) (fl_T c);
  gb_P : finite (rf_P r) (fl_P c);
  gb_width : finite (rf_width r) (fl_width c);
  gb_mix : mixes (rf_mix r) (fl_mix c)
}.

(** All cases. *)
Record takes (I : inputs) (C : cases) : Prop := {
  ta_ign : Forall2 ignites (in_ign I) (ca_ign C);
  ta_psr : Forall2 stirs (in_psr I) (ca_psr C);
  ta_flame : Forall2 burns (in_flame I) (ca_flame C)
}.

(** The job of a driver, as far as species are concerned. *)
Record job_from (I : inputs) (J : Drivers.job) : Prop := {
  jf_file : Drivers.j_file J = in_model I;
  jf_phase : Drivers.j_phase J = in_phase I;
  jf_targets : names (in_targets I) (Drivers.j_targets J);
  jf_safe : names (in_safe I) (Drivers.j_safe J)
}.

(** The arguments of [main]: [a], the cases [C], and the smallest flame speed
    that counts as a flame; [p] is the output path. *)
Record hands (I : inputs) (p : string) (a : main_in) (C : cases) (floor : option Q) : Prop := {
  ha_file : a_file a = in_model I;
  ha_limit : real (in_error I) (a_limit a);
  ha_method : text (in_method I) (a_method a);
  ha_targets : names (in_targets I) (a_targets a);
  ha_safe : names (in_safe I) (a_safe a);
  ha_phase : a_phase a = in_phase I;
  ha_sa : a_sa a = true <-> ~ blank (in_sa I);
  ha_upper : maybe (in_upper I) (a_upper a);
  ha_type : text (in_type I) (a_type a);
  ha_path : a_path a = p;
  ha_cases : takes I C;
  ha_floor : maybe (in_floor I) floor
}.
