(** Vocabulary for the properties of the simulation classes. *)
From Coq Require Import String List QArith ZArith Bool.
From Verif.Base Require Import Py Num XNum.
From Verif.Model Require Import Mech World Metrics Simulation.
Import ListNotations.

(** The integrator makes [n] steps without failing. *)
Definition alive (R : reactor) (n : nat) : Prop :=
  forall k, (1 <= k <= n)%nat -> exists p, ra_step R k = Some p.

(** The [k]-th step is the first one that ends at least 400 K above [T0] (this
    sum as the code computes it), at time [t]; the integrator does not fail
    before. *)
Definition ignites {A : calc} (R : reactor) (T0 : Q) (k : nat) (t : Q) : Prop :=
  (1 <= k)%nat /\
  (exists p, ra_step R k = Some p /\ (c_plus T0 400 <= p_T p)%Q /\ p_time p = t) /\
  (forall j, (1 <= j < k)%nat -> exists p, ra_step R j = Some p /\ (p_T p < c_plus T0 400)%Q).

(** The reactor starts at [T0]: 400 K more is the same number, and more than
    the start. *)
Definition starts_at {A : calc} (R : reactor) (T0 : Q) : Prop :=
  (c_plus (p_T (ra_init R)) 400 == c_plus T0 400)%Q /\ (p_T (ra_init R) < c_plus T0 400)%Q.

(** The time at which the [n]-th step ends; 0 is the start. *)
Definition time_at (R : reactor) (n : nat) (t : Q) : Prop :=
  match n with
  | O => t = p_time (ra_init R)
  | _ => exists p, ra_step R n = Some p /\ p_time p = t
  end.

(** The integrator reaches [tend] with the [n]-th step. *)
Definition reaches (R : reactor) (tend : Q) (n : nat) : Prop :=
  (exists t, time_at R n t /\ (tend <= t)%Q) /\
  (forall j, (j < n)%nat -> exists t, time_at R j t /\ (t < tend)%Q).

(** The reactor becomes steady with the [n]-th step. *)
Definition settles (R : reactor) (n : nat) : Prop :=
  (1 <= n)%nat /\ alive R n /\ ra_small R n = true /\ (forall j, (1 <= j < n)%nat -> ra_small R j = false).

(** The points recorded in [n] steps. *)
Definition recorded (R : reactor) (n : nat) (ps : list point) : Prop :=
  exists qs, ps = ra_init R :: qs /\ length qs = n /\
    forall k, (k < n)%nat -> nth_error qs k = ra_step R (S k).

(** Fraction (k+1)/20 of the temperature rise of a profile from [a] to [b] is
    completed at [T]. *)
Definition completed (a b : Q) (k : nat) (T : Q) : Prop :=
  (a + (Z.of_nat (S k) # 20) * (b - a) <= T)%Q.

(** The same with the share of the rise as the code computes it. *)
Definition reached {A : calc} (a b : Q) (k : nat) (T : Q) : Prop :=
  (c_plus a (c_times (c_share k) (c_minus b a)) <= T)%Q.

(** How the first rows of a sample are chosen: [is] are the positions in the
    profile, increasing; the k-th is the first position after the one before at
    which the temperature does what row [k] asks for. *)
Fixpoint picks (hit : nat -> Q -> Prop) (ps : list point) (k : nat) (from : nat) (is : list nat) : Prop :=
  match is with
  | nil => True
  | i :: t =>
      (from <= i)%nat /\
      (exists p, nth_error ps i = Some p /\ hit k (p_T p)) /\
      (forall j p, (from <= j < i)%nat -> nth_error ps j = Some p -> ~ hit k (p_T p)) /\
      picks hit ps (S k) (S i) t
  end.
Notation chosen a b := (picks (completed a b)).

(** The position after the last of the chosen ones. *)
Definition after (is : list nat) : nat := match rev is with nil => O | i :: _ => S i end.

(** The 20 rows sampled from a profile: the chosen states, then zeros when no
    later state completes the share of the next row. *)
Definition sampled_from {A : calc} (ps : list point) (rows : list (list Q)) : Prop :=
  exists p0 rest is, ps = p0 :: rest /\ length rows = 20%nat /\ (length is <= 20)%nat /\
    let hit := reached (p_T p0) (p_T (last ps p0)) in
    picks hit ps 0 0 is /\
    (forall k i, nth_error is k = Some i ->
       exists p, nth_error ps i = Some p /\ nth_error rows k = Some (p_T p :: p_P p :: p_Y p)) /\
    (forall k, (length is <= k < 20)%nat -> nth_error rows k = Some (repeat 0%Q (2 + length (p_Y p0)))) /\
    ((length is < 20)%nat -> forall j p, (after is <= j)%nat -> nth_error ps j = Some p -> ~ hit (length is) (p_T p)).

(** The case sets the amount of species [s]: with an equivalence ratio those of
    fuel and oxidizer, without (0) the reactants. *)
Definition sets (x : mixture) (s : string) : Prop :=
  (~ x_phi x == 0 /\ (In s (dkeys (x_fuel x)) \/ In s (dkeys (x_oxidizer x)))) \/
  (x_phi x == 0 /\ In s (dkeys (x_reactants x))).

(** Every species whose amount the case sets is in the model. *)
Definition supports (x : mixture) (m : mech) : Prop := forall s, sets x s -> In s (species_names m).

(** The flame speed that counts as burning, 5 cm/s unless given. *)
Definition least_speed (given : option Q) : Q := match given with Some q => q | None => 1 # 20 end.

(** The number of steps that case [c] allows: 10000 unless it gives a number. *)
Definition steps_allowed (c : in_ign) : Z := if Z.eqb (ig_steps c) 0 then 10000%Z else ig_steps c.

(** The [k]-th step is made by a run of case [c] that does not stop earlier for
    another reason than ignition. *)
Definition in_reach (R : reactor) (c : in_ign) (k : nat) : Prop :=
  if Qnz (ig_end c) then forall j, (j < k)%nat -> exists t, time_at R j t /\ (t < ig_end c)%Q
  else (Z.of_nat k <= steps_allowed c)%Z.

(** The mixture ignites in case [c]. *)
Definition burns {A : calc} (R : reactor) (c : in_ign) (d : Q) : Prop :=
  exists k, ignites R (ig_T c) k d /\ in_reach R c k.

(** The run of a sampled case ends regularly after [n] steps: at the end time,
    or steady before the last allowed step. *)
Definition ends_after (R : reactor) (c : in_ign) (n : nat) : Prop :=
  if Qnz (ig_end c) then reaches R (ig_end c) n
  else settles R n /\ (Z.of_nat n < steps_allowed c)%Z.

(** All cases can be set up with the model, and the simulators only fail in
    the ways that the code expects of them. *)
Record runnable (Ph : physics) (C : cases) (m : mech) : Prop := {
  ru_ign : forall c, In c (ca_ign C) -> supports (ig_mix c) m /\ (Qnz (ig_end c) = true \/ (0 <= steps_allowed c)%Z);
  ru_psr : forall c, In c (ca_psr C) -> supports (ps_mix c) m /\
    ((exists k, ph_psr Ph c m = Ok k) \/ ph_psr Ph c m = Raise CanteraError \/ ph_psr Ph c m = Raise RuntimeError);
  ru_flame : forall c, In c (ca_flame C) -> supports (fl_mix c) m /\
    ((exists r, ph_flame Ph c m = Ok r) \/ ph_flame Ph c m = Raise CanteraError)
}.

(** Some case has no result: no ignition, no extinction, no burning flame. *)
Definition some_case_fails (Ph : physics) (floor : option Q) (C : cases) (m : mech) : Prop :=
  (exists c, In c (ca_ign C) /\ forall d, ~ burns (A := ph_calc Ph) (ph_reactor Ph c m) c d) \/
  (exists c e, In c (ca_psr C) /\ ph_psr Ph c m = Raise e) \/
  (exists c, In c (ca_flame C) /\
     ((exists e, ph_flame Ph c m = Raise e) \/
      (exists v ps, ph_flame Ph c m = Ok (v, ps) /\ xle v (Fin (least_speed floor)) = true))).

(** How many metrics the cases give. *)
Definition n_metrics (C : cases) : nat := (length (ca_ign C) + 3 * length (ca_psr C) + length (ca_flame C))%nat.
