(** Vocabulary for the properties of sampling. *)
From Coq Require Import String List QArith ZArith Bool.
From Verif.Base Require Import Py Num XNum Paths.
From Verif.Model Require Import Mech World Metrics Simulation Sampling.
From Verif.Model Require Drivers.
From Verif.Spec Require Import SimSpec.
Import ListNotations.
Local Open Scope string_scope.

(** The six files in which samples are kept. *)
Definition sample_files : list string :=
  ["ignition_data.dat"; "ignition_output.txt"; "psr_data.dat"; "psr_output.txt"; "laminarflame_data.dat"; "laminarflame_output.txt"].

(** The intermediate files of [n] ignition runs. *)
Definition scratch (path : string) (n : nat) (f : string) : Prop := exists i, (i < n)%nat /\ f = path_join path (Drivers.str_nat i ++ ".h5").

(** The model file is none of the files that sampling writes. *)
Definition model_apart (path : string) (C : cases) (model : string) : Prop :=
  ~ scratch path (length (ca_ign C)) model /\ ~ In model sample_files.

(** No samples are saved. *)
Definition fresh (w : world) : Prop := forall f, In f sample_files -> w_fs w f = None.

Definition same_files (w w' : world) : Prop := forall f, w_fs w f = w_fs w' f.

(** What a case gives, in terms of the simulators: the delay is the end of the
    first step 400 K above the start, the rows are taken from the recorded
    states. *)
Definition ign_gives (fuel : nat) (Ph : physics) (m : mech) (c : in_ign) (x : case_result) : Prop :=
  let R := ph_reactor Ph c m in
  supports (ig_mix c) m /\
  exists n k d ps rows,
    ends_after R c n /\ (Qnz (ig_end c) = true -> (n <= fuel)%nat) /\
    (k <= n)%nat /\ ignites (A := ph_calc Ph) R (ig_T c) k d /\
    recorded R n ps /\ sampled_from (A := ph_calc Ph) ps rows /\
    x = ([Fin d], map (map Fin) rows).

(** Three metrics: residence time at extinction, temperatures at the two other
    points; the rows are the three states. *)
Definition psr_gives (Ph : physics) (m : mech) (c : in_psr) (x : case_result) : Prop :=
  supports (ps_mix c) m /\
  exists k, ph_psr Ph c m = Ok k /\
    x = ([pp_tau (pc_ext k); pp_T (pc_mid k); pp_T (pc_near k)],
         map (fun p => pp_T p :: Fin (c_times (calc := ph_calc Ph) (ps_P c) 101325) :: pp_Y p) [pc_ext k; pc_mid k; pc_near k]).

(** The flame speed, above the floor. *)
Definition flame_gives (Ph : physics) (floor : option Q) (m : mech) (c : in_flame) (x : case_result) : Prop :=
  supports (fl_mix c) m /\
  exists v ps rows, ph_flame Ph c m = Ok (v, ps) /\ xle v (Fin (least_speed floor)) = false /\
    sampled_from (A := ph_calc Ph) ps rows /\ x = ([v], map (map Fin) rows).

(** Results of several cases, one after another. *)
Definition together (xs : list case_result) : case_result := (concat (map fst xs), concat (map snd xs)).

(** The reactors start at the temperature of the case. *)
Definition starts_right (Ph : physics) (C : cases) (m : mech) : Prop :=
  forall c, In c (ca_ign C) -> starts_at (A := ph_calc Ph) (ph_reactor Ph c m) (ig_T c).

(** What the simulators report has one mass fraction per species. *)
Record shaped (Ph : physics) (C : cases) (m : mech) : Prop := {
  sh_ign : forall c, In c (ca_ign C) ->
    length (p_Y (ra_init (ph_reactor Ph c m))) = n_species m /\
    forall k p, ra_step (ph_reactor Ph c m) k = Some p -> length (p_Y p) = n_species m;
  sh_psr : forall c k, In c (ca_psr C) -> ph_psr Ph c m = Ok k ->
    forall p, In p [pc_ext k; pc_mid k; pc_near k] -> length (pp_Y p) = n_species m;
  sh_flame : forall c v ps, In c (ca_flame C) -> ph_flame Ph c m = Ok (v, ps) ->
    forall p, In p ps -> length (p_Y p) = n_species m
}.

(** The results [xi], [xp], [xf] of the three kinds of cases. *)
Definition measured (fuel : nat) (Ph : physics) (floor : option Q) (C : cases) (m : mech)
           (xi xp xf : list case_result) : Prop :=
  Forall2 (ign_gives fuel Ph m) (ca_ign C) xi /\
  Forall2 (psr_gives Ph m) (ca_psr C) xp /\
  Forall2 (flame_gives Ph floor m) (ca_flame C) xf.

(** Samples [x] of a kind are saved in the two files; nothing if there are no
    cases of that kind. *)
Definition saved (w : world) (data output : string) (x : case_result) : Prop :=
  w_fs w data = Some (FTable (snd x)) /\ w_fs w output = Some (FNums (fst x)).
Definition saved_for {A} (cs : list A) (w : world) (data output : string) (x : case_result) : Prop :=
  match cs with nil => w_fs w data = None /\ w_fs w output = None | _ => saved w data output x end.

(** The last number of a complete output file is cut short. *)
Definition cut_short (torn : xnum -> list xnum) (v : world) (output : string) (metrics : list xnum) : Prop :=
  exists l x y, metrics = (l ++ [x])%list /\ In y (torn x) /\ w_fs v output = Some (FNums (l ++ [y])%list).

(** A table of numbers: at least two rows, all of the same length, which is at
    least two. *)
Definition table (rows : list (list xnum)) : Prop :=
  (2 <= length rows)%nat /\ exists n, (2 <= n)%nat /\ forall r, In r rows -> length r = n.

(** The two files hold [x], with as many metrics, rows and columns as cases of
    that kind would give; [x] is empty if there are none. *)
Definition looks_saved {A} (cs : list A) (metrics rows : nat) (m : mech) (w : world) (data output : string)
           (x : case_result) : Prop :=
  match cs with
  | nil => x = (nil, nil)
  | _ =>
      w_fs w data = Some (FTable (snd x)) /\ w_fs w output = Some (FNums (fst x)) /\
      length (fst x) = (metrics * length cs)%nat /\ length (snd x) = (rows * length cs)%nat /\
      forall r, In r (snd x) -> length r = (2 + n_species m)%nat
  end.
