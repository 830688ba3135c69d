(** What one reduction step does. *)
From Coq Require Import String List QArith Bool Arith Lia.
From Verif.Base Require Import Py Num XNum Paths.
From Verif.Model Require Import Mech Matrices Graph World Metrics Drivers.
From Verif.Spec Require Import TrimSpec GraphSpec DriverSpec.
From Verif.Proofs Require Import PyFacts NumFacts TrimFacts.
Import ListNotations.
Local Open Scope string_scope.

(** [w'] is [w] after writing [m] to [f]. *)
Definition wrote (w : world) (f : string) (m : mech) (w' : world) : Prop :=
  (forall g, w_fs w' g = if String.eqb g f then Some (FMech [m]) else w_fs w g) /\
  w_shared w' = w_shared w.

Lemma mapM_app {A B} (f : A -> res B) a b :
  mapM f (a ++ b)%list = bind (mapM f a) (fun x => bind (mapM f b) (fun y => Ok (x ++ y)%list)).
Proof.
  induction a as [|x a IH]; simpl.
  - destruct (mapM f b); reflexivity.
  - destruct (f x); simpl; auto. rewrite IH. destruct (mapM f a); simpl; auto.
    destruct (mapM f b); reflexivity.
Qed.

Lemma load_holds w f ph sol : holds w f ph sol -> load f ph w = (Ok sol, w).
Proof. intros (phs & E & P). unfold load, mbind, get_file. rewrite E. unfold mlift. now rewrite P. Qed.

Lemma load_ok w f ph r w' : load f ph w = (Ok r, w') -> w' = w /\ holds w f ph r.
Proof.
  unfold load, mbind, get_file, mlift, mraise. destruct (w_fs w f) as [[phs| | | |]|] eqn:E; intros H; try discriminate.
  injection H as P <-. split; auto. exists phs. auto.
Qed.

Lemma load_same w f ph : snd (load f ph w) = w.
Proof.
  unfold load, mbind, get_file, mlift, mraise. destruct (w_fs w f) as [[phs| | | |]|] eqn:E; reflexivity.
Qed.

Lemma jobs_eq w f ph m cases : holds w f ph m ->
  run_metric_jobs f ph cases w =
  (bind (mapM (fun c : cond => c m) cases) (fun ls => Ok (concat ls)), w).
Proof.
  intros H. unfold run_metric_jobs. unfold mbind at 1.
  assert (mmap (fun c : cond => sol <- load f ph;; mlift (c sol)) cases w
          = (mapM (fun c : cond => c m) cases, w)) as ->.
  { induction cases as [|c cs IH]; simpl; auto. unfold mbind at 1. unfold mbind at 1.
    rewrite (load_holds _ _ _ _ H). unfold mlift at 1. destruct (c m); simpl; auto.
    unfold mbind at 1. rewrite IH. destruct (mapM _ cs); reflexivity. }
  destruct (mapM _ cases); reflexivity.
Qed.

Lemma part_eq w f ph m cases out init k : holds w f ph m ->
  metrics_part f ph cases out init k false w =
  (bind (mapM (fun c : cond => c m) cases) (fun ls => Ok (concat ls)), w).
Proof.
  intros H. unfold metrics_part. destruct cases; [reflexivity|].
  unfold mbind, is_file, mret. simpl andb. cbv iota. now apply jobs_eq.
Qed.

Lemma sample_metrics_eq w f ph m cs : holds w f ph m ->
  sample_metrics f ph cs false w = (metrics_of cs m, w).
Proof.
  intros H. unfold sample_metrics, metrics_of, mbind.
  rewrite (part_eq w f ph m _ _ _ _ H). rewrite !mapM_app.
  destruct (mapM (fun c : cond => c m) (c_ign cs)) as [i|e|]; simpl; auto.
  rewrite (part_eq w f ph m _ _ _ _ H).
  destruct (mapM (fun c : cond => c m) (c_psr cs)) as [p|e|]; simpl; auto.
  rewrite (part_eq w f ph m _ _ _ _ H).
  destruct (mapM (fun c : cond => c m) (c_flame cs)) as [l|e|]; simpl; auto.
  unfold mret. rewrite !concat_app. reflexivity.
Qed.

Lemma wrote_holds w f m w' ph : wrote w f m w' -> pick_phase [m] ph = Ok m -> holds w' f ph m.
Proof.
  intros [W _] P. exists [m]. split; auto. rewrite W, String.eqb_refl. reflexivity.
Qed.

Lemma yaml_write_eq w m name path : name <> "" ->
  exists w', yaml_write m name path w = (Ok (path_join path name), w') /\
             wrote w (path_join path name) m w'.
Proof.
  intros N. unfold yaml_write. apply String.eqb_neq in N. rewrite N. set (f := path_join path name).
  unfold mbind, is_file. destruct (w_fs w f) as [c|] eqn:E.
  - unfold remove_file. rewrite E. unfold put_file, mret. eexists. split; [reflexivity|].
    split; [|reflexivity]. intros g. simpl. unfold fs_set. destruct (String.eqb g f); reflexivity.
  - unfold put_file, mret. eexists. split; [reflexivity|].
    split; [|reflexivity]. intros g. simpl. unfold fs_set. destruct (String.eqb g f); reflexivity.
Qed.

Lemma trim_phase sol excl f ph m : trim_mech sol excl f ph = Ok m -> pick_phase [m] ph = Ok m.
Proof.
  unfold trim_mech, pick_phase. destruct (trim_species sol excl); [discriminate|]. intros H.
  injection H as <-. destruct (String.eqb ph "") eqn:E; auto. simpl. now rewrite String.eqb_refl.
Qed.

Lemma reduced_name_nonempty n : reduced_name n <> "".
Proof. discriminate. Qed.

Definition cut_removing (J : job) (sol : mech) (removed : list string) : res mech :=
  trim_mech sol removed ("reduced_" ++ j_file J) (j_phase J).

Lemma cut_and_score_eq J sampled removed w sol : holds w (j_file J) (j_phase J) sol ->
  match cut_removing J sol removed with
  | Ok m => exists w', wrote w (out_file J (n_species m)) m w' /\
      cut_and_score J sampled removed w =
      (bind (error_of (j_conds J) sampled m) (fun e => Ok (m, out_file J (n_species m), e)), w')
  | Raise e => cut_and_score J sampled removed w = (Raise e, w)
  | NoFuel => cut_and_score J sampled removed w = (NoFuel, w)
  end.
Proof.
  intros H.
  assert (trim (j_file J) removed ("reduced_" ++ j_file J) (j_phase J) w = (cut_removing J sol removed, w)) as T.
  { unfold trim, mbind. now rewrite (load_holds _ _ _ _ H). }
  unfold cut_and_score.
  destruct (cut_removing J sol removed) as [m|e|] eqn:E; [|unfold mbind; now rewrite T|unfold mbind; now rewrite T].
  destruct (yaml_write_eq w m (reduced_name (n_species m)) (j_path J) (reduced_name_nonempty _)) as (w' & Y & W).
  exists w'. split; auto. unfold mbind. rewrite T, Y.
  rewrite (sample_metrics_eq w' _ _ m).
  2: { apply wrote_holds with w; auto. eapply trim_phase. exact E. }
  unfold error_of. destruct (metrics_of (j_conds J) m); simpl; auto. unfold mlift.
  destruct (c_error (j_conds J) sampled a); reflexivity.
Qed.

(** The common shape of the three reduction steps. *)
Definition is_step (J : job) (sol : mech) (sampled : list xnum)
           (red : Q -> option rmodel -> M rmodel) (K : Q -> string -> Prop)
           (short : Q -> rmodel -> bool) (lb : res limbo) : Prop :=
  forall t, exists removed,
    (forall s, In s (species_names sol) -> (~ In s removed <-> K t s)) /\
    forall prev w, holds w (j_file J) (j_phase J) sol ->
      (exists p, prev = Some p /\ short t p = true /\ red t prev w = (Ok p, w)) \/
      ((forall p, prev = Some p -> short t p = false) /\
       match cut_removing J sol removed with
       | Ok m => exists w', wrote w (out_file J (n_species m)) m w' /\
           red t prev w =
           (bind (error_of (j_conds J) sampled m) (fun e =>
              bind lb (fun l => Ok (mkRM m (out_file J (n_species m)) e l))), w')
       | Raise e => red t prev w = (Raise e, w)
       | NoFuel => False
       end).

(** Equal counts mean equal sets, for models that hold what is to be kept. *)
Definition short_sound (sol : mech) (K : Q -> string -> Prop) (short : Q -> rmodel -> bool) : Prop :=
  forall t p, short t p = true ->
    NoDup (species_names (r_model p)) -> incl (species_names (r_model p)) (species_names sol) ->
    (forall s, In s (species_names sol) -> K t s -> In s (species_names (r_model p))) ->
    forall s, In s (species_names (r_model p)) -> K t s.

Lemma not_in_spec names keep s : In s (not_in names keep) <-> In s names /\ ~ In s keep.
Proof.
  unfold not_in. rewrite filter_In. rewrite negb_true_iff. rewrite str_in_false. tauto.
Qed.

Lemma cut_removing_total J sol removed : cut_removing J sol removed <> NoFuel.
Proof. unfold cut_removing, trim_mech. destruct (trim_species sol removed); discriminate. Qed.

Lemma names_length (m : mech) : length (species_names m) = n_species m.
Proof. unfold species_names, n_species. apply map_length. Qed.
