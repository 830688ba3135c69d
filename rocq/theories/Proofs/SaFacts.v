(** Sensitivity analysis as a pure computation. *)
From Coq Require Import String Ascii List QArith Bool Arith Lia Permutation.
From Verif.Base Require Import Py Num XNum Paths.
From Verif.Model Require Import Mech World Metrics Drivers Sensitivity.
From Verif.Spec Require Import TrimSpec DriverSpec SensitivitySpec.
From Verif.Proofs Require Import PyFacts NumFacts TrimFacts StepFacts.
Import ListNotations.
Local Open Scope string_scope.

(** ** Names *)

Lemma app_assoc_str a b c : ((a ++ b) ++ c = a ++ b ++ c)%string.
Proof. induction a; simpl; congruence. Qed.

Lemma prefix_app a b : prefix a (a ++ b) = true.
Proof. induction a as [|c a IH]; simpl; [destruct b; reflexivity|]. destruct (ascii_dec c c); congruence. Qed.

Lemma join_test d sp : dir_name d -> path_join d (test_name sp) = d ++ "/" ++ test_name sp.
Proof.
  intros (c & L & N). unfold path_join, test_name. simpl append at 1. cbv iota.
  change (Ascii.eqb "r" slash) with false. cbv iota. rewrite L.
  destruct (Ascii.eqb c slash) eqn:E; [apply Ascii.eqb_eq in E; contradiction|reflexivity].
Qed.

Lemma under_test d sp : dir_name d -> under d (path_join d (test_name sp)) = true.
Proof.
  intros H. rewrite join_test; auto. unfold under. rewrite <- app_assoc_str. apply prefix_app.
Qed.

(** ** One trial *)

Definition without (ph : string) (m : mech) (sp : string) : res mech := trim_mech m [sp] (test_name sp) ph.
Definition score (ph : string) (cs : conds) (ref : list xnum) (m : mech) (sp : string) : res xnum :=
  bind (without ph m sp) (error_of cs ref).

Lemma try_eq d f ph cs ref sp w m : holds w f ph m ->
  match without ph m sp with
  | Ok m' => exists w', wrote w (path_join d (test_name sp)) m' w' /\
      try_without d f ph cs ref sp w =
      (bind (error_of cs ref m') (fun e => Ok (m', path_join d (test_name sp), e)), w')
  | Raise e => try_without d f ph cs ref sp w = (Raise e, w)
  | NoFuel => try_without d f ph cs ref sp w = (NoFuel, w)
  end.
Proof.
  intros H.
  assert (trim f [sp] (test_name sp) ph w = (without ph m sp, w)) as T.
  { unfold trim, mbind. now rewrite (load_holds _ _ _ _ H). }
  unfold try_without.
  destruct (without ph m sp) as [m'|e|] eqn:E; [|unfold mbind; now rewrite T|unfold mbind; now rewrite T].
  destruct (yaml_write_eq w m' (test_name sp) d) as (w' & Y & W); [discriminate|].
  exists w'. split; auto. unfold mbind. rewrite T, Y.
  rewrite (sample_metrics_eq w' _ _ m').
  2: { apply wrote_holds with w; auto. eapply trim_phase. exact E. }
  unfold error_of. destruct (metrics_of cs m'); simpl; auto. unfold mlift.
  destruct (c_error cs ref a); reflexivity.
Qed.

(** Agreement outside a directory. *)
Definition agree (d : string) (w w' : world) : Prop :=
  (forall g, under d g = false -> w_fs w' g = w_fs w g).

Lemma agree_refl d w : agree d w w.
Proof. intros g _. reflexivity. Qed.
Lemma agree_trans d w1 w2 w3 : agree d w1 w2 -> agree d w2 w3 -> agree d w1 w3.
Proof. intros A B g H. rewrite B, A; auto. Qed.
Lemma agree_holds d w w' f ph m : agree d w w' -> under d f = false -> holds w f ph m -> holds w' f ph m.
Proof. intros A U (p & E & P). exists p. rewrite A; auto. Qed.
Lemma wrote_agree d w sp m w' : dir_name d -> wrote w (path_join d (test_name sp)) m w' -> agree d w w'.
Proof.
  intros D [W _] g U. rewrite W. destruct (String.eqb_spec g (path_join d (test_name sp))) as [->|]; auto.
  now rewrite under_test in U.
Qed.

Lemma eval_map d f ph cs ref m : dir_name d -> under d f = false -> forall l w, holds w f ph m ->
  exists w', mmap (fun sp => r <- try_without d f ph cs ref sp ;; mret (snd r)) l w
             = (mapM (score ph cs ref m) l, w') /\ agree d w w' /\ w_shared w' = w_shared w.
Proof.
  intros D U. induction l as [|sp l IH]; intros w H; simpl.
  - exists w. repeat split. 
  - unfold mbind at 1. unfold mbind at 1. pose proof (try_eq d f ph cs ref sp w m H) as T. unfold score at 1.
    destruct (without ph m sp) as [m'|e|].
    + destruct T as (w1 & W & T). rewrite T. simpl bind.
      assert (agree d w w1) as A1 by (eapply wrote_agree; eauto). destruct W as [_ Sh].
      destruct (error_of cs ref m') as [e|e|]; simpl; [|exists w1; auto|exists w1; auto].
      unfold mbind at 1. destruct (IH w1) as (w2 & E & A2 & Sh2); [eapply agree_holds; eauto|].
      rewrite E. exists w2. split; [|split; [eapply agree_trans; eauto|congruence]].
      destruct (mapM (score ph cs ref m) l); reflexivity.
    + rewrite T. exists w. repeat split.
    + rewrite T. exists w. repeat split.
Qed.

(** The same files and the same shared list. *)
Definition same_world (w w' : world) : Prop :=
  (forall g, w_fs w' g = w_fs w g) /\ w_shared w' = w_shared w.

Lemma evaluate_eq d f ph cs ref m l w : dir_name d -> under d f = false -> holds w f ph m ->
  (forall g, under d g = true -> w_fs w g = None) ->
  exists w', evaluate_species_errors d f ph cs ref l w = (mapM (score ph cs ref m) l, w') /\ same_world w w'.
Proof.
  intros D U H F. destruct (eval_map d f ph cs ref m D U l w H) as (w' & E & A & Sh).
  unfold evaluate_species_errors, with_temp. rewrite E. eexists. split; [reflexivity|].
  split; simpl; auto. intros g. destruct (under d g) eqn:G; [now rewrite F|auto].
Qed.

(** ** The loop *)

Definition choose (far : xnum -> xnum -> xnum) (err : xnum) (errs : list xnum) : nat := argmin (map (fun e => far e err) errs).

Fixpoint p_loop (fuel : nat) (K : sa_job) (ref : list xnum) (m : mech) (err : xnum)
         (errs : list xnum) (limbo : list string) : res (mech * xnum * list string) :=
  match limbo with
  | nil => Ok (m, err, nil)
  | _ =>
      match fuel with
      | O => NoFuel
      | S fuel =>
          match nth_error limbo (choose (s_far K) err errs) with
          | None => Raise IndexError
          | Some sp =>
              let rest := delete_at (choose (s_far K) err errs) limbo in
              bind (without (s_phase K) m sp) (fun m' =>
              bind (error_of (s_conds K) ref m') (fun e =>
              if xgt e (s_limit K) then Ok (m, err, rest)
              else match s_alg K with
                   | Initial => p_loop fuel K ref m' e (delete_at (choose (s_far K) err errs) errs) rest
                   | Greedy =>
                       bind (mapM (score (s_phase K) (s_conds K) ref m') rest) (fun errs' =>
                       bind (py_min errs') (fun least =>
                       if xgt least (s_limit K) then Ok (m', e, rest)
                       else p_loop fuel K ref m' e errs' rest))
                   end))
          end
      end
  end.

Lemma loop_eq K shared tmp tmp2 ref :
  dir_name tmp -> dir_name tmp2 -> (forall f, under tmp f = true -> under tmp2 f = false) ->
  forall fuel limbo errs cur w,
    holds w (r_file cur) (s_phase K) (r_model cur) -> under tmp2 (r_file cur) = false ->
    r_limbo cur = Shared ->
    (forall g, under tmp2 g = true -> w_fs w g = None) ->
    (shared = true -> w_shared w = limbo) ->
    exists w' f, agree tmp w w' /\ (shared = false -> w_shared w' = w_shared w) /\
      (forall m e rest, p_loop fuel K ref (r_model cur) (r_error cur) errs limbo = Ok (m, e, rest) ->
         shared = true -> w_shared w' = rest) /\
      sa_loop fuel K shared tmp tmp2 ref cur errs limbo w =
      (bind (p_loop fuel K ref (r_model cur) (r_error cur) errs limbo) (fun x =>
         Ok (mkRM (fst (fst x)) f (snd (fst x)) Shared)), w').
Proof.
  intros D D2 AP.
  induction fuel as [|fuel IH]; intros limbo errs cur w H U2 SL FR SH.
  - exists w, (r_file cur). split; [apply agree_refl|]. split; auto. destruct limbo; simpl; [|split; [discriminate|reflexivity]].
    split; [intros m e rest X; injection X as <- <- <-; auto|]. destruct cur; simpl in *; subst; reflexivity.
  - destruct limbo as [|x lim].
    { exists w, (r_file cur). split; [apply agree_refl|]. split; auto. simpl.
      split; [intros m e rest X; injection X as <- <- <-; auto|]. destruct cur; simpl in *; subst; reflexivity. }
    remember (x :: lim) as limbo eqn:EL.
    assert (forall A (a b : A), match limbo with nil => a | _ :: _ => b end = b) as NE by (subst; auto).
    cbn [sa_loop p_loop]. rewrite !NE. fold (choose (s_far K) (r_error cur) errs).
    destruct (nth_error limbo (choose (s_far K) (r_error cur) errs)) as [sp|] eqn:Nth.
    2: { exists w, "". split; [apply agree_refl|]. split; auto. split; [discriminate|reflexivity]. }
    set (rest := delete_at (choose (s_far K) (r_error cur) errs) limbo).
    unfold mbind at 1. unfold set_limbo. cbv iota.
    set (w1 := if shared then mkWorld (w_fs w) rest else w).
    assert (w_fs w1 = w_fs w) as F1 by (unfold w1; destruct shared; reflexivity).
    assert (holds w1 (r_file cur) (s_phase K) (r_model cur)) as H1.
    { destruct H as (p & E & P). exists p. rewrite F1. auto. }
    assert (agree tmp w w1) as A1 by (intros g _; now rewrite F1).
    assert (shared = false -> w_shared w1 = w_shared w) as S1f by (unfold w1; destruct shared; [discriminate|auto]).
    assert (shared = true -> w_shared w1 = rest) as S1t by (unfold w1; destruct shared; [auto|discriminate]).
    unfold mbind at 1. pose proof (try_eq tmp (r_file cur) (s_phase K) (s_conds K) ref sp w1 (r_model cur) H1) as T.
    destruct (without (s_phase K) (r_model cur) sp) as [m'|x0|] eqn:EW.
    2: { rewrite T. exists w1, "". split; auto. split; auto. split; [discriminate|reflexivity]. }
    2: { rewrite T. exists w1, "". split; auto. split; auto. split; [discriminate|reflexivity]. }
    destruct T as (w2 & W & T). rewrite T. cbn [bind].
    pose proof (wrote_holds _ _ _ _ (s_phase K) W (trim_phase _ _ _ _ _ EW)) as H2.
    pose proof (wrote_agree _ _ _ _ _ D W) as A2. destruct W as [W2 Sh2].
    assert (agree tmp w w2) as A12 by (eapply agree_trans; eauto).
    destruct (error_of (s_conds K) ref m') as [e|x0|]; cbn [bind].
    2: { exists w2, "". split; auto. split; [rewrite Sh2; auto|]. split; [discriminate|reflexivity]. }
    2: { exists w2, "". split; auto. split; [rewrite Sh2; auto|]. split; [discriminate|reflexivity]. }
    destruct (xgt e (s_limit K)) eqn:G.
    { exists w2, (r_file cur). split; auto. split; [rewrite Sh2; auto|].
      split; [intros m e0 r X; injection X as <- <- <-; rewrite Sh2; auto|].
      destruct cur; simpl in *; subst; reflexivity. }
    assert (under tmp2 (path_join tmp (test_name sp)) = false) as U22 by (apply AP; now apply under_test).
    assert (forall g, under tmp2 g = true -> w_fs w2 g = None) as FR2.
    { intros g Ug. rewrite A2; [rewrite F1; auto|]. destruct (under tmp g) eqn:Q; auto. apply AP in Q. congruence. }
    destruct (s_alg K).
    + destruct (IH rest (delete_at (choose (s_far K) (r_error cur) errs) errs)
                   (mkRM m' (path_join tmp (test_name sp)) e Shared) w2) as (w' & f & A' & S' & L & R); simpl; auto.
      { intros Y. rewrite Sh2. auto. }
      simpl r_model in R, L. simpl r_error in R, L.
      exists w', f. split; [eapply agree_trans; eauto|]. split; auto. intros Y. rewrite S', Sh2; auto.
    + unfold mbind at 1. cbn [r_file].
      destruct (evaluate_eq tmp2 (path_join tmp (test_name sp)) (s_phase K) (s_conds K) ref m' rest w2 D2 U22 H2 FR2)
        as (w3 & E3 & SW & Sh3).
      rewrite E3.
      assert (agree tmp w w3) as A13 by (intros g Ug; rewrite SW; auto).
      assert (shared = false -> w_shared w3 = w_shared w) as S3f by (intros Y; rewrite Sh3, Sh2; auto).
      assert (shared = true -> w_shared w3 = rest) as S3t by (intros Y; rewrite Sh3, Sh2; auto).
      destruct (mapM (score (s_phase K) (s_conds K) ref m') rest) as [errs'|x0|]; cbn [bind].
      2: { exists w3, "". split; auto. split; auto. split; [discriminate|reflexivity]. }
      2: { exists w3, "". split; auto. split; auto. split; [discriminate|reflexivity]. }
      unfold mbind at 1. unfold mlift at 1.
      destruct (py_min errs') as [least|x0|]; cbn [bind].
      2: { exists w3, "". split; auto. split; auto. split; [discriminate|reflexivity]. }
      2: { exists w3, "". split; auto. split; auto. split; [discriminate|reflexivity]. }
      destruct (xgt least (s_limit K)).
      { exists w3. eexists. split; auto. split; auto.
        split; [intros m e0 r X; injection X as <- <- <-; auto|reflexivity]. }
      assert (holds w3 (path_join tmp (test_name sp)) (s_phase K) m') as H3.
      { destruct H2 as (p & E & P). exists p. rewrite SW. auto. }
      assert (forall g, under tmp2 g = true -> w_fs w3 g = None) as FR3 by (intros g Ug; rewrite SW; auto).
      destruct (IH rest errs' (mkRM m' (path_join tmp (test_name sp)) e Shared) w3) as (w' & f & A' & S' & L & R); simpl; auto.
      simpl r_model in R, L. simpl r_error in R, L.
      exists w', f. split; [eapply agree_trans; eauto|]. split; auto. intros Y. rewrite S'; auto.
Qed.

(** ** The whole run *)

Lemma jobs_same f ph cases w : snd (run_metric_jobs f ph cases w) = w.
Proof.
  unfold run_metric_jobs. unfold mbind at 1.
  assert (forall l w, snd (mmap (fun c : cond => sol <- load f ph;; mlift (c sol)) l w) = w) as M.
  { clear. induction l as [|c l IH]; intros w; simpl; auto.
    unfold mbind at 1. unfold mbind at 1. pose proof (load_same w f ph) as L. destruct (load f ph w) as [[sol|e|] w1]; simpl in L; subst; auto.
    unfold mlift at 1. destruct (c sol); simpl; auto. unfold mbind. specialize (IH w).
    unfold mbind in IH. destruct (mmap _ l w) as [[ys|e|] w2]; simpl in *; auto. }
  specialize (M cases w). destruct (mmap _ cases w) as [[ys|e|] w2]; simpl in *; auto.
Qed.

Lemma text_flat c : bind (text_array c) flat <> NoFuel.
Proof.
  destruct c as [ | |rows| | ]; try discriminate. simpl. destruct (negb (rect rows)); [discriminate|].
  destruct rows as [|r [|r' t]]; try discriminate. destruct (Nat.leb (length r) 1); discriminate.
Qed.

Lemma part_same f ph cases out init k b w : snd (metrics_part f ph cases out init k b w) = w.
Proof.
  unfold metrics_part. destruct cases; [reflexivity|]. unfold mbind at 1. unfold is_file.
  unfold mbind at 1.
  destruct (b && _); simpl.
  - unfold read_nums, mbind, get_file. destruct (w_fs w out) as [c'|]; simpl; auto.
    unfold mlift. destruct (bind (text_array c') flat); simpl; auto.
    destruct (b && _); [reflexivity|apply jobs_same].
  - destruct (b && _); [reflexivity|apply jobs_same].
Qed.

Lemma metrics_same f ph cs b w : snd (sample_metrics f ph cs b w) = w.
Proof.
  unfold sample_metrics, mbind.
  repeat match goal with
  | |- context [metrics_part f ph ?c ?o ?i ?k b w] =>
      let H := fresh in pose proof (part_same f ph c o i k b w) as H;
      destruct (metrics_part f ph c o i k b w) as [[?|?|] ?]; simpl in H; subst; simpl; auto
  end.
Qed.

(** The list the loop starts with, and whether it is the shared one. *)
Definition start_list (K : sa_job) (w : world) (sol : mech) : list string * bool :=
  match given_limbo w (s_limbo K), s_limbo K with
  | nil, _ => (not_in (species_names sol) (s_safe K), false)
  | l, Shared => (l, true)
  | l, Own _ => (l, false)
  end.

Definition p_run (fuel : nat) (K : sa_job) (ref : list xnum) (sol : mech) (limbo : list string)
  : res (mech * xnum * list string) :=
  bind (mapM (score (s_phase K) (s_conds K) ref sol) limbo) (fun errs =>
    p_loop fuel K ref sol (s_start K) errs limbo).

Definition final (x : mech * xnum * list string) : rmodel :=
  mkRM (fst (fst x)) (reduced_name (n_species (fst (fst x)))) (snd (fst x)) Shared.

(** The metrics that the run reads or computes. *)
Definition found (K : sa_job) (w : world) (ref : list xnum) : Prop :=
  sample_metrics (s_file K) (s_phase K) (s_conds K) true w = (Ok ref, w).

Lemma run_eq K w tmp tmp2 sol fuel : sa_started K w tmp tmp2 sol ->
  exists R w', run_sa fuel tmp tmp2 K w = (R, w') /\
    (R = bind (fst (sample_metrics (s_file K) (s_phase K) (s_conds K) true w)) (fun ref =>
           bind (p_run fuel K ref sol (fst (start_list K w sol))) (fun x => Ok (final x)))) /\
    match R with
    | Ok r => forall g, w_fs w' g = if String.eqb g (path_join (s_path K) (r_file r))
                                    then Some (FMech [r_model r]) else w_fs w g
    | _ => forall g, w_fs w' g = w_fs w g
    end /\
    (snd (start_list K w sol) = false -> w_shared w' = w_shared w) /\
    (snd (start_list K w sol) = true -> forall ref m e rest, found K w ref ->
       p_run fuel K ref sol (fst (start_list K w sol)) = Ok (m, e, rest) -> w_shared w' = rest).
Proof.
  intros [WF H TE]. destruct TE as [D D2 AP FR FR2].
  assert (under tmp2 (s_file K) = false) as U2.
  { destruct (under tmp2 (s_file K)) eqn:E; auto. apply FR2 in E. destruct H as (p & E1 & _). congruence. }
  unfold run_sa, found. unfold mbind at 1. rewrite (load_holds _ _ _ _ H).
  unfold mbind at 1. pose proof (metrics_same (s_file K) (s_phase K) (s_conds K) true w) as MS.
  destruct (sample_metrics (s_file K) (s_phase K) (s_conds K) true w) as [[ref|x|] w0]; simpl in MS; subst w0.
  2: { do 2 eexists. split; [reflexivity|]. simpl. repeat split; auto. discriminate. }
  2: { do 2 eexists. split; [reflexivity|]. simpl. repeat split; auto. discriminate. }
  unfold mbind at 1. unfold read_limbo. cbv iota. fold (given_limbo w (s_limbo K)).
  assert (forall A (k : list string -> bool -> A),
    (let '(limbo, shared) :=
       match given_limbo w (s_limbo K) with
       | nil => (not_in (species_names sol) (s_safe K), false)
       | _ :: _ => match s_limbo K with Shared => (given_limbo w (s_limbo K), true)
                                    | Own _ => (given_limbo w (s_limbo K), false) end
       end in k limbo shared) = k (fst (start_list K w sol)) (snd (start_list K w sol))) as SL.
  { intros A k. unfold start_list. destruct (given_limbo w (s_limbo K)); auto. destruct (s_limbo K); auto. }
  rewrite SL. clear SL.
  assert (snd (start_list K w sol) = true -> w_shared w = fst (start_list K w sol)) as SH.
  { unfold start_list, given_limbo. destruct (s_limbo K) as [|l]; [destruct (w_shared w)|destruct l]; simpl; intros; auto; discriminate. }
  destruct (start_list K w sol) as [limbo shared]. cbn [fst snd] in *.
  unfold mbind at 1.
  destruct (evaluate_eq tmp2 (s_file K) (s_phase K) (s_conds K) ref sol limbo w D2 U2 H FR2) as (w1 & E1 & SW & Sh).
  rewrite E1. unfold p_run. cbn [bind fst].
  destruct (mapM (score (s_phase K) (s_conds K) ref sol) limbo) as [errs|x|] eqn:EM; cbn [bind].
  2: { do 2 eexists. split; [reflexivity|]. split; [reflexivity|]. split; [exact SW|]. split; [auto|].
       intros _ ref' m0 e0 rest0 R. injection R as <-. rewrite EM. discriminate. }
  2: { do 2 eexists. split; [reflexivity|]. split; [reflexivity|]. split; [exact SW|]. split; [auto|].
       intros _ ref' m0 e0 rest0 R. injection R as <-. rewrite EM. discriminate. }
  unfold mbind at 1. unfold with_temp.
  destruct (loop_eq K shared tmp tmp2 ref D D2 AP fuel limbo errs (mkRM sol (s_file K) (s_start K) Shared) w1)
    as (w2 & f & A2 & S2 & L2 & R2); simpl; auto.
  { destruct H as (p & E & P). exists p. rewrite SW. auto. }
  { intros g Ug. rewrite SW. auto. }
  { intros Y. rewrite Sh. auto. }
  simpl r_model in *. simpl r_error in *. rewrite R2.
  assert (forall g, (if under tmp g then None else w_fs w2 g) = w_fs w g) as F2.
  { intros g. destruct (under tmp g) eqn:U; [now rewrite FR|]. rewrite A2; auto. }
  destruct (p_loop fuel K ref sol (s_start K) errs limbo) as [[[m e] rest]|x|] eqn:EP; cbn [bind].
  2: { do 2 eexists. split; [reflexivity|]. simpl. split; [reflexivity|]. split; [auto|]. split; [intros Y; rewrite S2; auto|].
       intros _ ref' m0 e0 rest0 R. injection R as <-. rewrite EM. simpl. rewrite EP. discriminate. }
  2: { do 2 eexists. split; [reflexivity|]. simpl. split; [reflexivity|]. split; [auto|]. split; [intros Y; rewrite S2; auto|].
       intros _ ref' m0 e0 rest0 R. injection R as <-. rewrite EM. simpl. rewrite EP. discriminate. }
  unfold mbind at 1. cbn [r_model r_error fst snd].
  destruct (yaml_write_eq (mkWorld (fun g => if under tmp g then None else w_fs w2 g) (w_shared w2)) m
              (reduced_name (n_species m)) (s_path K) (reduced_name_nonempty _)) as (w3 & Y & W & Sh3).
  rewrite Y. unfold mret. do 2 eexists. split; [reflexivity|]. split; [reflexivity|]. simpl.
  split; [|split].
  - intros g. rewrite W. simpl. now rewrite F2.
  - intros Z. rewrite Sh3. simpl. rewrite S2; auto.
  - intros Z ref' m0 e0 rest0 R X. assert (ref' = ref) by congruence. subst ref'. 
    rewrite EM in X. simpl in X. rewrite EP in X. rewrite Sh3. simpl. eapply L2; eauto.
Qed.
