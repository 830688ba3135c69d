(** What the program does from the command line, and sample runs. *)
From Coq Require Import String Ascii List QArith ZArith Bool Arith Lia Lqa.
From Verif.Base Require Import Py Num XNum Paths.
From Verif.Model Require Import Mech Matrices Graph World Metrics Drivers Sensitivity Simulation Sampling Inputs Main.
From Verif.Spec Require Import TrimSpec GraphSpec MetricSpec DriverSpec SensitivitySpec SimSpec SamplingSpec InputSpec ArgsSpec MainSpec
  Samples DriverSamples SaSamples SimSamples SamplingSamples InputSamples MainSamples.
From Verif.Proofs Require Import PyFacts NumFacts TrimFacts SampleFacts MetricFacts SimMore SamplingLate SaSampleFacts InputFacts InputMore InputEnd
  InputChecks ArgsFacts MainFacts MainEnd MainMore.
Import ListNotations.
Local Open Scope string_scope.

Lemma mapM_lengths {A} (f : A -> res (list xnum)) n xs ls : (forall x l, f x = Ok l -> length l = n) ->
  mapM f xs = Ok ls -> length (concat ls) = (n * length xs)%nat.
Proof.
  intros H. revert ls. induction xs as [|x xs IH]; cbn [mapM]; intros ls E.
  - injection E as <-. cbn. lia.
  - destruct (f x) as [l|e|] eqn:F; try discriminate. cbn [bind] in E.
    destruct (mapM f xs) as [l'|e|]; try discriminate. cbn [bind] in E. injection E as <-.
    cbn [concat length]. rewrite app_length, (H _ _ F), (IH _ eq_refl). lia.
Qed.

Lemma metrics_length fuel Ph floor C m ts : metrics_of (conds_of fuel Ph floor C) m = Ok ts -> length ts = n_metrics C.
Proof.
  unfold metrics_of, conds_of. cbn [c_ign c_psr c_flame]. rewrite !SimMore.mapM_app, !SimMore.mapM_map.
  destruct (mapM (fun c => ign_cond fuel Ph c m) (ca_ign C)) as [i|e|] eqn:Ei; try discriminate. cbn [bind].
  destruct (mapM (fun c => psr_cond Ph c m) (ca_psr C)) as [p|e|] eqn:Ep; try discriminate. cbn [bind].
  destruct (mapM (fun c => flame_cond Ph floor c m) (ca_flame C)) as [f|e|] eqn:Ef; try discriminate. cbn [bind].
  intros E. injection E as <-. rewrite !concat_app, !app_length.
  apply (mapM_lengths _ 1) in Ei; [apply (mapM_lengths _ 3) in Ep; [apply (mapM_lengths _ 1) in Ef|]|].
  - rewrite Ei, Ep, Ef. unfold n_metrics. lia.
  - unfold flame_cond. intros c l X. destruct (setup_gas _ m); try discriminate. cbn [bind] in X.
    destruct (flame_calculate _ _); try discriminate. injection X as <-. reflexivity.
  - unfold psr_cond, psr_calculate. intros c l X. destruct (setup_gas _ m); try discriminate. cbn [bind] in X.
    destruct (psr_detect _) as [[u|]|e|]; try discriminate; injection X as <-; reflexivity.
  - unfold ign_cond. intros c l X. destruct (setup_gas _ m); try discriminate. cbn [bind] in X.
    destruct (calculate _ _ _); try discriminate. injection X as <-. reflexivity.
Qed.

(** Every metric of the result is close to that of the detailed model. *)
Lemma whole_close K floor C a B w sol me r w' l : prepared K C a w sol -> a_method a = method_name me -> well_posed K floor C sol ->
  (a_sa a = true -> temps_ok w (a_path a) B) -> a_limit a = Fin l -> l < 100 -> r_error r <> NaN ->
  main_on exactA floor5 floor6 B K floor C a w = (Ok r, w') ->
  exists ref ts, metrics_of (conds_of (k_fuel K) (k_physics K) floor C) sol = Ok ref /\
    metrics_of (conds_of (k_fuel K) (k_physics K) floor C) (r_model r) = Ok ts /\
    length ref = n_metrics C /\ length ts = n_metrics C /\
    forall o t, In (o, t) (combine ref ts) -> usable t /\ within l o t.
Proof.
  intros RD NA WP TE LM L100 NN E.
  destruct (whole K floor C a B w sol RD me r w' NA WP TE E) as (ref & MR & ER & LE & _).
  unfold error_of in ER. destruct (metrics_of _ (r_model r)) as [ts|e|] eqn:MT; try discriminate. cbn [bind] in ER.
  exists ref, ts. split; [exact MR|]. split; [reflexivity|].
  pose proof (metrics_length _ _ _ _ _ _ MR) as L1. pose proof (metrics_length _ _ _ _ _ _ MT) as L2.
  split; [exact L1|]. split; [exact L2|].
  eapply error_le_within; [congruence|apply (WP ref MR)|exact L100|exact ER|].
  destruct LE as [LE|[_ X]]; [rewrite LM in LE; exact LE|contradiction].
Qed.

(** *** The command line *)
Lemma cli_end read convert other B K n o d w I d' a C floor sol me x w' :
  o_convert o = false -> read (o_input o) w = (Ok (YDict d), w) -> yaml_input d -> lists_given d ->
  parse_inputs (YDict d) w = (Ok (I, d'), w) ->
  hands I (o_path o) a C floor ->
  prepared K C a w sol -> well_posed K floor C sol -> in_method I = YStr (method_name me) ->
  (~ blank (in_sa I) -> temps_ok w (o_path o) B) ->
  pymars read convert (run_main_of exactA floor5 floor6 B K other) n o w = (Ok x, w') ->
  exists m ref e, metrics_of (conds_of (k_fuel K) (k_physics K) floor C) sol = Ok ref /\
    error_of (conds_of (k_fuel K) (k_physics K) floor C) ref m = Ok e /\
    (xle e (a_limit a) = true \/ (~ blank (in_sa I) /\ e = NaN)) /\
    w_fs w' (path_join (o_path o) (reduced_name (n_species m))) = Some (FMech [m]) /\
    (blank (in_sa I) \/ limbo_harmless me a w ->
      (forall s, In s (a_targets a ++ a_safe a) -> In s (species_names m)) /\ (forall s, used I s -> In s (species_names m))).
Proof.
  intros CV RE Y L P HA RD WP ME TE E. destruct (proj2 (hands_iff _ _ _ _ _) HA) as (MA & TC & FL).
  destruct (cli_is_main _ _ _ _ _ _ _ _ _ _ _ _ _ _ _ _ _ _ _ CV RE P MA TC FL E) as (r & R).
  destruct (main_args_ok _ _ _ MA) as (AF & _ & AM & AT & AS & AP & SA & _ & PA).
  assert (a_method a = method_name me) as NA by (rewrite ME in AM; cbn in AM; congruence).
  destruct (whole K floor C a B w sol RD me r w' NA WP) as (ref & M1 & M2 & M3 & M4 & M5 & M6); auto.
  { intros S. rewrite PA. apply TE. rewrite SA in S. now apply truth_not_blank. }
  exists (r_model r), ref, (r_error r). split; [exact M1|]. split; [exact M2|]. split.
  { destruct M3 as [M3|[S M3]]; [now left|]. right. rewrite SA in S. split; [now apply truth_not_blank|auto]. }
  split; [rewrite <- PA; exact M4|]. intros H.
  destruct (parse_inv _ _ _ _ _ Y L P) as (_ & IO & _).
  assert (holds w (in_model I) (in_phase I) sol) as HO by (rewrite <- AF, <- AP; apply RD).
  pose (J := graph_job a (mkConds nil nil nil)).
  assert (job_of I J) as JO by (unfold job_of, J; cbn; auto).
  destruct (job_of_ok d w I d' w J sol Y L P JO HO) as (X1 & X2 & _).
  assert (forall s, In s (a_targets a ++ a_safe a) -> In s (species_names (r_model r))) as KE.
  { intros s Hs. apply M6; [|exact Hs|].
    - intros S. destruct H as [H|H]; [|exact H]. apply truth_blank in H. congruence.
    - apply in_app_or in Hs. destruct Hs as [Hs|Hs]; auto. }
  split; [exact KE|]. intros s U. apply KE. apply in_or_app. exact (used_covered _ _ _ _ _ J Y L P JO s U).
Qed.

(** With DRG and sensitivity analysis, a target that a case uses makes the run
    fail. *)
Lemma cli_drg_sa read convert other B K n o d w I d' a C floor sol s :
  o_convert o = false -> read (o_input o) w = (Ok (YDict d), w) -> yaml_input d -> lists_given d ->
  parse_inputs (YDict d) w = (Ok (I, d'), w) ->
  hands I (o_path o) a C floor ->
  prepared K C a w sol -> well_posed K floor C sol -> in_method I = YStr "DRG" -> ~ blank (in_sa I) ->
  temps_ok w (o_path o) B -> In s (a_targets a) -> in_mixture C s ->
  forall x w', pymars read convert (run_main_of exactA floor5 floor6 B K other) n o w <> (Ok x, w').
Proof.
  intros CV RE Y L P HA RD WP ME SB TE IT IM x w' E. destruct (proj2 (hands_iff _ _ _ _ _) HA) as (MA & TC & FL).
  destruct (cli_is_main _ _ _ _ _ _ _ _ _ _ _ _ _ _ _ _ _ _ _ CV RE P MA TC FL E) as (r & R).
  destruct (main_args_ok _ _ _ MA) as (AF & _ & AM & AT & AS & AP & SA & UP & PA).
  destruct (parse_inv _ _ _ _ _ Y L P) as (_ & IO & _).
  pose proof (proj2 (truth_not_blank _) SB) as SB'.
  refine (drg_sa_aborts B K floor C a w sol s RD WP _ _ _ _ IT IM r w' R).
  - rewrite ME in AM. cbn in AM. congruence.
  - congruence.
  - eapply upper_truthy; eauto.
  - now rewrite PA.
Qed.

(** *** Sample runs *)

Lemma late_blind s : physics_blind (late_without s).
Proof.
  intros m m' (E & _). unfold late_without, full_physics, wide, wide_pp, species_names. cbn. rewrite E. auto.
Qed.

Lemma late_shaped s C m : shaped (late_without s) C m.
Proof.
  pose proof (full_shaped C m) as [H1 H2 H3]. constructor; [|exact H2|exact H3].
  intros c _. split; [apply map_length|]. intros k p E. injection E as <-. apply map_length.
Qed.

Lemma late_starts s C m : starts_right (late_without s) C m.
Proof. exact (full_starts C m). Qed.

Lemma toy_prepared s mx me safe sa up : prepared (toy_machine s) (cases_with mx) (toy_main me safe sa up) toy_world toy.
Proof.
  constructor; cbn [toy_main a_file a_phase a_targets a_path a_limit toy_machine k_physics].
  - apply wf_mechb_sound. reflexivity.
  - apply toy_holds.
  - split; [discriminate|]. intros x [<-|[]]. cbn. auto.
  - intros n E. unfold path_join, reduced_name in E. cbn in E. discriminate.
  - apply apart_example. cbn. lia.
  - apply toy_fresh.
  - apply late_shaped.
  - apply late_starts.
  - apply late_blind.
  - reflexivity.
Qed.

Lemma toy_temps : temps_ok toy_world "out" toy_limits.
Proof.
  split; [|split; intros n; reflexivity]. constructor.
  - exists "a"%char. split; [reflexivity|discriminate].
  - exists "b"%char. split; [reflexivity|discriminate].
  - intros f H. apply prefix_iff in H. destruct H as (r & ->). reflexivity.
  - intros f H. apply prefix_iff in H. destruct H as (r & ->). reflexivity.
  - intros f H. apply prefix_iff in H. destruct H as (r & ->). reflexivity.
Qed.

Lemma toy_posed s mx : In mx (species_names toy) -> In s (species_names toy) ->
  well_posed (toy_machine s) None (cases_with mx) toy.
Proof.
  intros M S ts E. cbn in M, S.
  assert (ts = [Fin (3 # 10)]) as ->.
  { repeat (destruct M as [<-|M]; [repeat (destruct S as [<-|S]; [vm_compute in E; injection E as <-; reflexivity|]); destruct S|]); destruct M. }
  split; [discriminate|]. intros x [<-|[]]. exists (3 # 10). split; reflexivity.
Qed.

Lemma species_ok (x : res rmodel * world) l :
  match x with (Ok r, _) => Some (species_names (r_model r)) | _ => None end = Some l ->
  exists r w', x = (Ok r, w') /\ species_names (r_model r) = l.
Proof. destruct x as [[r|e|] w']; try discriminate. intros E. injection E as <-. eauto. Qed.
