(** Stirred reactors in runs of the whole program; the sample engine. *)
From Coq Require Import String List QArith Qabs ZArith Bool Arith Lia Lqa.
From Verif.Base Require Import Py Num XNum Paths.
From Verif.Model Require Import Mech Matrices Graph World Metrics Drivers Sensitivity Simulation Sampling Psr PsrCase Main.
From Verif.Spec Require Import TrimSpec MetricSpec DriverSpec SimSpec SamplingSpec MainSpec Samples DriverSamples SimSamples SamplingSamples
  MainSamples PsrSpec PsrSamples PsrCaseSpec PsrCaseSamples.
From Verif.Proofs Require Import PyFacts NumFacts SampleFacts SamplingLate MainFacts MainEnd MainMore MainCli PsrEx PsrCaseFacts.
Import ListNotations.
Local Open Scope string_scope.

(** ** One case among the others *)

Lemma combine_app {A B} (a b : list A) (c d : list B) : length a = length c ->
  combine (a ++ b) (c ++ d) = (combine a c ++ combine b d)%list.
Proof. revert c. induction a as [|x a IH]; intros [|y c] L; cbn in *; try discriminate; auto. f_equal. apply IH. lia. Qed.

Lemma block (m m' : mech) (L : list cond) : forall ls ls',
  (forall c a b, In c L -> c m = Ok a -> c m' = Ok b -> length a = length b) ->
  mapM (fun c : cond => c m) L = Ok ls -> mapM (fun c : cond => c m') L = Ok ls' ->
  forall c, In c L -> exists a b, c m = Ok a /\ c m' = Ok b /\ incl (combine a b) (combine (concat ls) (concat ls')).
Proof.
  induction L as [|c0 L IH]; intros ls ls' S H H' c I; [destruct I|].
  cbn [mapM] in H, H'.
  destruct (c0 m) as [a0| |] eqn:E0; try discriminate. cbn [bind] in H.
  destruct (mapM (fun c : cond => c m) L) as [l1| |] eqn:E1; try discriminate. cbn [bind] in H. injection H as <-.
  destruct (c0 m') as [b0| |] eqn:E0'; try discriminate. cbn [bind] in H'.
  destruct (mapM (fun c : cond => c m') L) as [l1'| |] eqn:E1'; try discriminate. cbn [bind] in H'. injection H' as <-.
  cbn [concat]. rewrite combine_app by (apply (S c0); [left; reflexivity|assumption|assumption]).
  destruct I as [<-|I].
  - exists a0, b0. split; [exact E0|]. split; [exact E0'|]. apply incl_appl, incl_refl.
  - destruct (IH l1 l1') with (c := c) as (a & b & A & B & Q); auto.
    { intros c1 x y I1. apply (S c1). right. exact I1. }
    exists a, b. split; [exact A|]. split; [exact B|]. apply incl_appr. exact Q.
Qed.

Lemma cond_lengths fuel Ph floor C c m m' a b : let K := conds_of fuel Ph floor C in
  In c (c_ign K ++ c_psr K ++ c_flame K)%list -> c m = Ok a -> c m' = Ok b -> length a = length b.
Proof.
  cbn [conds_of c_ign c_psr c_flame]. rewrite !in_app_iff, !in_map_iff.
  intros [(x & <- & _)|[(x & <- & _)|(x & <- & _)]] A B.
  - unfold ign_cond in *. destruct (setup_gas _ m), (setup_gas _ m'); try discriminate. cbn [bind] in *.
    destruct (calculate _ (ph_reactor Ph x m) _), (calculate _ (ph_reactor Ph x m') _); try discriminate.
    injection A as <-. injection B as <-. reflexivity.
  - unfold psr_cond, psr_calculate in *. destruct (setup_gas _ m), (setup_gas _ m'); try discriminate. cbn [bind] in *.
    destruct (psr_detect (ph_psr Ph x m)) as [[u|]| |], (psr_detect (ph_psr Ph x m')) as [[v|]| |]; try discriminate;
      injection A as <-; injection B as <-; reflexivity.
  - unfold flame_cond in *. destruct (setup_gas _ m), (setup_gas _ m'); try discriminate. cbn [bind] in *.
    destruct (flame_calculate _ (ph_flame Ph x m)), (flame_calculate _ (ph_flame Ph x m')); try discriminate.
    injection A as <-. injection B as <-. reflexivity.
Qed.

(** A case that gives usable metrics has a curve. *)
Lemma usable_curve E Ph c m l : psr_cond (with_engine E Ph) c m = Ok l -> (forall x, In x l -> usable x) ->
  exists k, has_curve E c m k /\ l = three k.
Proof.
  intros H U. rewrite as_condition in H. destruct (obj_setup E c m) as [o| |] eqn:S; try discriminate. cbn [bind] in H.
  pose proof (call_of E c m CallCalculate o (setup_of_case _ _ _ _ S)) as X. cbn [obj_call] in X.
  destruct (obj_calculate E o) as [r o']. cbn [fst] in H. subst r. destruct X as (_ & A & _).
  cbn [only_metrics bind] in A. inversion A as [call k Q N|k Q|N| | |]; subst.
  - eauto.
  - destruct (U (Fin 0)) as (q & X & NZ); [left; reflexivity|]. injection X as <-. exfalso. apply NZ. reflexivity.
Qed.

Lemma main_curves K E Ph floor C a B w sol me r w' l :
  k_physics K = with_engine E Ph ->
  prepared K C a w sol -> a_method a = method_name me -> well_posed K floor C sol ->
  (a_sa a = true -> temps_ok w (a_path a) B) -> a_limit a = Fin l -> (l < 100)%Q -> r_error r <> NaN ->
  main_on exactA floor5 floor6 B K floor C a w = (Ok r, w') ->
  forall c, In c (ca_psr C) ->
  exists k k', has_curve E c sol k /\ has_curve E c (r_model r) k' /\
    within l (pp_tau (pc_ext k)) (pp_tau (pc_ext k')) /\
    within l (pp_T (pc_mid k)) (pp_T (pc_mid k')) /\
    within l (pp_T (pc_near k)) (pp_T (pc_near k')).
Proof.
  intros EK RD NA WP TE LM L100 NN H c IC.
  destruct (whole_close K floor C a B w sol me r w' l RD NA WP TE LM L100 NN H) as (ref & ts & MR & MT & _ & _ & CL).
  pose proof (WP ref MR) as (_ & PR).
  unfold metrics_of in MR, MT.
  set (L := (c_ign (conds_of (k_fuel K) (k_physics K) floor C) ++ c_psr (conds_of (k_fuel K) (k_physics K) floor C) ++
             c_flame (conds_of (k_fuel K) (k_physics K) floor C))%list) in *.
  destruct (mapM (fun c : cond => c sol) L) as [ls| |] eqn:M1; try discriminate. cbn [bind] in MR. injection MR as <-.
  destruct (mapM (fun c : cond => c (r_model r)) L) as [ls'| |] eqn:M2; try discriminate. cbn [bind] in MT. injection MT as <-.
  destruct (block sol (r_model r) L ls ls') with (c := psr_cond (with_engine E Ph) c) as (x & y & X & Y & I); auto.
  { intros c0 x y I X Y. eapply cond_lengths; eauto. }
  { unfold L. cbn [conds_of c_ign c_psr c_flame]. rewrite EK, !in_app_iff. right. left. apply in_map. exact IC. }
  assert (length x = length y) as LX.
  { eapply (cond_lengths (k_fuel K) (k_physics K) floor C); [|exact X|exact Y].
    cbn [conds_of c_ign c_psr c_flame]. rewrite EK, !in_app_iff. right. left. apply in_map. exact IC. }
  assert (forall t, In t y -> usable t) as UY.
  { intros t IT. destruct (In_nth y t NaN IT) as (i & Li & <-).
    apply (CL (nth i x NaN)). apply I. rewrite <- combine_nth by exact LX. apply nth_In.
    rewrite combine_length. lia. }
  assert (forall t, In t x -> usable t) as UX.
  { intros t IT. destruct (In_nth x t NaN IT) as (i & Li & <-).
    destruct (CL (nth i x NaN) (nth i y NaN)) as (_ & (p & q & EP & EQ & WI)).
    - apply I. rewrite <- combine_nth by exact LX. apply nth_In. rewrite combine_length. lia.
    - destruct (PR (nth i x NaN)) as (p' & E1 & E2).
      + assert (In (nth i x NaN, nth i y NaN) (combine (concat ls) (concat ls'))) as J.
        { apply I. rewrite <- combine_nth by exact LX. apply nth_In. rewrite combine_length. lia. }
        eapply in_combine_l. exact J.
      + exists p'. split; [exact E1|lra]. }
  destruct (usable_curve _ _ _ _ _ X UX) as (k & HK & ->).
  destruct (usable_curve _ _ _ _ _ Y UY) as (k' & HK' & ->).
  exists k, k'. split; [exact HK|]. split; [exact HK'|].
  split; [apply CL, I; left; reflexivity|]. split; [apply CL, I; right; left; reflexivity|].
  apply CL, I. right. right. left. reflexivity.
Qed.

Lemma engine_shaped E Ph C m : works E -> shaped Ph C m -> shaped (with_engine E Ph) C m.
Proof.
  intros W [H1 H2 H3]. constructor; [exact H1| |exact H3].
  intros c k _ Q p I. cbn [ph_psr with_engine] in Q. rewrite trace_from in Q.
  destruct (curve_from_inlet E c m) as [[b k']| |] eqn:T; try discriminate. cbn [bind snd] in Q. injection Q as ->.
  destruct (curve_points E c m k W) as (_ & S1 & S2 & S3); [exists b; exact T|].
  destruct W as (_ & GS). destruct (GS m (e_set E m (e_inlet E c m))) as (_ & GN). fold (at_inlet E c m) in GN.
  rewrite <- GN. destruct I as [<-|[<-|[<-|[]]]]; [destruct S1 as (_ & S & _)|destruct S2 as (_ & S & _)|destruct S3 as (_ & S & _)]; exact S.
Qed.

(** ** The sample engine *)

Lemma look_near_In f x0 l x : look_near f x0 l = Some x -> length x = length x0.
Proof.
  induction l as [|y l IH]; cbn [look_near]; [discriminate|].
  destruct ((length y =? length x0)%nat && _ && _) eqn:E; [|exact IH].
  intros H. injection H as <-. apply andb_true_iff in E. destruct E as (E & _). apply andb_true_iff in E.
  apply Nat.eqb_eq, E.
Qed.

Lemma pad_numerics : numerics sup_norm rat_exp rat_log rat_sqrt no_solve pad_root.
Proof.
  destruct toy_numerics as (A1 & A2 & A3 & A4 & A5 & A6). split; [exact A1|]. split; [exact A2|].
  split; [|auto]. intros f x0 x fx H. unfold pad_root in H.
  destruct (look_near _ _ _) as [y|] eqn:E; [|discriminate]. injection H as <- <-.
  split; [reflexivity|]. eapply look_near_In. exact E.
Qed.

Lemma wide_consistent n k : consistent (wide_gas n k).
Proof.
  unfold wide_gas. repeat split; cbn [g_Yin g_W g_equil g_state g_enthalpy g_n].
  - apply repeat_length.
  - apply repeat_length.
  - intros Y T H. injection H as <- _. destruct n; cbn; rewrite ?repeat_length; reflexivity.
  - intros Y T w rho H. destruct n as [|n]; [discriminate|]. destruct Y as [|[q| | |] Y]; try discriminate.
    destruct T; try discriminate. injection H as <- _. cbn. rewrite repeat_length. reflexivity.
  - intros Y T h H. destruct Y as [|[q| | |] Y]; try discriminate. destruct T; try discriminate. eauto.
Qed.

Lemma toy_works s k : works (toy_engine s k).
Proof. split; [exact pad_numerics|]. intros m g. split; [apply wide_consistent|reflexivity]. Qed.

Lemma psr_blind s : physics_blind (k_physics (psr_machine s)).
Proof.
  intros m m' Q. destruct (late_blind s m m' Q) as (B1 & B2 & _). split; [exact B1|]. split; [exact B2|].
  intros c. destruct Q as (Q & _). unfold psr_machine. cbn [k_physics with_engine ph_psr].
  assert (forall g, e_gas (toy_engine s 9) m g = e_gas (toy_engine s 9) m' g) as G.
  { intros g. unfold toy_engine. cbn [e_gas]. unfold n_species, species_names. rewrite Q. reflexivity. }
  assert (e_inlet (toy_engine s 9) c m = e_inlet (toy_engine s 9) c m') as I.
  { unfold toy_engine. cbn [e_inlet]. unfold n_species. rewrite Q. reflexivity. }
  unfold e_trace. rewrite G. change (e_set (toy_engine s 9) m) with (fun g : gstate => g).
  change (e_set (toy_engine s 9) m') with (fun g : gstate => g). cbv beta. rewrite I. reflexivity.
Qed.

Lemma psr_prepared s mx me safe sa up : prepared (psr_machine s) (psr_cases mx) (toy_main me safe sa up) toy_world toy.
Proof.
  constructor; cbn [toy_main a_file a_phase a_targets a_path a_limit].
  - apply wf_mechb_sound. reflexivity.
  - apply toy_holds.
  - split; [discriminate|]. intros x [<-|[]]. cbn. auto.
  - intros n E. unfold path_join, reduced_name in E. cbn in E. discriminate.
  - apply apart_example. cbn. lia.
  - apply toy_fresh.
  - apply engine_shaped; [apply toy_works|apply late_shaped].
  - intros c [].
  - apply psr_blind.
  - reflexivity.
Qed.

Lemma psr_value :
  metrics_of (conds_of 50 (k_physics (psr_machine "H2")) None (psr_cases "N2")) toy =
  Ok [Fin (1000000000 # 2248930840); Fin 1489.100670000; Fin 1489.100670000].
Proof. vm_compute. reflexivity. Qed.

Lemma psr_posed : well_posed (psr_machine "H2") None (psr_cases "N2") toy.
Proof.
  intros ts E. change (k_fuel (psr_machine "H2")) with 50%nat in E. rewrite psr_value in E. injection E as <-.
  split; [discriminate|]. intros x [<-|[<-|[<-|[]]]]; (eexists; split; [reflexivity|reflexivity]).
Qed.
