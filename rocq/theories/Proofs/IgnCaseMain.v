(** Ignition and flames in runs of the whole program; the sample networks. *)
From Coq Require Import String List QArith Qabs ZArith Bool Arith Lia Lqa.
From Verif.Base Require Import Py Num XNum Paths.
From Verif.Model Require Import Mech Matrices Graph World Metrics Drivers Sensitivity Simulation Sampling Psr IgnCase Main.
From Verif.Spec Require Import TrimSpec MetricSpec DriverSpec SimSpec SamplingSpec MainSpec Samples DriverSamples SimSamples SamplingSamples
  MainSamples PsrSpec IgnCaseSpec IgnCaseSamples.
From Verif.Proofs Require Import PyFacts NumFacts SampleFacts SamplingLate SimFacts SimMore MainFacts MainEnd MainMore MainCli PsrEx PsrCaseMain
  IgnCaseFacts IgnCaseCalls.
Import ListNotations.
Local Open Scope string_scope.

(** The metrics of one case in the original and in the returned model. *)
Lemma main_one K floor C a B w sol me r w' l :
  prepared K C a w sol -> a_method a = method_name me -> well_posed K floor C sol ->
  (a_sa a = true -> temps_ok w (a_path a) B) -> a_limit a = Fin l -> (l < 100)%Q -> r_error r <> NaN ->
  main_on exactA floor5 floor6 B K floor C a w = (Ok r, w') ->
  let D := conds_of (k_fuel K) (k_physics K) floor C in
  forall k, In k (c_ign D ++ c_psr D ++ c_flame D)%list ->
  exists x y, k sol = Ok x /\ k (r_model r) = Ok y /\ length x = length y /\
    (forall t, In t x -> usable t) /\ (forall t, In t y -> usable t) /\
    forall i, (i < length x)%nat -> within l (nth i x NaN) (nth i y NaN).
Proof.
  intros RD NA WP TE LM L100 NN H D k IK.
  destruct (whole_close K floor C a B w sol me r w' l RD NA WP TE LM L100 NN H) as (ref & ts & MR & MT & _ & _ & CL).
  pose proof (WP ref MR) as (_ & PR). unfold metrics_of in MR, MT. fold D in MR, MT.
  set (L := (c_ign D ++ c_psr D ++ c_flame D)%list) in *.
  destruct (mapM (fun c : cond => c sol) L) as [ls| |] eqn:M1; try discriminate. cbn [bind] in MR. injection MR as <-.
  destruct (mapM (fun c : cond => c (r_model r)) L) as [ls'| |] eqn:M2; try discriminate. cbn [bind] in MT. injection MT as <-.
  destruct (block sol (r_model r) L ls ls') with (c := k) as (x & y & X & Y & I); auto.
  { intros c0 x y I X Y. eapply cond_lengths; eauto. }
  assert (length x = length y) as LX by (eapply cond_lengths; eauto).
  assert (forall i, (i < length x)%nat -> In (nth i x NaN, nth i y NaN) (combine (concat ls) (concat ls'))) as IN.
  { intros i Li. apply I. rewrite <- combine_nth by exact LX. apply nth_In. rewrite combine_length. lia. }
  exists x, y. split; [exact X|]. split; [exact Y|]. split; [exact LX|]. split; [|split].
  - intros t IT. destruct (In_nth x t NaN IT) as (i & Li & <-).
    destruct (PR (nth i x NaN)) as (p & E1 & E2); [eapply in_combine_l; apply IN; exact Li|].
    exists p. split; [exact E1|lra].
  - intros t IT. destruct (In_nth y t NaN IT) as (i & Li & <-). apply (CL (nth i x NaN)). apply IN. lia.
  - intros i Li. apply CL. apply IN. exact Li.
Qed.

Lemma usable_burns fuel Ph c m l : ign_cond fuel Ph c m = Ok l -> (forall x, In x l -> usable x) ->
  exists d, burns (A := ph_calc Ph) (ph_reactor Ph c m) c d /\ l = [Fin d].
Proof.
  intros H U. unfold ign_cond in H. destruct (setup_gas _ m); try discriminate. cbn [bind] in H.
  destruct (calculate (A := ph_calc Ph) fuel (ph_reactor Ph c m) c) as [d| |] eqn:CA; try discriminate. cbn [bind] in H. injection H as <-.
  destruct (U (Fin d)) as (q & E & NZ); [left; reflexivity|]. injection E as <-.
  assert (Qnz (ig_end c) = true \/ (0 <= max_steps c)%Z) as G.
  { destruct (Qnz (ig_end c)) eqn:QE; [left; reflexivity|right]. destruct (Z.ltb_spec (max_steps c) 0) as [L|L]; [|exact L].
    unfold calculate in CA. rewrite QE in CA. destruct (Z.ltb_spec (max_steps c) 0); [discriminate|lia]. }
  destruct (calculate_found (CA := ph_calc Ph) fuel (ph_reactor Ph c m) c G) as [E|[E|(d' & BU & E)]]; rewrite CA in E; try discriminate; injection E as ->.
  - exfalso. apply NZ. reflexivity.
  - exists d'. split; [exact BU|reflexivity].
Qed.

Lemma usable_flame Ph floor c m l : flame_cond Ph floor c m = Ok l -> (forall x, In x l -> usable x) ->
  exists v ps, ph_flame Ph c m = Ok (v, ps) /\ xle v (Fin (least_speed floor)) = false /\ l = [v].
Proof.
  intros H U. unfold flame_cond, flame_calculate, flame_detected in H. destruct (setup_gas _ m); try discriminate. cbn [bind] in H.
  assert (l = [Fin 0] -> False) as Z.
  { intros ->. destruct (U (Fin 0)) as (q & E & NZ); [left; reflexivity|]. injection E as <-. apply NZ. reflexivity. }
  destruct (ph_flame Ph c m) as [[v ps]|e|]; cbn [bind] in H; try discriminate.
  - destruct (xle v _) eqn:LE; cbn [bind] in H; injection H as <-; [exfalso; apply Z; reflexivity|]. eauto.
  - destruct e; cbn [bind] in H; try discriminate. injection H as <-. exfalso. apply Z. reflexivity.
Qed.

Lemma main_burns K floor C a B w sol me r w' l :
  prepared K C a w sol -> a_method a = method_name me -> well_posed K floor C sol ->
  (a_sa a = true -> temps_ok w (a_path a) B) -> a_limit a = Fin l -> (l < 100)%Q -> r_error r <> NaN ->
  main_on exactA floor5 floor6 B K floor C a w = (Ok r, w') ->
  (forall c, In c (ca_ign C) -> exists d d', burns (A := ph_calc (k_physics K)) (ph_reactor (k_physics K) c sol) c d /\
     burns (A := ph_calc (k_physics K)) (ph_reactor (k_physics K) c (r_model r)) c d' /\ within l (Fin d) (Fin d')) /\
  (forall c, In c (ca_flame C) -> exists v v' ps ps', ph_flame (k_physics K) c sol = Ok (v, ps) /\
     ph_flame (k_physics K) c (r_model r) = Ok (v', ps') /\ xgt v (Fin (least_speed floor)) = true /\
     xgt v' (Fin (least_speed floor)) = true /\ within l v v').
Proof.
  intros RD NA WP TE LM L100 NN H.
  pose proof (main_one K floor C a B w sol me r w' l RD NA WP TE LM L100 NN H) as M. cbn zeta in M. split; intros c IC.
  - destruct (M (ign_cond (k_fuel K) (k_physics K) c)) as (x & y & X & Y & _ & UX & UY & WI).
    { cbn [conds_of c_ign c_psr c_flame]. rewrite !in_app_iff. left. apply in_map. exact IC. }
    destruct (usable_burns _ _ _ _ _ X UX) as (d & BD & ->). destruct (usable_burns _ _ _ _ _ Y UY) as (d' & BD' & ->).
    exists d, d'. split; [exact BD|]. split; [exact BD'|]. apply (WI 0%nat). cbn. lia.
  - destruct (M (flame_cond (k_physics K) floor c)) as (x & y & X & Y & _ & UX & UY & WI).
    { cbn [conds_of c_ign c_psr c_flame]. rewrite !in_app_iff. right. right. apply in_map. exact IC. }
    destruct (usable_flame _ _ _ _ _ X UX) as (v & ps & F & LE & ->). destruct (usable_flame _ _ _ _ _ Y UY) as (v' & ps' & F' & LE' & ->).
    specialize (WI 0%nat ltac:(cbn; lia)). cbn [nth] in WI.
    exists v, v', ps, ps'. split; [exact F|]. split; [exact F'|].
    destruct WI as (p & q & -> & -> & WI). cbn [xle xgt xlt] in *.
    split; [|split; [|exists p, q; auto]].
    + apply Qlt_bool_iff. apply Qle_bool_false. exact LE.
    + apply Qlt_bool_iff. apply Qle_bool_false. exact LE'.
Qed.

(** ** The sample networks *)
Lemma toy_idle burn T0 calm : reinit_is_idle (toy_net burn T0 calm).
Proof.
  intros h. unfold toy_net. cbn [nt_point nt_ok nt_state].
  assert (steps_in (h ++ [EReinit]) = steps_in h) as E.
  { induction h as [|[|] h IH]; cbn; auto. }
  rewrite E. auto.
Qed.

Lemma toy_decent burn T0 calm : (0 <= T0)%Q -> decent (toy_net burn T0 calm).
Proof.
  intros P. unfold decent, state_at, toy_net. cbn [nt_norm nt_atol nt_root_n nt_state].
  split; [exact sup_bounds|]. split; [reflexivity|]. split; [exists (7 # 5); split; reflexivity|].
  split; [reflexivity|]. split.
  - intros n x [<-|[<-|[]]]; eexists; reflexivity.
  - intros q [E|[E|[]]]; injection E as <-; [|discriminate]. destruct (Nat.ltb _ _); [exact P|discriminate].
Qed.

Lemma burning_prepared s mx me safe sa up : prepared (toy_machine s) (burning_cases mx) (toy_main me safe sa up) toy_world toy.
Proof.
  constructor; cbn [toy_main a_file a_phase a_targets a_path a_limit toy_machine k_physics].
  - apply wf_mechb_sound. reflexivity.
  - apply toy_holds.
  - split; [discriminate|]. intros x [<-|[]]. cbn. auto.
  - intros n E. unfold path_join, reduced_name in E. cbn in E. discriminate.
  - apply apart_example. cbn. lia.
  - apply toy_fresh.
  - apply late_shaped.
  - apply late_starts.
  - apply late_blind.
  - reflexivity.
Qed.
Lemma burning_posed : well_posed (toy_machine "HO2") None (burning_cases "N2") toy.
Proof.
  intros ts E. assert (ts = [Fin (3 # 10); Fin (2 # 5)]) as -> by (vm_compute in E; injection E as <-; reflexivity).
  split; [discriminate|]. intros x [<-|[<-|[]]]; eexists; split; reflexivity.
Qed.
