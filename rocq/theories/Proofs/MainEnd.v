(** From a fresh directory to the result of [main]. *)
From Coq Require Import String Ascii List QArith Bool Arith Lia Lqa.
From Verif.Base Require Import Py Num XNum Paths.
From Verif.Model Require Import Mech Matrices Graph World Metrics Drivers Sensitivity Simulation Sampling Main.
From Verif.Spec Require Import TrimSpec GraphSpec MetricSpec DriverSpec SensitivitySpec SimSpec SamplingSpec MainSpec.
From Verif.Proofs Require Import PyFacts NumFacts MetricFacts RunFacts DriverFacts ReduceFacts SaFacts SaPkg ProgFacts
  SamplingFacts SamplingMore SamplingEnd SamplingWhole SamplingTop SamplingLate MainFacts.
Import ListNotations.
Local Open Scope string_scope.

(** ** Names *)

Lemma join_last p b : b <> "" -> last_char (path_join p b) = last_char b.
Proof.
  intros N. unfold path_join. destruct b as [|c b]; [congruence|].
  destruct (Ascii.eqb c slash); [reflexivity|]. destruct (last_char p) as [l|]; [|reflexivity].
  destruct (Ascii.eqb l slash).
  - now apply last_app.
  - rewrite last_app by discriminate. change ("/" ++ String c b) with (String slash (String c b)). reflexivity.
Qed.

Lemma reduced_last p n : last_char (path_join p (reduced_name n)) = Some "l"%char.
Proof.
  rewrite join_last by (unfold reduced_name; discriminate). unfold reduced_name.
  rewrite last_app by (destruct (str_nat n); discriminate). rewrite last_app by discriminate. reflexivity.
Qed.

Lemma sample_not_output p n f : In f sample_files -> f <> path_join p (reduced_name n).
Proof.
  intros I E. pose proof (reduced_last p n) as L. rewrite <- E in L. unfold sample_files in I. simpl in I.
  destruct I as [<-|[<-|[<-|[<-|[<-|[<-|[]]]]]]]; discriminate.
Qed.

Lemma prefix_chars a : forall s c, prefix a s = true -> In c (list_ascii_of_string a) -> In c (list_ascii_of_string s).
Proof.
  induction a as [|x a IH]; intros s c P I; [destruct I|]. destruct s as [|y s]; [discriminate|].
  simpl in P. destruct (ascii_dec x y) as [->|]; [|discriminate]. destruct I as [<-|I]; [left; reflexivity|].
  right. now apply IH.
Qed.

Lemma chars_app a b : list_ascii_of_string (a ++ b) = (list_ascii_of_string a ++ list_ascii_of_string b)%list.
Proof. induction a; simpl; congruence. Qed.

Lemma sample_not_under d f : In f sample_files -> under d f = false.
Proof.
  intros I. destruct (under d f) eqn:U; auto. exfalso. unfold under in U.
  assert (In slash (list_ascii_of_string f)) as S.
  { eapply prefix_chars; [exact U|]. rewrite chars_app. apply in_or_app. right. left. reflexivity. }
  unfold sample_files in I. simpl in I.
  destruct I as [<-|[<-|[<-|[<-|[<-|[<-|[]]]]]]]; simpl in S; intuition discriminate.
Qed.

(** ** Conditions *)

Lemma setup_blind x m m' : same_content m m' -> setup_gas x m = setup_gas x m'.
Proof. intros (E & _). unfold setup_gas, species_names. now rewrite E. Qed.

Lemma conds_blind fuel Ph floor C : physics_blind Ph -> name_blind (conds_of fuel Ph floor C).
Proof.
  intros PB c m m' I S. destruct (PB m m' S) as (R & F & P).
  unfold conds_of in I. cbn [c_ign c_psr c_flame] in I. rewrite !in_app_iff, !in_map_iff in I.
  destruct I as [(x & <- & _)|[(x & <- & _)|(x & <- & _)]].
  - unfold ign_cond. now rewrite (setup_blind _ m m'), R.
  - unfold psr_cond. now rewrite (setup_blind _ m m'), P.
  - unfold flame_cond. now rewrite (setup_blind _ m m'), F.
Qed.

(** ** Reading the saved metrics *)

Lemma part_saved {A} (f : A -> cond) cs model phase out init k w l :
  (cs <> nil -> w_fs w out = Some (FNums l)) -> (cs = nil -> l = nil) -> length l = k ->
  metrics_part model phase (map f cs) out init k true w = (Ok l, w).
Proof.
  intros F N L. unfold metrics_part. destruct cs as [|c cs]; [now rewrite N|]. cbn [map].
  assert (c :: cs <> nil) as NE by discriminate. specialize (F NE).
  unfold mbind, is_file. rewrite F. cbn [andb]. unfold read_nums, mbind, get_file. rewrite F. unfold mlift, mret. cbn [text_array bind flat].
  rewrite L, Nat.eqb_refl. reflexivity.
Qed.

Section Whole.
  Variables (K : machine) (floor : option Q) (C : cases) (a : main_in) (B : limits) (w : world) (sol : mech).
  Hypothesis RD : prepared K C a w sol.
  Notation cs := (conds_of (k_fuel K) (k_physics K) floor C).
  Notation smp := (sampler_for K floor C a).
  Notation J := (graph_job a cs).

  (** What is known after sampling. *)
  Record sampled_ok {R} (rates : mech -> list xnum -> res R) (ref : list xnum) (rops : list R) (w1 : world) : Prop := {
    so_run : sampler_with K rates floor C a w = (Ok (ref, rops), w1);
    so_file : holds w1 (a_file a) (a_phase a) sol;
    so_each : forall rop, In rop rops -> exists state, rates sol state = Ok rop;
    so_metrics : metrics_of cs sol = Ok ref;
    so_rops : ref <> nil -> rops <> nil;
    so_shared : w_shared w1 = w_shared w;
    so_saved : forall model phase v, (forall f, In f sample_files -> w_fs v f = w_fs w1 f) ->
      sample_metrics model phase cs true v = (Ok ref, v);
    so_frame : forall f, ~ In f sample_files -> ~ scratch (a_path a) (length (ca_ign C)) f -> w_fs w1 f = w_fs w f;
    so_scratch : forall f, scratch (a_path a) (length (ca_ign C)) f -> w_fs w1 f = None
  }.

  Lemma load_holds f ph v m : holds v f ph m -> load f ph v = (Ok m, v).
  Proof. intros (phs & F & P). unfold load, mbind, get_file. rewrite F. unfold mlift. now rewrite P. Qed.

  Lemma sampling {R} (rates : mech -> list xnum -> res R) ref rops w1 :
    sampler_with K rates floor C a w = (Ok (ref, rops), w1) -> sampled_ok rates ref rops w1.
  Proof.
    intros E. pose proof E as E0. unfold sampler_with, mbind in E. rewrite (load_holds _ _ _ _ (rd_file _ _ _ _ _ RD)) in E.
    unfold sampler_of, mbind in E.
    destruct (exec (sample (k_torn K) (k_fuel K) (k_physics K) floor (a_file a) (a_phase a) (a_path a) C) w) as [[x|e|] w2] eqn:X;
      try discriminate.
    unfold mlift in E. destruct (mapM (rates sol) (snd x)) as [rs|e|] eqn:RR; try discriminate.
    unfold mret in E. injection E as <- <- <-.
    destruct (fresh_done _ _ _ _ _ _ _ _ _ (rd_samples _ _ _ _ _ RD) (rd_shaped _ _ _ _ _ RD) (rd_starts _ _ _ _ _ RD) _ _ _
                (rd_file _ _ _ _ _ RD) (rd_fresh _ _ _ _ _ RD) X) as (xi & xp & xf & ME & Ex & SI & SP & SF & SC & FR).
    pose proof (proj1 (no_self_error _ _ _ _ _ _ _ _ _ _ _ _ (rd_samples _ _ _ _ _ RD) (rd_shaped _ _ _ _ _ RD)
                 (rd_starts _ _ _ _ _ RD) (rd_file _ _ _ _ _ RD) (rd_fresh _ _ _ _ _ RD) X)) as MO.
    destruct (proj1 (measured_iff _ _ _ _ _ _ _ _ (rd_starts _ _ _ _ _ RD)) ME) as (MI & MP & MF).
    pose proof (ign_sized _ _ _ _ (rd_shaped _ _ _ _ _ RD) _ MI) as [LI RI _].
    pose proof (psr_sized _ _ _ (rd_shaped _ _ _ _ _ RD) _ MP) as [LP RP _].
    pose proof (flame_sized _ _ _ _ (rd_shaped _ _ _ _ _ RD) _ MF) as [LF RF _].
    assert (w_fs w2 (a_file a) = w_fs w (a_file a)) as FF.
    { apply FR; apply (rd_samples _ _ _ _ _ RD). }
    constructor; auto.
    - destruct (rd_file _ _ _ _ _ RD) as (phs & F & P). exists phs. split; auto. congruence.
    - intros rop I. clear - RR I. revert rs RR I. induction (snd x) as [|y l IH]; intros rs E I; cbn [mapM] in E.
      + injection E as <-. destruct I.
      + destruct (rates sol y) as [z|e|] eqn:Z; try discriminate. cbn [bind] in E.
        destruct (mapM (rates sol) l) as [zs|e|]; try discriminate. injection E as <-. destruct I as [<-|I]; eauto.
    - intros N Z. apply N. apply mapM_length in RR. rewrite Z in RR. simpl in RR.
      rewrite Ex in RR. rewrite <- together_app in RR. cbn [snd] in RR. rewrite !app_length, RI, RP, RF in RR.
      rewrite Ex, <- together_app. cbn [fst]. apply length_zero_iff_nil. rewrite !app_length, LI, LP, LF. lia.
    - pose proof (exec_shared (sample (k_torn K) (k_fuel K) (k_physics K) floor (a_file a) (a_phase a) (a_path a) C) w) as Sh.
      rewrite X in Sh. exact Sh.
    - intros model phase v SV. unfold sample_metrics, mbind, conds_of. cbn [c_ign c_psr c_flame]. rewrite !map_length.
      rewrite (part_saved _ _ _ _ _ _ _ _ (fst (together xi))).
      2:{ intros NE. rewrite SV by (unfold sample_files; simpl; tauto). unfold saved_for in SI. destruct (ca_ign C); [contradiction|apply SI]. }
      2:{ intros Z. apply length_zero_iff_nil. rewrite LI, Z. reflexivity. }
      2:{ rewrite LI. lia. }
      rewrite (part_saved _ _ _ _ _ _ _ _ (fst (together xp))).
      2:{ intros NE. rewrite SV by (unfold sample_files; simpl; tauto). unfold saved_for in SP. destruct (ca_psr C); [contradiction|apply SP]. }
      2:{ intros Z. apply length_zero_iff_nil. rewrite LP, Z. reflexivity. }
      2:{ rewrite LP. lia. }
      rewrite (part_saved _ _ _ _ _ _ _ _ (fst (together xf))).
      2:{ intros NE. rewrite SV by (unfold sample_files; simpl; tauto). unfold saved_for in SF. destruct (ca_flame C); [contradiction|apply SF]. }
      2:{ intros Z. apply length_zero_iff_nil. rewrite LF, Z. reflexivity. }
      2:{ rewrite LF. lia. }
      unfold mret. rewrite Ex, <- together_app. reflexivity.
  Qed.

  Lemma so_started ref rops w1 : sampled_ok (k_rates K) ref rops w1 -> started J smp w sol ref rops w1.
  Proof.
    intros SO. constructor; [apply RD|apply RD|apply RD|exact (rd_apart _ _ _ _ _ RD)|exact (so_run _ _ _ _ SO)|exact (so_file _ _ _ _ SO)].
  Qed.

  Lemma run_sampled me r w' : 
    run me exactA (floor_of me) (b_thr B) (b_path B) J smp (a_limit a) w = (Ok r, w') ->
    exists ref rops w1, smp w = (Ok (ref, rops), w1).
  Proof.
    intros E. destruct me; unfold run, run_drg, run_pfa, run_drgep, mbind in E;
      cbn [graph_job j_file j_phase j_targets] in E; rewrite (load_holds _ _ _ _ (rd_file _ _ _ _ _ RD)) in E;
      destruct (a_targets a); try discriminate;
      destruct (smp w) as [[[ref rops]|e|] w1] eqn:S; try discriminate; eauto.
  Qed.

  Lemma is_fair ref rops w1 : sampled_ok (k_rates K) ref rops w1 -> well_posed K floor C sol ->
    fair J sol ref (a_limit a).
  Proof.
    intros SO WP. destruct (WP ref (so_metrics _ _ _ _ SO)) as [N P]. constructor.
    - apply conds_blind. apply RD.
    - apply RD.
    - destruct (self_error ref N P) as (e & E & Z). exists (Fin e). unfold error_of. cbn [graph_job j_conds].
      rewrite (so_metrics _ _ _ _ SO). split; [exact E|].
      pose proof (rd_limit _ _ _ _ _ RD) as L. destruct (a_limit a) as [l| | |]; try discriminate; auto.
      simpl in *. apply Qle_bool_iff in L. apply Qle_bool_iff. lra.
  Qed.

  Lemma temps_after {R} (rates : mech -> list xnum -> res R) ref rops w1 : sampled_ok rates ref rops w1 -> temps_ok w (a_path a) B -> temps_ok w1 (a_path a) B.
  Proof.
    intros SO ([N1 N2 AP F1 F2] & O1 & O2).
    assert (forall d f, under d f = true -> w_fs w f = None -> w_fs w1 f = None) as G.
    { intros d f U Z. destruct (some_or_none (fun i f => f = h5_name (a_path a) i) (fun i f => h5_dec (a_path a) i f)
                            (length (ca_ign C)) f) as [(i & L & E)|H].
      - apply (so_scratch _ _ _ _ SO). now exists i.
      - rewrite (so_frame _ _ _ _ SO); auto.
        + intros I. rewrite (sample_not_under d f I) in U. discriminate.
        + intros (i & L & E). exact (H i L E). }
    split; [|auto]. constructor; eauto.
  Qed.

  Lemma whole me r w' : a_method a = method_name me -> well_posed K floor C sol ->
    (a_sa a = true -> temps_ok w (a_path a) B) ->
    main_on exactA floor5 floor6 B K floor C a w = (Ok r, w') ->
    exists ref, metrics_of cs sol = Ok ref /\
      error_of cs ref (r_model r) = Ok (r_error r) /\
      (xle (r_error r) (a_limit a) = true \/ (a_sa a = true /\ r_error r = NaN)) /\
      w_fs w' (path_join (a_path a) (reduced_name (n_species (r_model r)))) = Some (FMech [r_model r]) /\
      (forall f, ~ In f sample_files -> ~ scratch (a_path a) (length (ca_ign C)) f ->
         (forall n, f <> path_join (a_path a) (reduced_name n)) -> w_fs w' f = w_fs w f) /\
      ((a_sa a = true -> limbo_harmless me a w) ->
       forall s, In s (a_targets a ++ a_safe a) -> In s (species_names sol) -> In s (species_names (r_model r))).
  Proof.
    intros NA WP TE E. unfold main_on in E. pose proof E as E0.
    rewrite (main_graph me) in E by (auto; apply RD). rewrite exact_floor in E.
    destruct (run me exactA (floor_of me) (b_thr B) (b_path B) J smp (a_limit a) w) as [[r1|e|] w2] eqn:R; try discriminate.
    destruct (run_sampled _ _ _ R) as (ref & rops & w1 & S). pose proof (sampling (k_rates K) _ _ _ S) as SO.
    pose proof (is_fair _ _ _ SO WP) as FA. pose proof (so_started _ _ _ SO) as ST.
    exists ref. split; [apply SO|].
    destruct (driver_file _ _ _ _ _ _ _ _ _ ST exactA _ _ _ _ _ R) as (F1 & F2 & F3 & F4 & _).
    pose proof (driver_within _ _ _ _ _ _ _ _ _ ST FA _ _ _ _ R) as Wi.
    pose proof (after_frame me a cs B smp w sol ref rops w1 ST r1 w2 R) as FR.
    assert (forall s, (a_sa a = true -> limbo_harmless me a w) -> In s (a_targets a ++ a_safe a) -> In s (species_names sol) ->
              In s (species_names (r_model r))) as KE.
    { intros s LH Hs Hn. eapply (main_keeps me a cs B smp w sol ref rops w1); eauto.
      - apply (so_rops _ _ _ _ SO). apply (WP ref). apply SO.
      - intros Sa. split; [eapply temps_after; eauto|]. specialize (LH Sa). unfold limbo_harmless in *.
        destruct me; auto. now rewrite (so_shared _ _ _ _ SO). }
    destruct (a_sa a) eqn:Sa.
    - pose proof (temps_after _ _ _ _ SO (TE eq_refl)) as TE1.
      pose proof (after_started me a cs B smp w sol ref rops w1 ST FA r1 w2 R TE1) as SS.
      assert (found (sa_after a cs (r_file r1) (r_error r1) (r_limbo r1)) w2 ref) as RF.
      { apply (so_saved _ _ _ _ SO). intros f I. apply FR. intros n. unfold out_file. cbn [graph_job j_path].
        now apply sample_not_output. }
      assert (a_limit a <> NaN) as NN.
      { intros Z. pose proof (rd_limit _ _ _ _ _ RD) as L. rewrite Z in L. discriminate. }
      destruct (sa_file_name _ _ _ _ _ _ _ _ SS E) as (G1 & G2 & _).
      split; [|split; [|split; [|split]]].
      + destruct (sa_limit _ _ _ _ _ _ _ _ _ SS RF NN E) as [(-> & ->)|[G _]]; [exact F4|exact G].
      + destruct (sa_limit _ _ _ _ _ _ _ _ _ SS RF NN E) as [(_ & ->)|[_ [G|G]]]; auto.
      + rewrite <- G1. exact G2.
      + intros f I1 I2 I3. destruct (sa_frame _ _ _ _ _ (b_sa B) f SS) as [G _]. rewrite E in G. cbn [snd] in G.
        rewrite G by exact I3. rewrite FR by exact I3. now apply (so_frame _ _ _ _ SO).
      + intros LH s. now apply KE.
    - injection E as <- <-. split; [exact F4|]. split; [now left|]. split; [|split].
      + rewrite F1 in F2. exact F2.
      + intros f I1 I2 I3. rewrite FR by exact I3. now apply (so_frame _ _ _ _ SO).
      + intros LH s. now apply KE.
  Qed.
End Whole.
