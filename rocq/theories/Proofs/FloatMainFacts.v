(** From a fresh directory to the result of [main] with doubles. *)
From Coq Require Import String List ZArith QArith Qabs Bool Arith Lia Lqa.
From Verif.Base Require Import Py Num XNum Paths B64.
From Verif.Model Require Import Mech Matrices Graph World Metrics Drivers Sensitivity Simulation Sampling Main
  FloatDrivers FloatMatrix FloatRun DoubleError FloatMain.
From Verif.Spec Require Import TrimSpec GraphSpec MetricSpec DriverSpec SensitivitySpec SimSpec SamplingSpec MainSpec
  FloatSpec FloatMatrixSpec FloatRunSpec DoubleErrorSpec FloatMainSpec.
From Verif.Proofs Require Import PyFacts NumFacts MetricFacts TrimFacts SaFacts SaPkg SamplingFacts SamplingLate SamplingTop RunFacts MainFacts MainEnd MainCli
  FloatFacts FloatDriverFacts FloatImportance FloatRunMain FloatRunExact DoubleErrorFacts DoubleErrorMain.
Import ListNotations.
Local Open Scope string_scope.

Lemma fmain_graph me B K rates floor C a w : a_method a = method_name me -> a_targets a <> nil ->
  let cs := double_conds (conds_of (k_fuel K) (k_physics K) floor C) in
  fmain B K rates floor C a w =
  match frun me (b_thr B) (b_path B) (graph_job a cs) (sampler_with K rates floor C a) (a_limit a) w with
  | (Ok r, w2) =>
      if a_sa a then run_sa (b_sa B) (b_tmp B) (b_tmp2 B) (sa_with double_distance a cs (r_file r) (r_error r) (r_limbo r)) w2
      else (Ok r, w2)
  | (Raise e, w2) => (Raise e, w2)
  | (NoFuel, w2) => (NoFuel, w2)
  end.
Proof. intros E T. unfold fmain. rewrite (main_with_graph me) by auto. now destruct me. Qed.

Lemma mapM_of {A B} (f : A -> res B) l l' : Forall2 (fun x y => f x = Ok y) l l' -> mapM f l = Ok l'.
Proof. induction 1 as [|x y l l' H _ IH]; [reflexivity|]. cbn [mapM]. now rewrite H, IH. Qed.

Lemma of_mapM {A B} (f : A -> res B) l : forall l', mapM f l = Ok l' -> Forall2 (fun x y => f x = Ok y) l l'.
Proof.
  induction l as [|x l IH]; intros l' E; cbn [mapM] in E.
  - injection E as <-. constructor.
  - destruct (f x) as [y|e|] eqn:F; try discriminate. cbn [bind] in E. destruct (mapM f l) as [t|e|]; try discriminate.
    injection E as <-. constructor; auto.
Qed.

Section After.
  Variables (me : method) (a : main_in) (cs : conds) (B : limits) (smp : fsampler) (w : world) (sol : mech).
  Variables (sampled : list xnum) (rops : list (list b64)) (w1 : world).
  Notation J := (graph_job a cs).
  Hypothesis NAME : a_method a = method_name me.
  Hypothesis ST : fstarted J smp w sol sampled rops w1.
  Hypothesis TA : tame J sol rops.
  Hypothesis FA : fair J sol sampled (a_limit a).

  Variables (r : rmodel) (w2 : world).
  Hypothesis R : frun me (b_thr B) (b_path B) J smp (a_limit a) w = (Ok r, w2).
  Hypothesis T : temps_ok w1 (a_path a) B.

  Lemma fafter_wf : wf_mech (r_model r).
  Proof.
    destruct (fdriver_scan _ _ _ _ _ _ _ _ _ ST TA FA _ _ _ _ R) as (j & n & t & _ & _ & _ & _ & _ & _ & rm & _ & C).
    eapply trim_no_dangling; [apply (fs_wf _ _ _ _ _ _ _ ST)|exact C].
  Qed.

  Lemma fafter_frame g : (forall n, g <> out_file J n) -> w_fs w2 g = w_fs w1 g.
  Proof.
    intros G. pose proof (fdriver_frame me J smp w sol sampled rops w1 (a_limit a) ST TA (b_thr B) (b_path B) g) as H.
    rewrite R in H. apply H. exact G.
  Qed.

  Lemma fafter_temps : temps w2 (b_tmp B) (b_tmp2 B).
  Proof.
    destruct T as ([N1 N2 AP F1 F2] & O1 & O2). constructor; auto.
    - intros f U. rewrite fafter_frame; auto. intros n ->. unfold out_file in U. cbn [j_path graph_job] in U. rewrite O1 in U. discriminate.
    - intros f U. rewrite fafter_frame; auto. intros n ->. unfold out_file in U. cbn [j_path graph_job] in U. rewrite O2 in U. discriminate.
  Qed.

  Lemma fafter_started : sa_started (sa_with double_distance a cs (r_file r) (r_error r) (r_limbo r)) w2 (b_tmp B) (b_tmp2 B) (r_model r).
  Proof.
    constructor; [apply fafter_wf| |apply fafter_temps].
    exact (proj1 (proj2 (proj2 (fdriver_file _ _ _ _ _ _ _ _ _ ST TA _ _ _ _ R)))).
  Qed.

  Lemma flimbo_case : rops <> nil -> limbo_harmless me a w1 ->
    forall s, In s (a_targets a ++ a_safe a) -> ~ In s (given_limbo w2 (r_limbo r)).
  Proof.
    intros NE LH s Hs Hg.
    destruct (fdriver_file _ _ _ _ _ _ _ _ _ ST TA _ _ _ _ R) as (_ & _ & _ & _ & L & L1 & L2).
    destruct me.
    - destruct L as (ss & E & L). rewrite E in Hg. cbn [given_limbo] in Hg. cbn [limbo_harmless] in LH.
      cbn [j_upper graph_job] in L. rewrite NAME in L. cbn [method_name] in L.
      change (String.eqb "DRG" "PFA") with false in L. cbv iota in L. rewrite LH in L. subst ss. destruct Hg.
    - cbn [flimbo_spec] in L. rewrite L in Hg. destruct Hg.
    - cbn [flimbo_spec] in L. rewrite L in Hg. cbn [given_limbo] in Hg. destruct LH as [N U].
      destruct (L2 eq_refl) as (l & E & D). rewrite N in E. cbn [app] in E. rewrite E in Hg. clear E.
      unfold fdrgep_limbo in D. destruct (truthy (j_upper J)) eqn:Tr; [|subst l; destruct Hg].
      destruct D as [_ D]. apply D in Hg. destruct Hg as (Hn & Ns & c & Ic & Lc).
      apply in_app_or in Hs. destruct Hs as [Hs|Hs]; [|contradiction].
      assert (upper_of J <= 1)%Q as Le.
      { unfold upper_of. cbn [j_upper graph_job]. rewrite NAME. cbn [method_name].
        change (String.eqb "DRGEP" "PFA") with false. cbv iota. destruct (a_upper a) as [u|] eqn:Eu; [apply U; auto|lra]. }
      pose proof (proj2 (fs_job _ _ _ _ _ _ _ ST) s Hs) as Hn'.
      destruct (fimp_unit J smp w sol sampled rops w1 ST TA s c Hn' Ic) as (d & Ud & Id & Ed).
      pose proof (fimportance_target _ _ _ s d (drgep_funit J sol rops TA) (fmatrices_nil sol rops DRGEP NE) Hs Hn' Ud Id). lra.
  Qed.
End After.

Section Whole.
  Variables (K : machine) (rates : mech -> list xnum -> res (list b64)) (floor : option Q) (C : cases) (a : main_in).
  Variables (B : limits) (w : world) (sol : mech).
  Hypothesis RD : prepared K C a w sol.
  Hypothesis DP : double_posed K rates floor C a sol.
  Notation xs := (conds_of (k_fuel K) (k_physics K) floor C).
  Notation cs := (double_conds xs).
  Notation smp := (sampler_with K rates floor C a).
  Notation J := (graph_job a cs).

  Lemma f_started ref rops w1 : sampled_ok K floor C a w sol rates ref rops w1 -> fstarted J smp w sol ref rops w1.
  Proof.
    intros SO. constructor; [apply RD|apply RD|apply RD|exact (rd_apart _ _ _ _ _ RD)|apply SO|apply SO].
  Qed.

  Lemma f_tame ref rops w1 : sampled_ok K floor C a w sol rates ref rops w1 -> tame J sol rops.
  Proof.
    intros SO. constructor.
    - intros rop I. destruct (so_each _ _ _ _ _ _ _ _ _ _ SO rop I) as (st & E). exact (dp_rates _ _ _ _ _ _ DP _ _ E).
    - exact (dp_size _ _ _ _ _ _ DP).
    - intros u. cbn [graph_job j_upper]. destruct (String.eqb (a_method a) "PFA"); [discriminate|]. apply (dp_upper _ _ _ _ _ _ DP).
  Qed.

  Lemma f_metrics ref : metrics_of xs sol = Ok ref -> double_metrics J ref.
  Proof.
    intros E. destruct (dp_detailed _ _ _ _ _ _ DP ref E) as [N D]. split; auto. split; auto.
    intros m ts Em. change (metrics_of xs m = Ok ts) in Em. split.
    - rewrite (metrics_length _ _ _ _ _ _ E). exact (metrics_length _ _ _ _ _ _ Em).
    - exact (dp_candidates _ _ _ _ _ _ DP m ts Em).
  Qed.

  (** An error is a finite number. *)
  Lemma f_error ref m e : metrics_of xs sol = Ok ref -> error_of cs ref m = Ok e -> exists q, e = Fin q.
  Proof.
    intros E X. destruct (f_metrics ref E) as (N & D & H). unfold error_of in X.
    destruct (metrics_of cs m) as [ts|x|] eqn:Em; try discriminate. destruct (H m ts Em) as [L T].
    cbn [bind double_conds c_error] in X. destruct (both_errors ref ts N L D T) as (q & f & _ & F & _).
    rewrite F in X. injection X as <-. eauto.
  Qed.

  Lemma f_fair ref rops w1 : sampled_ok K floor C a w sol rates ref rops w1 -> fair J sol ref (a_limit a).
  Proof.
    intros SO. pose proof (so_metrics _ _ _ _ _ _ _ _ _ _ SO) as E. destruct (f_metrics ref E) as (N & D & H). constructor.
    - exact (conds_blind (k_fuel K) (k_physics K) floor C (rd_blind _ _ _ _ _ RD)).
    - apply RD.
    - destruct (H sol ref E) as [L T]. destruct (both_errors ref ref N L D T) as (e & f & X1 & X2 & _ & X3).
      destruct (self_error ref N) as (z & Z1 & Z2).
      { intros x Ix. destruct (metric_of_x x (D x Ix)) as (q & -> & Pq & _). exists q. auto. }
      rewrite X1 in Z1. injection Z1 as <-. exists (Fin f). split.
      + unfold error_of. change (metrics_of (j_conds J) sol) with (metrics_of xs sol). rewrite E. exact X2.
      + pose proof (rd_limit _ _ _ _ _ RD) as Li. destruct (a_limit a) as [l| | |]; try discriminate; auto.
        simpl in Li |- *. apply Qle_bool_iff in Li. apply Qle_bool_iff. rewrite Z2 in X3.
        apply Qabs_Qle_condition in X3. destruct X3 as [_ X3]. rewrite Qmult_0_r in X3. lra.
  Qed.

  Lemma gives_sampled ref rops : detailed_gives K rates floor C sol ref rops -> exists w1, sampled_ok K floor C a w sol rates ref rops w1.
  Proof.
    intros (xi & xp & xf & ME & -> & RA).
    destruct (fresh_measures (k_torn K) (k_fuel K) (k_physics K) floor (a_file a) (a_phase a) (a_path a) C sol
                (rd_samples _ _ _ _ _ RD) (rd_shaped _ _ _ _ _ RD) (rd_starts _ _ _ _ _ RD) w xi xp xf
                (rd_file _ _ _ _ _ RD) (rd_fresh _ _ _ _ _ RD) ME) as (w1 & E).
    exists w1. apply (sampling K floor C a w sol RD). unfold sampler_with, mbind.
    rewrite (load_holds _ _ _ _ (rd_file _ _ _ _ _ RD)). unfold sampler_of, mbind. rewrite E.
    unfold mlift. now rewrite (mapM_of _ _ _ RA).
  Qed.

  Lemma sampled_gives ref rops w1 : smp w = (Ok (ref, rops), w1) -> detailed_gives K rates floor C sol ref rops.
  Proof.
    unfold sampler_with, mbind. rewrite (load_holds _ _ _ _ (rd_file _ _ _ _ _ RD)). unfold sampler_of, mbind, mlift, mret.
    destruct (exec _ w) as [[r|e|] w2] eqn:E; try discriminate.
    destruct (mapM (rates sol) (snd r)) as [x|e|] eqn:M; try discriminate. intros X. injection X as <- <- _.
    destruct (fresh_done (k_torn K) (k_fuel K) (k_physics K) floor (a_file a) (a_phase a) (a_path a) C sol
                (rd_samples _ _ _ _ _ RD) (rd_shaped _ _ _ _ _ RD) (rd_starts _ _ _ _ _ RD) w r w2
                (rd_file _ _ _ _ _ RD) (rd_fresh _ _ _ _ _ RD) E) as (xi & xp & xf & ME & -> & _).
    exists xi, xp, xf. split; [exact ME|]. split; [reflexivity|]. now apply of_mapM.
  Qed.

  Lemma frun_sampled me r w' : frun me (b_thr B) (b_path B) J smp (a_limit a) w = (Ok r, w') ->
    exists ref rops w1, smp w = (Ok (ref, rops), w1).
  Proof.
    intros E. destruct me; unfold frun, frun_drg, frun_pfa, frun_drgep, mbind in E;
      cbn [graph_job j_file j_phase j_targets] in E; rewrite (load_holds _ _ _ _ (rd_file _ _ _ _ _ RD)) in E;
      destruct (a_targets a); try discriminate;
      destruct (smp w) as [[[ref rops]|e|] w1] eqn:S; try discriminate; eauto.
  Qed.

  Lemma fwhole me r w' : a_method a = method_name me -> (a_sa a = true -> temps_ok w (a_path a) B) ->
    fmain B K rates floor C a w = (Ok r, w') ->
    exists ref e, metrics_of xs sol = Ok ref /\
      error_of cs ref (r_model r) = Ok (r_error r) /\ r_error r = Fin e /\
      (~ at_the_edge me K rates floor C a sol -> xle (r_error r) (a_limit a) = true) /\
      w_fs w' (path_join (a_path a) (reduced_name (n_species (r_model r)))) = Some (FMech [r_model r]) /\
      (forall f, ~ In f sample_files -> ~ scratch (a_path a) (length (ca_ign C)) f ->
         (forall n, f <> path_join (a_path a) (reduced_name n)) -> w_fs w' f = w_fs w f) /\
      ((a_sa a = true -> limbo_harmless me a w) ->
       forall s, In s (a_targets a ++ a_safe a) -> In s (species_names sol) -> In s (species_names (r_model r))).
  Proof.
    intros NA TE E. rewrite (fmain_graph me) in E by (auto; apply RD). cbn zeta in E.
    destruct (frun me (b_thr B) (b_path B) J smp (a_limit a) w) as [[r1|e|] w2] eqn:R; try discriminate.
    destruct (frun_sampled _ _ _ R) as (ref & rops & w1 & S).
    pose proof (sampling K floor C a w sol RD rates _ _ _ S) as SO.
    pose proof (so_metrics _ _ _ _ _ _ _ _ _ _ SO) as ME.
    pose proof (f_fair _ _ _ SO) as FA. pose proof (f_started _ _ _ SO) as ST. pose proof (f_tame _ _ _ SO) as TA.
    destruct (fdriver_file _ _ _ _ _ _ _ _ _ ST TA _ _ _ _ R) as (F1 & F2 & F3 & F4 & _).
    assert (~ at_the_edge me K rates floor C a sol -> xle (r_error r1) (a_limit a) = true) as Wi.
    { intros NE. destruct (fdriver_within me J smp w sol ref rops w1 (a_limit a) ST TA FA _ _ _ _ R) as (j & n & Hj & H1 & H2 & H3 & H4).
      apply H4. intros Cl. apply NE. exists ref, rops, j, n. split; [exact (sampled_gives _ _ _ S)|]. auto 10. }
    pose proof (fafter_frame me a cs B smp w sol ref rops w1 ST TA r1 w2 R) as FR.
    assert (rops <> nil) as NR.
    { apply (so_rops _ _ _ _ _ _ _ _ _ _ SO). apply (dp_detailed _ _ _ _ _ _ DP ref ME). }
    destruct (fdriver_keeps me J smp w sol ref rops w1 (a_limit a) ST TA FA _ _ _ _ NR R) as [KT KS].
    assert (forall s, In s (a_targets a ++ a_safe a) -> In s (species_names sol) -> In s (species_names (r_model r1))) as K1.
    { intros s Hs Hn. apply in_app_or in Hs. destruct Hs as [Hs|Hs]; [now apply KT|now apply KS]. }
    assert (exists q, r_error r1 = Fin q) as (q1 & Q1) by (eapply f_error; eauto).
    exists ref.
    destruct (a_sa a) eqn:Sa.
    - pose proof (temps_after K floor C a B w sol rates _ _ _ SO (TE eq_refl)) as TE1.
      pose proof (fafter_started me a cs B smp w sol ref rops w1 ST TA FA r1 w2 R TE1) as SS.
      assert (found (sa_with double_distance a cs (r_file r1) (r_error r1) (r_limbo r1)) w2 ref) as RF.
      { apply (so_saved _ _ _ _ _ _ _ _ _ _ SO). intros f I. apply FR. intros n. unfold out_file. cbn [graph_job j_path].
        now apply sample_not_output. }
      assert (a_limit a <> NaN) as NN.
      { intros Z. pose proof (rd_limit _ _ _ _ _ RD) as L. rewrite Z in L. discriminate. }
      destruct (sa_file_name _ _ _ _ _ _ _ _ SS E) as (G1 & G2 & _).
      assert (error_of cs ref (r_model r) = Ok (r_error r)) as ER.
      { destruct (sa_limit _ _ _ _ _ _ _ _ _ SS RF NN E) as [(-> & ->)|[G _]]; [exact F4|exact G]. }
      destruct (f_error ref _ _ ME ER) as (q & Eq). exists q.
      split; [exact ME|]. split; [exact ER|]. split; [exact Eq|]. split; [|split; [|split]].
      + intros NE. destruct (sa_limit _ _ _ _ _ _ _ _ _ SS RF NN E) as [(_ & ->)|[_ [G|G]]]; auto. congruence.
      + rewrite <- G1. exact G2.
      + intros f I1 I2 I3. destruct (sa_frame _ _ _ _ _ (b_sa B) f SS) as [G _]. rewrite E in G. cbn [snd] in G.
        rewrite G by exact I3. rewrite FR by exact I3. now apply (so_frame _ _ _ _ _ _ _ _ _ _ SO).
      + intros LH s Hs Hn. eapply (sa_keeps _ _ _ _ _ _ _ _ SS); [|exact E|exact Hs|auto].
        intros x Hx. eapply (flimbo_case me a cs B smp w sol ref rops w1 NA ST TA r1 w2 R); eauto.
        specialize (LH eq_refl). unfold limbo_harmless in *. destruct me; auto.
        now rewrite (so_shared _ _ _ _ _ _ _ _ _ _ SO).
    - injection E as <- <-. exists q1. split; [exact ME|]. split; [exact F4|]. split; [exact Q1|]. split; [exact Wi|]. split; [|split].
      + rewrite F1 in F2. exact F2.
      + intros f I1 I2 I3. rewrite FR by exact I3. now apply (so_frame _ _ _ _ _ _ _ _ _ _ SO).
      + intros _. exact K1.
  Qed.

  Lemma fwhole_close me r w' l : a_method a = method_name me -> (a_sa a = true -> temps_ok w (a_path a) B) ->
    a_limit a = Fin l -> (l <= 99)%Q -> ~ at_the_edge me K rates floor C a sol ->
    fmain B K rates floor C a w = (Ok r, w') ->
    exists ref ts, metrics_of xs sol = Ok ref /\ metrics_of xs (r_model r) = Ok ts /\
      length ref = n_metrics C /\ length ts = n_metrics C /\
      forall o t, In (o, t) (combine ref ts) -> usable t /\ within (l * (1 + (2 # 1) ^ (-50))) o t.
  Proof.
    intros NA TE LM L99 NE E. destruct (fwhole me r w' NA TE E) as (ref & e & MR & ER & _ & LE & _). specialize (LE NE).
    unfold error_of in ER. change (metrics_of cs (r_model r)) with (metrics_of xs (r_model r)) in ER.
    destruct (metrics_of xs (r_model r)) as [ts|x|] eqn:MT; try discriminate. cbn [bind double_conds c_error] in ER.
    destruct (f_metrics ref MR) as (N & D & H). destruct (H (r_model r) ts MT) as [L T].
    exists ref, ts. split; [exact MR|]. split; [reflexivity|].
    split; [exact (metrics_length _ _ _ _ _ _ MR)|]. split; [exact (metrics_length _ _ _ _ _ _ MT)|].
    rewrite LM in LE. pose proof (rd_limit _ _ _ _ _ RD) as L0. rewrite LM in L0. simpl in L0. apply Qle_bool_iff in L0.
    eapply double_le_within; eauto.
  Qed.
End Whole.
