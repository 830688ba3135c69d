(** Whole runs with doubles that end as documented. *)
From Coq Require Import String List ZArith QArith Qabs Bool Arith Lia.
From Verif.Base Require Import Py Num XNum Paths B64.
From Verif.Model Require Import Mech Matrices Graph World Metrics Drivers Sensitivity Simulation Sampling Inputs Main Cli
  FloatDrivers FloatMatrix FloatRun DoubleError FloatMain Pool PoolMain Program.
From Verif.Spec Require Import TrimSpec GraphSpec MetricSpec DriverSpec SensitivitySpec SimSpec SamplingSpec InputSpec ArgsSpec MainSpec CliSpec
  FloatSpec FloatMatrixSpec FloatRunSpec DoubleErrorSpec FloatMainSpec FloatAgreeSpec ProgramSpec FloatWholeSpec.
From Verif.Proofs Require Import PyFacts SaMore SaFacts SaPkg SamplingTop MainFacts MainEnd MainMore CliMain FloatRunMain FloatMainFacts FloatAgreeFacts PoolMainFacts ProgramFacts
  InputFacts InputMore InputEnd InputChecks ArgsFacts.
Import ListNotations.
Local Open Scope string_scope.

Section Whole.
  Variables (me : method) (n : nat) (K : machine) (rates : mech -> list xnum -> res (list b64)) (floor : option Q) (C : cases) (a : main_in).
  Variables (B : limits) (w : world) (sol : mech) (ref : list xnum) (rops : list (list b64)).
  Hypothesis RD : prepared K C a w sol.
  Hypothesis DP : double_posed K rates floor C a sol.
  Hypothesis NA : a_method a = method_name me.
  Notation J := (job_for K floor C a).
  Notation smp := (sampler_with K rates floor C a).

  Lemma sampled_rates w1 : sampled_ok K floor C a w sol rates ref rops w1 -> rops <> nil.
  Proof.
    intros SO. apply (so_rops _ _ _ _ _ _ _ _ _ _ SO).
    apply (dp_detailed _ _ _ _ _ _ DP ref (so_metrics _ _ _ _ _ _ _ _ _ _ SO)).
  Qed.

  Lemma fmain_documented j k : a_sa a = false -> documented_at me n K rates floor C a B sol ref rops j k ->
    exists r w', fmain B K rates floor C a w = (Ok r, w') /\
      cut_to J sol (xkept me J sol rops (times k (start_at j))) (r_model r) /\ xle (r_error r) (a_limit a) = true /\
      w_fs w' (path_join (a_path a) (reduced_name (n_species (r_model r)))) = Some (FMech [r_model r]).
  Proof.
    intros SA [G ME Hj Hk SC O1 O2 SE FU]. destruct (gives_sampled K rates floor C a w sol RD ref rops G) as (w1 & SO).
    pose proof (f_started K rates floor C a w sol RD _ _ _ SO) as ST.
    pose proof (f_tame K rates floor C a w sol DP _ _ _ SO) as TA.
    pose proof (f_fair K rates floor C a w sol RD DP _ _ _ SO) as FA.
    pose proof (sampled_rates w1 SO) as NR.
    destruct (fdriver_documented me J smp w sol ref rops w1 (a_limit a) ST TA FA n ME (b_thr B) (b_path B) j k NR SE Hj Hk SC O1 O2 FU)
      as (r & w' & R & CU & LE).
    exists r, w'. destruct (fdriver_file _ _ _ _ _ _ _ _ _ ST TA _ _ _ _ R) as (F1 & F2 & _).
    split; [|split; [exact CU|split; [exact LE|]]].
    - rewrite (fmain_graph me) by (auto; apply RD). cbn zeta. fold J. unfold job_for in R. unfold job_for. rewrite R, SA. reflexivity.
    - rewrite F1 in F2. exact F2.
  Qed.

  Lemma fmain_gives_up : fails_at_all me n K rates floor C a B sol ref rops ->
    fst (fmain B K rates floor C a w) = Raise SystemExit.
  Proof.
    intros [G ME AL NX SE FU]. destruct (gives_sampled K rates floor C a w sol RD ref rops G) as (w1 & SO).
    pose proof (f_started K rates floor C a w sol RD _ _ _ SO) as ST.
    pose proof (f_tame K rates floor C a w sol DP _ _ _ SO) as TA.
    pose proof (f_fair K rates floor C a w sol RD DP _ _ _ SO) as FA.
    pose proof (sampled_rates w1 SO) as NR.
    pose proof (fdriver_documented_exit me J smp w sol ref rops w1 (a_limit a) ST TA FA n ME (b_thr B) (b_path B) NX NR SE FU AL) as X.
    rewrite (fmain_graph me) by (auto; apply RD). cbn zeta. unfold job_for in X.
    destruct (frun me (b_thr B) (b_path B) _ smp (a_limit a) w) as [[r|e|] w2]; cbn [fst] in *; try discriminate. congruence.
  Qed.

  Lemma procs_documented cpus threads j k : (1 <= cpus)%Z -> (0 <= threads)%Z ->
    a_sa a = false -> documented_at me n K rates floor C a B sol ref rops j k ->
    exists r w', main_procs cpus threads B K rates floor C a w (Ok r) w' /\
      (forall x w2, main_procs cpus threads B K rates floor C a w x w2 -> x <> NoFuel -> x = Ok r /\ w2 = w') /\
      cut_to J sol (xkept me J sol rops (times k (start_at j))) (r_model r) /\ xle (r_error r) (a_limit a) = true /\
      w_fs w' (path_join (a_path a) (reduced_name (n_species (r_model r)))) = Some (FMech [r_model r]).
  Proof.
    intros CP TH SA D. destruct (fmain_documented j k SA D) as (r & w' & E & H). pose proof (rd_samples _ _ _ _ _ RD) as AP.
    exists r, w'. split; [now apply main_any|]. split; [|exact H].
    intros x w2 X NF. destruct x as [r2|e|]; [|exfalso|contradiction].
    - apply main_any in X; auto. rewrite E in X. injection X as <- <-. auto.
    - eapply main_bad; eauto.
  Qed.

  Lemma procs_gives_up cpus threads : (1 <= cpus)%Z -> (0 <= threads)%Z ->
    fails_at_all me n K rates floor C a B sol ref rops ->
    (forall r w', ~ main_procs cpus threads B K rates floor C a w (Ok r) w') /\
    (threads = 1%Z -> forall x w', main_procs cpus threads B K rates floor C a w x w' -> x = Raise SystemExit).
  Proof.
    intros CP TH F. pose proof (fmain_gives_up F) as E. pose proof (rd_samples _ _ _ _ _ RD) as AP. split.
    - intros r w' X. apply main_any in X; auto. rewrite X in E. discriminate.
    - intros -> x w' X. apply main_one in X; auto. rewrite X in E. exact E.
  Qed.

  (** An analysis that follows starts from that model. *)
  Lemma procs_analysed cpus threads j k r w' : (1 <= cpus)%Z -> (0 <= threads)%Z ->
    a_sa a = true -> temps_ok w (a_path a) B -> documented_at me n K rates floor C a B sol ref rops j k ->
    main_procs cpus threads B K rates floor C a w (Ok r) w' ->
    exists m, cut_to J sol (xkept me J sol rops (times k (start_at j))) m /\
      sublist (m_species (r_model r)) (m_species m) /\ xle (r_error r) (a_limit a) = true.
  Proof.
    intros CP TH SA TE [G ME Hj Hk SC O1 O2 SE FU] X. destruct (gives_sampled K rates floor C a w sol RD ref rops G) as (w1 & SO).
    pose proof (f_started K rates floor C a w sol RD _ _ _ SO) as ST.
    pose proof (f_tame K rates floor C a w sol DP _ _ _ SO) as TA.
    pose proof (f_fair K rates floor C a w sol RD DP _ _ _ SO) as FA.
    pose proof (sampled_rates w1 SO) as NR.
    destruct (fdriver_documented me J smp w sol ref rops w1 (a_limit a) ST TA FA n ME (b_thr B) (b_path B) j k NR SE Hj Hk SC O1 O2 FU)
      as (r1 & w2 & R & CU & LE).
    apply main_any in X; auto; [|exact (rd_samples _ _ _ _ _ RD)].
    rewrite (fmain_graph me) in X by (auto; apply RD). cbn zeta in X. unfold job_for in R. rewrite R, SA in X. fold J in R.
    exists (r_model r1). split; [exact CU|].
    pose proof (temps_after K floor C a B w sol rates _ _ _ SO TE) as TE1.
    pose proof (fafter_started me a _ B smp w sol ref rops w1 ST TA FA r1 w2 R TE1) as SS.
    pose proof (fafter_frame me a _ B smp w sol ref rops w1 ST TA r1 w2 R) as FR.
    assert (found (sa_with double_distance a (j_conds J) (r_file r1) (r_error r1) (r_limbo r1)) w2 ref) as RF.
    { apply (so_saved _ _ _ _ _ _ _ _ _ _ SO). intros f I. apply FR. intros q. unfold out_file. cbn [graph_job j_path].
      now apply sample_not_output. }
    assert (a_limit a <> NaN) as NN.
    { intros Z. pose proof (rd_limit _ _ _ _ _ RD) as L. rewrite Z in L. discriminate. }
    split.
    - pose proof (SaMore.start_candidates (sa_with double_distance a (j_conds J) (r_file r1) (r_error r1) (r_limbo r1)) w2 (r_model r1)) as CA.
      destruct (sa_only _ _ _ _ _ _ _ _ _ SS CA X) as (rm & _ & _ & _ & SU & _). exact SU.
    - destruct (sa_limit _ _ _ _ _ _ _ _ _ SS RF NN X) as [(_ & ->)|[E [L|L]]]; auto.
      exfalso. destruct (f_error K rates floor C a sol DP ref _ _ (so_metrics _ _ _ _ _ _ _ _ _ _ SO) E) as (q & Q). congruence.
  Qed.
End Whole.

Section Program.
  Variables (read : string -> M yval) (convert : string -> option string -> option string -> string -> M unit)
            (other : inputs -> string -> Z -> ends unit) (cpus : Z) (B : limits) (K : machine)
            (rates : mech -> list xnum -> res (list b64)).
  Notation prog := (program read convert other cpus B K rates).

  Lemma prog_documented l ss i th tr p nt w d I d' a C floor sol me n ref rops j k : spelled l ss -> asked ss (Reduce i th tr p nt) ->
    (1 <= cpus)%Z -> (0 <= nt)%Z ->
    read i w = (Ok (YDict d), w) -> parse_inputs (YDict d) w = (Ok (I, d'), w) -> yaml_name (in_model I) = true ->
    hands I p a C floor -> blank (in_sa I) -> in_method I = YStr (method_name me) ->
    prepared K C a w sol -> double_posed K rates floor C (as_doubles a) sol ->
    documented_at me n K rates floor C (as_doubles a) B sol ref rops j k ->
    exists m w', prog l w (Ok tt) w' /\
      (forall x w2, prog l w x w2 -> x <> NoFuel -> x = Ok tt /\ w2 = w') /\
      cut_to (job_for K floor C (as_doubles a)) sol
        (xkept me (job_for K floor C (as_doubles a)) sol rops (times k (start_at j))) m /\
      w_fs w' (path_join p (reduced_name (n_species m))) = Some (FMech [m]).
  Proof.
    intros SP AK CP TN RE P YN HA BL ME RD DP DA. destruct (proj2 (hands_iff _ _ _ _ _) HA) as (MA & TC & FL).
    destruct (main_args_ok _ _ _ MA) as (AF & _ & AM & AT & AS & AP & SA & _ & PA).
    assert (a_method (as_doubles a) = method_name me) as NA by (rewrite ME in AM; cbn in *; congruence).
    assert (prepared K C (as_doubles a) w sol) as RD' by (destruct RD; constructor; auto).
    assert (a_sa (as_doubles a) = false) as S0 by (cbn; rewrite SA; now apply truth_blank).
    destruct (procs_documented me n K rates floor C (as_doubles a) B w sol ref rops RD' DP NA cpus nt j k CP TN S0 DA)
      as (r & w' & R & U & CU & _ & F).
    exists (r_model r), w'.
    assert (forall x w2, prog l w x w2 <-> ethen (main_procs cpus nt B K rates floor C (as_doubles a)) (fun _ => just (mret tt)) w x w2) as PR.
    { intros x w2. rewrite (reduce_prog _ _ _ _ _ _ _ _ _ _ _ _ _ _ _ _ _ _ _ _ SP AK RE P), YN. unfold call_main. rewrite MA, TC, FL. reflexivity. }
    split; [|split; [|split; [exact CU|]]].
    - apply PR. apply et_ok with (a := r) (w1 := w'); [exact R|reflexivity].
    - intros x w2 X NF. apply PR in X. pose proof (then_tt _ _ _ _ X) as Y. destruct x as [[]|e|]; [|exfalso|contradiction].
      + destruct Y as (r2 & Y). destruct (U _ _ Y) as [_ ->]; [discriminate|auto].
      + destruct (U _ _ Y) as [Z _]; discriminate.
    - cbn [as_doubles a_path] in F. rewrite PA in F. exact F.
  Qed.

  Lemma prog_documented_doubles l ss i th tr p nt w d I d' a C floor sol me : spelled l ss -> asked ss (Reduce i th tr p nt) ->
    (1 <= cpus)%Z -> (0 <= nt)%Z ->
    read i w = (Ok (YDict d), w) -> parse_inputs (YDict d) w = (Ok (I, d'), w) -> yaml_name (in_model I) = true ->
    hands I p a C floor -> blank (in_sa I) -> in_method I = YStr (method_name me) -> prepared K C a w sol ->
    exists a', in_doubles a a' /\
    forall n ref rops j k, double_posed K rates floor C a' sol -> documented_at me n K rates floor C a' B sol ref rops j k ->
    exists m w', prog l w (Ok tt) w' /\
      (forall x w2, prog l w x w2 -> x <> NoFuel -> x = Ok tt /\ w2 = w') /\
      cut_to (job_for K floor C a') sol (xkept me (job_for K floor C a') sol rops (times k (start_at j))) m /\
      w_fs w' (path_join p (reduced_name (n_species m))) = Some (FMech [m]).
  Proof. intros. exists (as_doubles a). split; [apply as_doubles_ok|]. intros. eapply prog_documented; eauto. Qed.
End Program.
