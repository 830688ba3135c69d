(** The program from its arguments to the files it writes. *)
From Coq Require Import String List QArith ZArith Bool Arith Lia.
From Verif.Base Require Import Py Num XNum Paths B64.
From Verif.Model Require Import Mech World Metrics Drivers Sensitivity Simulation Sampling Inputs Main Cli SaveText FloatDrivers FloatRun DoubleError FloatMain
  Pool PoolMain Program.
From Verif.Spec Require Import TrimSpec MetricSpec DriverSpec SensitivitySpec SimSpec SamplingSpec InputSpec ArgsSpec MainSpec CliSpec
  FloatSpec FloatMatrixSpec DoubleErrorSpec FloatMainSpec ProgramSpec.
From Verif.Proofs Require Import PyFacts InputFacts InputMore InputEnd InputChecks ArgsFacts FloatRunFacts MainFacts MainEnd MainMore CliMain FloatMainFacts PoolMainFacts.
Import ListNotations.
Local Open Scope string_scope.

Lemma then_just {A B} (m : M A) (k : A -> ends B) w x w1 r w' : m w = (Ok x, w1) ->
  (ethen (just m) k w r w' <-> k x w1 r w').
Proof.
  intros E. split; [|intros X; eapply et_ok; [exact E|exact X]].
  intros X. inversion X as [? ? ? ? F G|? ? F|? F]; subst; unfold just in F; rewrite E in F; try discriminate F. injection F as <- <-. exact G.
Qed.

Lemma then_tt {A} (e : ends A) w r w' : ethen e (fun _ => just (mret tt)) w r w' ->
  match r with Ok _ => exists x, e w (Ok x) w' | Raise x => e w (Raise x) w' | NoFuel => e w NoFuel w' end.
Proof.
  intros X. inversion X as [? ? ? ? F G|? ? F|? F]; subst; try exact F. unfold just in G. injection G as <- <-. eauto.
Qed.

Lemma as_doubles_ok a : in_doubles a (as_doubles a).
Proof.
  constructor; try reflexivity; cbn [as_doubles a_upper].
  - intros ->. reflexivity.
  - intros u -> (d & F & E). exists (b64_val (b64_of_Q false u)). split; [reflexivity|]. exact (proj2 (of_Q_val u d F E)).
  - intros ->. eexists. split; [reflexivity|]. vm_compute. reflexivity.
Qed.

Section Program.
  Variables (read : string -> M yval) (convert : string -> option string -> option string -> string -> M unit)
            (other : inputs -> string -> Z -> ends unit) (cpus : Z) (B : limits) (K : machine)
            (rates : mech -> list xnum -> res (list b64)).
  Notation prog := (program read convert other cpus B K rates).

  Lemma reduce_prog l ss i th tr p n w d I d' r w' : spelled l ss -> asked ss (Reduce i th tr p n) ->
    read i w = (Ok (YDict d), w) -> parse_inputs (YDict d) w = (Ok (I, d'), w) ->
    prog l w r w' <-> (if yaml_name (in_model I) then call_main other cpus B K rates I p n
                       else just (convert (in_model I) th tr p ;;; mraise AttributeError)) w r w'.
  Proof.
    intros SP AK RE P. unfold program.
    assert (command l l = Goes (Reduce i th tr p n)) as -> by (apply command_goes; eauto).
    rewrite (then_just _ _ _ _ _ _ _ RE). rewrite (then_just _ _ _ _ _ _ _ P). reflexivity.
  Qed.

  (** A run that ends well is one of [main]. *)
  Lemma prog_main l ss i th tr p n w d I d' a C floor u w' : spelled l ss -> asked ss (Reduce i th tr p n) ->
    read i w = (Ok (YDict d), w) -> parse_inputs (YDict d) w = (Ok (I, d'), w) ->
    hands I p a C floor ->
    prog l w (Ok u) w' -> exists r, main_procs cpus n B K rates floor C (as_doubles a) w (Ok r) w'.
  Proof.
    intros SP AK RE P HA X. destruct (proj2 (hands_iff _ _ _ _ _) HA) as (MA & TC & FL). apply (reduce_prog _ _ _ _ _ _ _ _ _ _ _ _ _ SP AK RE P) in X.
    destruct (yaml_name (in_model I)).
    - unfold call_main in X. rewrite MA, TC, FL in X. exact (then_tt _ _ _ _ X).
    - unfold just, mbind in X. destruct (convert (in_model I) th tr p w) as [[?|?|] ?]; discriminate X.
  Qed.

  Lemma prog_end l ss i th tr p n w d I d' a C floor sol me u w' : spelled l ss -> asked ss (Reduce i th tr p n) ->
    (1 <= cpus)%Z -> (0 <= n)%Z ->
    read i w = (Ok (YDict d), w) -> yaml_input d -> lists_given d -> parse_inputs (YDict d) w = (Ok (I, d'), w) ->
    hands I p a C floor ->
    prepared K C a w sol -> double_posed K rates floor C (as_doubles a) sol -> in_method I = YStr (method_name me) ->
    (~ blank (in_sa I) -> temps_ok w p B) ->
    prog l w (Ok u) w' ->
    exists m ref e, metrics_of (conds_of (k_fuel K) (k_physics K) floor C) sol = Ok ref /\
      error_of (double_conds (conds_of (k_fuel K) (k_physics K) floor C)) ref m = Ok (Fin e) /\
      (~ at_the_edge me K rates floor C (as_doubles a) sol -> xle (Fin e) (a_limit a) = true) /\
      w_fs w' (path_join p (reduced_name (n_species m))) = Some (FMech [m]) /\
      (forall f, ~ In f sample_files -> ~ scratch p (length (ca_ign C)) f ->
         (forall k, f <> path_join p (reduced_name k)) -> w_fs w' f = w_fs w f) /\
      (blank (in_sa I) \/ limbo_harmless me (as_doubles a) w ->
        (forall s, In s (a_targets a ++ a_safe a)%list -> In s (species_names m)) /\
        (forall s, used I s -> In s (species_names m))).
  Proof.
    intros SP AK CP TN RE Y L P HA RD DP ME TE X. destruct (proj2 (hands_iff _ _ _ _ _) HA) as (MA & TC & FL).
    destruct (prog_main _ _ _ _ _ _ _ _ _ _ _ _ _ _ _ _ SP AK RE P HA X) as (r & R).
    destruct (main_args_ok _ _ _ MA) as (AF & _ & AM & AT & AS & AP & SA & _ & PA).
    assert (a_method (as_doubles a) = method_name me) as NA by (rewrite ME in AM; cbn in *; congruence).
    assert (prepared K C (as_doubles a) w sol) as RD' by (destruct RD; constructor; auto).
    destruct (procs_whole B K rates floor C (as_doubles a) cpus n w sol me r w' CP TN RD' DP NA) as (ref & e & M1 & M2 & M3 & M4 & M5 & M6 & M7).
    { cbn. rewrite PA. intros S. apply TE. rewrite SA in S. now apply truth_not_blank. }
    { exact R. }
    cbn [as_doubles a_path a_limit a_sa a_targets a_safe] in M4, M5, M6, M7. rewrite M3 in M2, M4.
    exists (r_model r), ref, e. split; [exact M1|]. split; [exact M2|]. split; [exact M4|].
    rewrite PA in M5, M6. split; [exact M5|]. split; [exact M6|]. intros H.
    assert (holds w (in_model I) (in_phase I) sol) as HO by (rewrite <- AF, <- AP; apply RD).
    pose (J := graph_job a (mkConds nil nil nil)).
    assert (job_of I J) as JO by (unfold job_of, J; cbn; auto).
    destruct (job_of_ok d w I d' w J sol Y L P JO HO) as (X1 & X2 & _).
    assert (forall s, In s (a_targets a ++ a_safe a)%list -> In s (species_names (r_model r))) as KE.
    { intros s Hs. apply M7; [|exact Hs|].
      - intros S. destruct H as [H|H]; [|exact H]. apply truth_blank in H. congruence.
      - apply in_app_or in Hs. destruct Hs as [Hs|Hs]; auto. }
    split; [exact KE|]. intros s U. apply KE. apply in_or_app. exact (used_covered _ _ _ _ _ J Y L P JO s U).
  Qed.

  Lemma prog_end_doubles l ss i th tr p n w d I d' a C floor sol me : spelled l ss -> asked ss (Reduce i th tr p n) ->
    (1 <= cpus)%Z -> (0 <= n)%Z ->
    read i w = (Ok (YDict d), w) -> yaml_input d -> lists_given d -> parse_inputs (YDict d) w = (Ok (I, d'), w) ->
    hands I p a C floor -> in_method I = YStr (method_name me) -> prepared K C a w sol ->
    exists a', in_doubles a a' /\
    forall u w', double_posed K rates floor C a' sol -> (~ blank (in_sa I) -> temps_ok w p B) -> prog l w (Ok u) w' ->
    exists m ref e, metrics_of (conds_of (k_fuel K) (k_physics K) floor C) sol = Ok ref /\
      error_of (double_conds (conds_of (k_fuel K) (k_physics K) floor C)) ref m = Ok (Fin e) /\
      (~ at_the_edge me K rates floor C a' sol -> xle (Fin e) (a_limit a) = true) /\
      w_fs w' (path_join p (reduced_name (n_species m))) = Some (FMech [m]) /\
      (forall f, ~ In f sample_files -> ~ scratch p (length (ca_ign C)) f ->
         (forall k, f <> path_join p (reduced_name k)) -> w_fs w' f = w_fs w f) /\
      (blank (in_sa I) \/ limbo_harmless me a' w ->
        (forall s, In s (a_targets a ++ a_safe a)%list -> In s (species_names m)) /\
        (forall s, used I s -> In s (species_names m))).
  Proof. intros. exists (as_doubles a). split; [apply as_doubles_ok|]. intros. eapply prog_end; eauto. Qed.

  (** Arguments that differ in the number of processes. *)
  Lemma prog_any l l' ss ss' i th tr p n n' w d I d' a C floor u w' :
    spelled l ss -> asked ss (Reduce i th tr p n) -> spelled l' ss' -> asked ss' (Reduce i th tr p n') ->
    (1 <= cpus)%Z -> (0 <= n)%Z -> (0 <= n')%Z ->
    read i w = (Ok (YDict d), w) -> parse_inputs (YDict d) w = (Ok (I, d'), w) ->
    hands I p a C floor ->
    model_apart p C (in_model I) ->
    prog l w (Ok u) w' -> prog l' w (Ok u) w'.
  Proof.
    intros S1 A1 S2 A2 CP T1 T2 RE P HA AP X. destruct (proj2 (hands_iff _ _ _ _ _) HA) as (MA & TC & FL).
    apply (reduce_prog _ _ _ _ _ _ _ _ _ _ _ _ _ S1 A1 RE P) in X. apply (reduce_prog _ _ _ _ _ _ _ _ _ _ _ _ _ S2 A2 RE P).
    destruct (yaml_name (in_model I)); [|exact X].
    destruct (main_args_ok _ _ _ MA) as (AF & _ & _ & _ & _ & _ & _ & _ & PA).
    assert (model_apart (a_path (as_doubles a)) C (a_file (as_doubles a))) as AP' by (cbn; congruence).
    unfold call_main in *. rewrite MA, TC, FL in *. pose proof (then_tt _ _ _ _ X) as (r & R). destruct u.
    apply et_ok with (a := r) (w1 := w'); [|reflexivity].
    apply main_any; [exact CP|exact T2|exact AP'|]. revert R. now apply main_any.
  Qed.

  (** Nothing is done for arguments that ask for nothing. *)
  Lemma prog_unasked l w r w' : (forall ss a, spelled l ss -> ~ asked ss a) -> prog l w r w' -> r = Raise SystemExit /\ w' = w.
  Proof.
    intros N X. unfold program in X. destruct (command l l) as [c|a] eqn:E.
    - unfold just, mraise in X. injection X as <- <-. auto.
    - apply command_goes in E. destruct E as (ss & S & A). now destruct (N ss a S).
  Qed.

  Lemma prog_negative l ss i th tr p n w d I d' a C floor sol me r w' : spelled l ss -> asked ss (Reduce i th tr p n) ->
    (n < 0)%Z -> read i w = (Ok (YDict d), w) -> parse_inputs (YDict d) w = (Ok (I, d'), w) -> yaml_name (in_model I) = true ->
    hands I p a C floor ->
    in_method I = YStr (method_name me) -> a_targets a <> nil -> holds w (in_model I) (in_phase I) sol -> fresh w ->
    ca_ign C <> nil \/ ca_psr C <> nil \/ ca_flame C <> nil ->
    prog l w r w' -> r = Raise ValueError /\ w' = w.
  Proof.
    intros SP AK NE RE P YN HA ME TG HO F CA X. destruct (proj2 (hands_iff _ _ _ _ _) HA) as (MA & TC & FL).
    apply (reduce_prog _ _ _ _ _ _ _ _ _ _ _ _ _ SP AK RE P) in X. rewrite YN in X. unfold call_main in X. rewrite MA, TC, FL in X.
    destruct (main_args_ok _ _ _ MA) as (AF & _ & AM & AT & AS & AP & SA & _ & PA).
    assert (forall r' w1, main_procs cpus n B K rates floor C (as_doubles a) w r' w1 -> r' = Raise ValueError /\ w1 = w) as H.
    { intros r' w1. apply (main_none B K rates floor C (as_doubles a)) with (sol := sol); auto.
      - cbn. rewrite ME in AM. cbn in AM. injection AM as AM. rewrite <- AM. destruct me; reflexivity.
      - cbn. congruence. }
    inversion X as [? ? ? ? G1 G2|? ? G|? G]; subst; [destruct (H _ _ G1) as (D & _); discriminate D| |destruct (H _ _ G) as (D & _); discriminate D].
    destruct (H _ _ G) as (D & ->). injection D as ->. auto.
  Qed.
End Program.
