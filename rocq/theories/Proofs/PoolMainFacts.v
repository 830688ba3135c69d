(** The whole program with several processes ends as with one. *)
From Coq Require Import String List QArith ZArith Bool Arith Lia Permutation FunctionalExtensionality.
From Verif.Base Require Import Py Num XNum B64 Paths.
From Verif.Model Require Import Mech Matrices Graph World Metrics Drivers Sensitivity Simulation Sampling Main
  FloatDrivers FloatMatrix FloatPfa FloatRun DoubleError FloatMain Pool PoolMain.
From Verif.Spec Require Import MetricSpec DriverSpec SimSpec SamplingSpec MainSpec DoubleErrorSpec FloatMainSpec.
From Verif.Proofs Require Import ProgFacts StepFacts SaFacts PoolFacts PoolTop FloatMainFacts.
Import ListNotations.
Local Open Scope string_scope.

Lemma world_eq w v : same_files w v -> w_shared w = w_shared v -> w = v.
Proof.
  destruct w as (fs & sh), v as (fs' & sh'). intros S E. simpl in E. subst sh'. f_equal. apply functional_extensionality. exact S.
Qed.

(** ** What processes leave alone: the shared list *)
Definition still {A} (e : ends A) : Prop := forall w r w', e w r w' -> w_shared w' = w_shared w.
Lemma still_prog {A} (p : prog A) : still (of_prog p).
Proof. intros w r w' E. pose proof (exec_shared p w) as S. unfold of_prog in E. now rewrite E in S. Qed.
Lemma still_then {A B} (e : ends A) (k : A -> ends B) : still e -> (forall a, still (k a)) -> still (ethen e k).
Proof.
  intros S T w r w' [a w1 r0 w2 H1 H2|x w1 H1|w1 H1]; [|exact (S _ _ _ H1)|exact (S _ _ _ H1)].
  rewrite (T _ _ _ _ H2). exact (S _ _ _ H1).
Qed.
Lemma steps_shared {A} (s t : list (prog A) * world) : steps s t -> w_shared (snd t) = w_shared (snd s).
Proof. induction 1 as [s|s t u X _ IH]; [reflexivity|]. rewrite IH. destruct X; reflexivity. Qed.
Lemma still_workers {A B} n (worker : nat * A -> prog B) jobs : still (run_workers n worker jobs).
Proof.
  intros w r w' [r0 w0 _ E|_|results w0 _ (rs & S & _)|ps e w0 _ S _].
  - exact (still_prog _ _ _ _ E).
  - reflexivity.
  - exact (steps_shared _ _ S).
  - exact (steps_shared _ _ S).
Qed.
Lemma still_part {A} n torn model phase data output nm pc (worker : nat * A -> prog case_result) cs :
  still (part_with n torn model phase data output nm pc worker cs).
Proof.
  unfold part_with. destruct cs as [|c l]; [apply still_prog|]. apply still_then; [apply still_prog|]. intros [r|]; [apply still_prog|].
  apply still_then; [|intros r; apply still_prog]. apply still_then; [apply still_workers|intros rs; apply still_prog].
Qed.
Lemma still_sample cpus threads torn fuel Ph floor model phase path C :
  still (sample_with cpus threads torn fuel Ph floor model phase path C).
Proof.
  unfold sample_with. apply still_then; [apply still_part|]. intros i. apply still_then; [apply still_part|]. intros p.
  apply still_then; [apply still_part|]. intros f. apply still_prog.
Qed.
Lemma still_metrics cpus threads model phase cs : still (metrics_with cpus threads model phase cs).
Proof. unfold metrics_with. apply still_then; [apply still_workers|intros rs; apply still_prog]. Qed.

Section Agree.
  Variables cpus threads : Z.
  Hypothesis CP : (1 <= cpus)%Z.
  Hypothesis TH : (0 <= threads)%Z.

  (** Ends like [m] whenever one of the two succeeds; with one process always. *)
  Record agrees {A} (P : world -> Prop) (e : ends A) (m : M A) : Prop := {
    ag_ok : forall w a w', P w -> e w (Ok a) w' <-> m w = (Ok a, w');
    ag_bad : forall w x w', P w -> e w (Raise x) w' -> forall a w1, m w <> (Ok a, w1);
    ag_one : processes cpus threads = 1%Z -> forall w r w', P w -> e w r w' <-> m w = (r, w')
  }.
  Definition always (w : world) : Prop := True.

  Lemma ag_just {A} P (m : M A) : agrees P (just m) m.
  Proof. constructor; unfold just; intros; try reflexivity. congruence. Qed.
  Lemma ag_then {A B} (P : world -> Prop) (Q : A -> world -> Prop) (e : ends A) m (k : A -> ends B) n :
    agrees P e m -> (forall a, agrees (Q a) (k a) (n a)) -> (forall w a w', P w -> m w = (Ok a, w') -> Q a w') ->
    agrees P (ethen e k) (mbind m n).
  Proof.
    intros E K F. constructor.
    - intros w b w' H. split.
      + intros X. inversion X as [a w1 r w2 H1 H2| |]; subst. apply (ag_ok _ _ _ E) in H1; [|exact H]. unfold mbind. rewrite H1.
        apply (ag_ok _ _ _ (K a)); [exact (F _ _ _ H H1)|exact H2].
      + unfold mbind. destruct (m w) as ([a| |] & w1) eqn:X; intros Y; try discriminate Y.
        eapply et_ok; [apply (ag_ok _ _ _ E); [exact H|exact X]|]. apply (ag_ok _ _ _ (K a)); [exact (F _ _ _ H X)|exact Y].
    - intros w x w' H X b w1 Y. unfold mbind in Y. destruct (m w) as ([a| |] & v) eqn:M; try discriminate Y.
      inversion X as [a' w2 r w3 H1 H2|y w2 H1|]; subst.
      + apply (ag_ok _ _ _ E) in H1; [|exact H]. rewrite M in H1. injection H1 as <- <-.
        exact (ag_bad _ _ _ (K a) _ _ _ (F _ _ _ H M) H2 _ _ Y).
      + exact (ag_bad _ _ _ E _ _ _ H H1 _ _ M).
    - intros N w r w' H. split.
      + intros [a w1 r0 w2 H1 H2|x w1 H1|w1 H1]; apply (ag_one _ _ _ E N) in H1; try exact H; unfold mbind; rewrite H1; auto.
        apply (ag_one _ _ _ (K a) N); [exact (F _ _ _ H H1)|exact H2].
      + unfold mbind. destruct (m w) as ([a|x|] & w1) eqn:X; intros Y.
        * eapply et_ok; [apply (ag_ok _ _ _ E); [exact H|exact X]|]. apply (ag_one _ _ _ (K a) N); [exact (F _ _ _ H X)|exact Y].
        * injection Y as <- <-. apply et_raise. now apply (ag_one _ _ _ E N).
        * injection Y as <- <-. apply et_fuel. now apply (ag_one _ _ _ E N).
  Qed.
  Lemma ag_weak {A} (P Q : world -> Prop) (e : ends A) m : (forall w, Q w -> P w) -> agrees P e m -> agrees Q e m.
  Proof. intros I [a b c]. constructor; intros; eauto. Qed.
  Lemma ag_step {A B} (e : ends A) m (k : A -> ends B) n :
    agrees always e m -> (forall a, agrees always (k a) (n a)) -> agrees always (ethen e k) (mbind m n).
  Proof. intros E K. eapply ag_then; [exact E|exact K|]. intros; exact I. Qed.
  Lemma ag_map {A B} (f : A -> ends B) g l : (forall x, agrees always (f x) (g x)) -> agrees always (emap f l) (mmap g l).
  Proof.
    intros H. induction l as [|x l IH]; simpl; [apply ag_just|]. apply ag_step; [apply H|]. intros y. apply ag_step; [exact IH|].
    intros ys. apply ag_just.
  Qed.
  Lemma ag_temp {A} d (e : string -> ends A) m : agrees always (e d) (m d) -> agrees always (temp_with d e) (with_temp d m).
  Proof.
    intros E. unfold temp_with, with_temp. constructor.
    - intros w a w' H. split.
      + intros (w1 & X & ->). apply (ag_ok _ _ _ E) in X; [|exact H]. now rewrite X.
      + destruct (m d w) as (r & w1) eqn:X. intros Y. injection Y as -> <-. exists w1. split; [|reflexivity]. now apply (ag_ok _ _ _ E).
    - intros w x w' H (w1 & X & _) a w2 Y. destruct (m d w) as (r & w3) eqn:Z. injection Y as -> _. exact (ag_bad _ _ _ E _ _ _ H X _ _ Z).
    - intros N w r w' H. split.
      + intros (w1 & X & ->). apply (ag_one _ _ _ E N) in X; [|exact H]. now rewrite X.
      + destruct (m d w) as (r0 & w1) eqn:X. intros Y. injection Y as -> <-. exists w1. split; [|reflexivity]. now apply (ag_one _ _ _ E N).
  Qed.

  (** ** Metrics *)
  Lemma ag_jobs model phase m (cs : list cond) :
    agrees (fun w => holds w model phase m)
      (ethen (metrics_with cpus threads model phase cs) (fun ls => just (mret (concat ls)))) (run_metric_jobs model phase cs).
  Proof.
    assert (agrees (fun w => holds w model phase m) (metrics_with cpus threads model phase cs)
              (fun w => match load model phase w with (Ok s, _) => (mapM (fun c : cond => c s) cs, w) | _ => (NoFuel, w) end)) as G.
    { constructor.
      - intros w l w' H. rewrite (load_holds _ _ _ _ H). destruct (metrics_any cpus threads model phase m cs w CP TH H) as (G & _).
        specialize (G l). split.
        + intros X. pose proof (metrics_sim cpus threads model phase m cs CP TH) as S. destruct (sim_ok _ _ _ S w w l w' H (same_refl w) X) as (v & E & F).
          destruct (serial_metrics model phase m cs w H) as (v' & E' & F'). rewrite E in E'. injection E' as E' ->. rewrite <- E'.
          f_equal. apply world_eq; [|symmetry; exact (still_metrics _ _ _ _ _ _ _ _ X)]. apply same_sym. eapply same_trans; eauto.
        + intros X. injection X as X <-. apply G in X. destruct X as (w1 & X & F). replace w1 with w in X; [exact X|].
          apply world_eq; [now apply same_sym|]. symmetry. exact (still_metrics _ _ _ _ _ _ _ _ X).
      - intros w x w' H X a w1. rewrite (load_holds _ _ _ _ H). destruct (metrics_any cpus threads model phase m cs w CP TH H) as (_ & G).
        intros Y. injection Y as Y _. exact (G _ _ X _ Y).
      - intros N w r w' H. rewrite (load_holds _ _ _ _ H). unfold metrics_with. rewrite N.
        pose proof (exactly_then _ _ _ _ (one_worker (metric_worker model phase) (jobs_of cs)) (fun rs => exactly_prog (Ret (collect rs)))) as E.
        rewrite (E w r w'). destruct (serial_metrics model phase m cs w H) as (v & E1 & F1).
        assert (v = w) as ->. { apply world_eq; [exact F1|]. pose proof (exec_shared (rs <~ run_serial (metric_worker model phase) (jobs_of cs) ;; Ret (collect rs)) w) as S. now rewrite E1 in S. }
        rewrite E1. reflexivity. }
    assert (forall w, holds w model phase m -> run_metric_jobs model phase cs w =
      mbind (fun w => match load model phase w with (Ok s, _) => (mapM (fun c : cond => c s) cs, w) | _ => (NoFuel, w) end) (fun ls => mret (concat ls)) w) as EQ.
    { intros w H. rewrite (jobs_eq _ _ _ _ _ H). unfold mbind. rewrite (load_holds _ _ _ _ H). now destruct (mapM (fun c : cond => c m) cs). }
    pose proof (ag_then _ (fun _ => always) _ _ _ _ G (fun ls => ag_just always (mret (concat ls))) (fun _ _ _ _ _ => Logic.I)) as T.
    destruct T as [T1 T2 T3]. constructor.
    - intros w a w' H. rewrite (EQ w H). apply T1. exact H.
    - intros w x w' H X a w1. rewrite (EQ w H). eapply T2; eauto.
    - intros N w r w' H. rewrite (EQ w H). apply T3; auto.
  Qed.

  Lemma ag_part model phase m cases out init k b :
    agrees (fun w => holds w model phase m) (metrics_part_with cpus threads model phase cases out init k b)
      (metrics_part model phase cases out init k b).
  Proof.
    unfold metrics_part_with, metrics_part. destruct cases as [|c l] eqn:EC; [apply ag_just|]. rewrite <- EC.
    apply ag_then with (fun _ w => holds w model phase m); [apply ag_just| |].
    2: { intros w a w' H X. unfold is_file in X. injection X as _ <-. exact H. }
    intros ex. apply ag_then with (fun _ w => holds w model phase m); [apply ag_just| |].
    2: { intros w a w' H X. destruct (b && ex); [|injection X as _ <-; exact H]. unfold read_nums, mbind, get_file in X.
         destruct (w_fs w out); unfold mlift, mraise in X; injection X as _ <-; exact H. }
    intros saved. destruct (b && Nat.eqb (length saved) k); [apply ag_just|apply ag_jobs].
  Qed.

  Lemma ag_metrics model phase m cs b :
    agrees (fun w => holds w model phase m) (sample_metrics_with cpus threads model phase cs b) (sample_metrics model phase cs b).
  Proof.
    assert (forall cases out init k w (a : list xnum) w', holds w model phase m -> metrics_part model phase cases out init k b w = (Ok a, w') ->
      holds w' model phase m) as F.
    { intros cases out init k w a w' H X. pose proof (part_same model phase cases out init k b w) as S. rewrite X in S. simpl in S. now subst. }
    unfold sample_metrics_with, sample_metrics.
    apply ag_then with (fun _ w => holds w model phase m); [apply ag_part|intros i|eauto].
    apply ag_then with (fun _ w => holds w model phase m); [apply ag_part|intros p|eauto].
    apply ag_then with (fun _ w => holds w model phase m); [apply ag_part|intros f; apply ag_just|eauto].
  Qed.

  (** ** Candidates *)
  Lemma wrote_model file removed name phase w m w1 out d f w2 : out <> "" ->
    trim file removed name phase w = (Ok m, w1) -> yaml_write m out d w1 = (Ok f, w2) -> holds w2 f phase m.
  Proof.
    intros N T Y. unfold trim, mbind in T. destruct (load file phase w) as ([sol|e|] & w0) eqn:L; try discriminate T.
    unfold mlift in T. injection T as T <-. destruct (yaml_write_eq w0 m out d N) as (w' & Y' & W). rewrite Y in Y'. injection Y' as -> ->.
    eapply wrote_holds; [exact W|]. eapply trim_phase. exact T.
  Qed.
  Definition came (file : string) (removed : list string) (name phase : string) (m : mech) (w1 : world) : Prop :=
    exists w, trim file removed name phase w = (Ok m, w1).

  Lemma ag_cut J sampled removed : agrees always (cut_and_score_with cpus threads J sampled removed) (cut_and_score J sampled removed).
  Proof.
    unfold cut_and_score_with, cut_and_score.
    apply ag_then with (came (j_file J) removed ("reduced_" ++ j_file J) (j_phase J)); [apply ag_just|intros m|intros w a w' _ X; exists w; exact X].
    apply ag_then with (fun f w => holds w f (j_phase J) m); [apply ag_just|intros f|].
    2: { intros w f w' (w0 & T) Y. eapply wrote_model; [|exact T|exact Y]. apply reduced_name_nonempty. }
    apply ag_then with (fun _ => always); [apply ag_metrics|intros ms|intros; exact Logic.I].
    apply ag_step; [apply ag_just|intros e; apply ag_just].
  Qed.
  Lemma ag_try d file phase cs metrics sp :
    agrees always (try_without_with cpus threads d file phase cs metrics sp) (try_without d file phase cs metrics sp).
  Proof.
    unfold try_without_with, try_without.
    apply ag_then with (came file [sp] (test_name sp) phase); [apply ag_just|intros m|intros w a w' _ X; exists w; exact X].
    apply ag_then with (fun f w => holds w f phase m); [apply ag_just|intros f|].
    2: { intros w f w' (w0 & T) Y. eapply wrote_model; [|exact T|exact Y]. discriminate. }
    apply ag_then with (fun _ => always); [apply ag_metrics|intros ms|intros; exact Logic.I].
    apply ag_step; [apply ag_just|intros e; apply ag_just].
  Qed.

  (** ** The reduction steps *)
  Lemma ag_drg J Fs sampled thr prev : agrees always (reduce_drg_with cpus threads J Fs sampled thr prev) (freduce_drg J Fs sampled thr prev).
  Proof.
    unfold reduce_drg_with, freduce_drg. apply ag_step; [apply ag_just|intros sol]. apply ag_step; [apply ag_just|intros keep].
    cbv zeta.
    match goal with |- agrees _ (match prev with Some _ => _ | None => ?g end) (match prev with Some _ => _ | None => ?h end) => set (G := g); set (H := h) end.
    assert (agrees always G H) as X.
    { apply ag_step; [apply ag_cut|]. intros ((red & f) & e). apply ag_step; [apply ag_just|intros l; apply ag_just]. }
    destruct prev as [p|]; [|exact X]. destruct (Nat.eqb (length keep) (n_species (r_model p))); [apply ag_just|exact X].
  Qed.
  Lemma ag_pfa J Fs sampled thr prev : agrees always (reduce_pfa_with cpus threads J Fs sampled thr prev) (freduce_pfa J Fs sampled thr prev).
  Proof.
    unfold reduce_pfa_with, freduce_pfa. apply ag_step; [apply ag_just|intros sol]. apply ag_step; [apply ag_just|intros ls].
    cbv zeta.
    match goal with |- agrees _ (match prev with Some _ => _ | None => ?g end) (match prev with Some _ => _ | None => ?h end) => set (G := g); set (H := h) end.
    assert (agrees always G H) as X.
    { apply ag_step; [apply ag_cut|]. intros ((red & f) & e). apply ag_step; [apply ag_just|intros l; apply ag_just]. }
    destruct prev as [p|]; [|exact X]. destruct (Nat.eqb (length (set_of (concat ls))) (n_species (r_model p))); [apply ag_just|exact X].
  Qed.
  Lemma ag_drgep J imp sampled thr prev : agrees always (reduce_drgep_with cpus threads J imp sampled thr prev) (freduce_drgep J imp sampled thr prev).
  Proof.
    unfold reduce_drgep_with, freduce_drgep. apply ag_step; [apply ag_just|intros sol]. apply ag_step; [apply ag_just|intros removed].
    cbv zeta.
    match goal with |- agrees _ (match prev with Some _ => _ | None => ?g end) (match prev with Some _ => _ | None => ?h end) => set (G := g); set (H := h) end.
    assert (agrees always G H) as X.
    { apply ag_step; [apply ag_cut|]. intros ((red & f) & e). apply ag_just. }
    destruct prev as [p|]; [|exact X]. destruct (Z.eqb _ _); [apply ag_just|exact X].
  Qed.

  (** ** The drivers *)
  Lemma ag_loop red red' limit floor : (forall t p, agrees always (red t p) (red' t p)) ->
    forall fuel s, agrees always (thr_loop_with fuel red limit floor s) (fthr_loop fuel red' limit floor s).
  Proof.
    intros R. induction fuel as [|fuel IH]; intros s; cbn [thr_loop_with fthr_loop]; destruct (xle (s_err s) limit); try apply ag_just.
    apply ag_step; [apply R|]. intros r. destruct (s_first s && xgt (r_error r) limit).
    - cbv zeta. destruct (floor (b64_div (s_thr s) (b64_of_Z 10))); [apply ag_just|apply IH].
    - apply ag_step; [apply ag_just|]. intros _. apply IH.
  Qed.
  Lemma ag_run fuel J sol red red' limit floor last : (forall t p, agrees always (red t p) (red' t p)) ->
    agrees always (thr_run_with fuel J sol red limit floor last) (fthr_run fuel J sol red' limit floor last).
  Proof.
    intros R. unfold thr_run_with, fthr_run. apply ag_step; [now apply ag_loop|]. intros s. unfold thr_finish_with, fthr_finish.
    destruct last; [destruct (s_last s) as [r|]; [|apply ag_just]|].
    - destruct (xgt (r_error r) limit); [apply R|apply ag_just].
    - destruct (xgt (s_err s) limit); [apply R|apply ag_just].
  Qed.

  Section Smp.
    Variables (smp : ends (list xnum * list (list b64))) (smp' : M (list xnum * list (list b64))).
    Hypothesis SM : agrees always smp smp'.
    Lemma ag_run_drg fuel J limit : agrees always (run_drg_with cpus threads fuel J smp limit) (frun_drg fuel J smp' limit).
    Proof.
      unfold run_drg_with, frun_drg. apply ag_step; [apply ag_just|intros sol]. destruct (j_targets J); [apply ag_just|].
      apply ag_step; [exact SM|intros sd]. cbv zeta. apply ag_run. intros t p. apply ag_drg.
    Qed.
    Lemma ag_run_pfa fuel J limit : agrees always (run_pfa_with cpus threads fuel J smp limit) (frun_pfa fuel J smp' limit).
    Proof.
      unfold run_pfa_with, frun_pfa. apply ag_step; [apply ag_just|intros sol]. destruct (j_targets J); [apply ag_just|].
      apply ag_step; [exact SM|intros sd]. cbv zeta. apply ag_run. intros t p. apply ag_pfa.
    Qed.
    Lemma ag_run_drgep fuel dfuel J limit :
      agrees always (run_drgep_with cpus threads fuel dfuel J smp limit) (frun_drgep fuel dfuel J smp' limit).
    Proof.
      unfold run_drgep_with, frun_drgep. apply ag_step; [apply ag_just|intros sol]. destruct (j_targets J); [apply ag_just|].
      apply ag_step; [exact SM|intros sd]. cbv zeta. apply ag_step; [apply ag_just|intros imp].
      apply ag_step; [apply ag_run; intros t p; apply ag_drgep|intros r; apply ag_just].
    Qed.
  End Smp.

  (** ** Sensitivity analysis *)
  Lemma ag_evaluate tmp file phase cs metrics l :
    agrees always (evaluate_with cpus threads tmp file phase cs metrics l) (evaluate_species_errors tmp file phase cs metrics l).
  Proof.
    unfold evaluate_with, evaluate_species_errors. apply ag_temp. apply ag_map. intros sp. apply ag_step; [apply ag_try|intros r; apply ag_just].
  Qed.
  Lemma ag_sa_loop K shared tmp tmp2 metrics : forall fuel cur errs limbo,
    agrees always (sa_loop_with cpus threads fuel K shared tmp tmp2 metrics cur errs limbo) (sa_loop fuel K shared tmp tmp2 metrics cur errs limbo).
  Proof.
    induction fuel as [|fuel IH]; intros cur errs limbo; cbn [sa_loop_with sa_loop]; (destruct limbo as [|s0 l0]; [apply ag_just|]); [apply ag_just|].
    set (idx := argmin (map (fun e => s_far K e (r_error cur)) errs)). destruct (nth_error (s0 :: l0) idx) as [sp|]; [|apply ag_just].
    apply ag_step; [apply ag_just|intros _]. apply ag_step; [apply ag_try|]. intros ((m & f) & e).
    destruct (xgt e (s_limit K)); [apply ag_just|]. destruct (s_alg K); [apply IH|].
    apply ag_step; [apply ag_evaluate|intros errs']. apply ag_step; [apply ag_just|intros least].
    destruct (xgt least (s_limit K)); [apply ag_just|apply IH].
  Qed.
  Lemma ag_sa fuel tmp tmp2 K : agrees always (run_sa_with cpus threads fuel tmp tmp2 K) (run_sa fuel tmp tmp2 K).
  Proof.
    unfold run_sa_with, run_sa. apply ag_then with (fun sol w => holds w (s_file K) (s_phase K) sol); [apply ag_just|intros sol|].
    2: { intros w sol w' _ L. apply load_ok in L. destruct L as (-> & H). exact H. }
    cbv zeta. apply ag_then with (fun _ => always); [apply ag_metrics|intros metrics|intros; exact Logic.I].
    apply ag_step; [apply ag_just|intros given].
    destruct (match given with nil => (not_in (species_names sol) (s_safe K), false)
              | _ => match s_limbo K with Shared => (given, true) | Own _ => (given, false) end end) as (limbo & shared) eqn:E.
    destruct given as [|g gs]; [|destruct (s_limbo K)]; injection E as <- <-;
      (apply ag_step; [apply ag_evaluate|intros errs]; apply ag_step; [apply ag_temp; apply ag_sa_loop|intros cur];
       apply ag_step; [apply ag_just|intros _; apply ag_just]).
  Qed.

  (** ** Sampling and the whole program *)
  Lemma ag_sample torn fuel Ph floor model phase path C m : model_apart path C model ->
    agrees (fun w => holds w model phase m) (sample_with cpus threads torn fuel Ph floor model phase path C)
      (exec (sample torn fuel Ph floor model phase path C)).
  Proof.
    intros AP. constructor.
    - intros w r w' H.
      assert (forall v, sample_with cpus threads torn fuel Ph floor model phase path C w (Ok r) v ->
        exec (sample torn fuel Ph floor model phase path C) w = (Ok r, v)) as G.
      { intros v X. destruct (any_processes torn fuel Ph floor model phase path C m AP cpus threads w r v CP TH H X) as (w1 & E & F).
        rewrite E. f_equal. apply world_eq; [now apply same_sym|]. rewrite (still_sample _ _ _ _ _ _ _ _ _ _ _ _ _ X).
        pose proof (exec_shared (sample torn fuel Ph floor model phase path C) w) as S. rewrite E in S. exact S. }
      split; [apply G|]. intros E. destruct (any_success torn fuel Ph floor model phase path C m AP cpus threads w r w' CP TH H E) as (v & X).
      pose proof (G v X) as E'. rewrite E in E'. injection E' as <-. exact X.
    - intros w x w' H X. exact (any_failure torn fuel Ph floor model phase path C m AP cpus threads w x w' CP TH H X).
    - intros N w r w' _. apply one_process. exact N.
  Qed.
  Lemma ag_sampler K rates floor C a : model_apart (a_path a) C (a_file a) ->
    agrees always (sampler_procs cpus threads K rates floor C a) (sampler_with K rates floor C a).
  Proof.
    intros AP. unfold sampler_procs, sampler_with. apply ag_then with (fun sol w => holds w (a_file a) (a_phase a) sol); [apply ag_just|intros sol|].
    2: { intros w sol w' _ L. apply load_ok in L. destruct L as (-> & H). exact H. }
    unfold sampler_of. apply ag_then with (fun _ => always); [now apply ag_sample|intros r|intros; exact Logic.I].
    apply ag_step; [apply ag_just|intros rops; apply ag_just].
  Qed.
  Lemma ag_main B K rates floor C a : model_apart (a_path a) C (a_file a) ->
    agrees always (main_procs cpus threads B K rates floor C a) (fmain B K rates floor C a).
  Proof.
    intros AP. unfold main_procs, fmain, main_with. pose proof (ag_sampler K rates floor C a AP) as S. cbv zeta.
    destruct (graph_method (a_method a) && match a_targets a with nil => true | _ => false end); [apply ag_just|].
    destruct (String.eqb (a_method a) "" && negb (a_sa a)); [apply ag_just|].
    apply ag_step.
    - destruct (String.eqb (a_method a) "DRG"); [apply ag_step; [now apply ag_run_drg|intros r; apply ag_just]|].
      destruct (String.eqb (a_method a) "DRGEP"); [apply ag_step; [now apply ag_run_drgep|intros r; apply ag_just]|].
      destruct (String.eqb (a_method a) "PFA"); [apply ag_step; [now apply ag_run_pfa|intros r; apply ag_just]|apply ag_just].
    - intros [r|]; destruct (a_sa a); try apply ag_sa; apply ag_just.
  Qed.
End Agree.

Section Top.
  Variables (B : limits) (K : machine) (rates : mech -> list xnum -> res (list b64)) (floor : option Q) (C : cases) (a : main_in).

  Lemma main_any cpus threads w r w' : (1 <= cpus)%Z -> (0 <= threads)%Z -> model_apart (a_path a) C (a_file a) ->
    main_procs cpus threads B K rates floor C a w (Ok r) w' <-> fmain B K rates floor C a w = (Ok r, w').
  Proof. intros P T AP. exact (ag_ok _ _ _ _ _ (ag_main cpus threads P T B K rates floor C a AP) w r w' Logic.I). Qed.
  Lemma main_bad cpus threads w e w' : (1 <= cpus)%Z -> (0 <= threads)%Z -> model_apart (a_path a) C (a_file a) ->
    main_procs cpus threads B K rates floor C a w (Raise e) w' -> forall r w1, fmain B K rates floor C a w <> (Ok r, w1).
  Proof. intros P T AP. exact (ag_bad _ _ _ _ _ (ag_main cpus threads P T B K rates floor C a AP) w e w' Logic.I). Qed.
  Lemma main_one cpus threads w r w' : (1 <= cpus)%Z -> threads = 1%Z \/ (threads = 0%Z /\ (cpus = 1%Z \/ cpus = 2%Z)) ->
    model_apart (a_path a) C (a_file a) ->
    main_procs cpus threads B K rates floor C a w r w' <-> fmain B K rates floor C a w = (r, w').
  Proof.
    intros P E AP. assert (0 <= threads)%Z as T by (destruct E as [->|(-> & _)]; lia).
    apply (ag_one _ _ _ _ _ (ag_main cpus threads P T B K rates floor C a AP)); [|exact Logic.I].
    destruct E as [->|(-> & [->| ->])]; reflexivity.
  Qed.

  Lemma procs_whole cpus threads w sol me r w' : (1 <= cpus)%Z -> (0 <= threads)%Z ->
    prepared K C a w sol -> double_posed K rates floor C a sol -> a_method a = method_name me ->
    (a_sa a = true -> temps_ok w (a_path a) B) ->
    main_procs cpus threads B K rates floor C a w (Ok r) w' ->
    exists ref e, metrics_of (conds_of (k_fuel K) (k_physics K) floor C) sol = Ok ref /\
      error_of (double_conds (conds_of (k_fuel K) (k_physics K) floor C)) ref (r_model r) = Ok (r_error r) /\
      r_error r = Fin e /\
      (~ at_the_edge me K rates floor C a sol -> xle (r_error r) (a_limit a) = true) /\
      w_fs w' (path_join (a_path a) (reduced_name (n_species (r_model r)))) = Some (FMech [r_model r]) /\
      (forall f, ~ In f sample_files -> ~ scratch (a_path a) (length (ca_ign C)) f ->
         (forall n, f <> path_join (a_path a) (reduced_name n)) -> w_fs w' f = w_fs w f) /\
      ((a_sa a = true -> limbo_harmless me a w) ->
       forall s, In s (a_targets a ++ a_safe a)%list -> In s (species_names sol) -> In s (species_names (r_model r))).
  Proof.
    intros P T RD DP MN TO X. apply main_any in X; [|exact P|exact T|exact (rd_samples _ _ _ _ _ RD)]. revert X. now apply fwhole.
  Qed.

  (** Less than one process. *)
  Definition refused {A} (e : ends A) (w : world) : Prop := forall r w', e w r w' -> r = Raise ValueError /\ w' = w.
  Lemma refused_then {A B'} (e : ends A) (k : A -> ends B') w : refused e w -> refused (ethen e k) w.
  Proof.
    intros R r w' [x w1 r0 w2 H1 _|x w1 H1|w1 H1]; apply R in H1; destruct H1 as (X & ->); try discriminate X. injection X as ->. auto.
  Qed.
  Lemma refused_after {A B'} (m : M A) (k : A -> ends B') w x : m w = (Ok x, w) -> refused (k x) w -> refused (ethen (just m) k) w.
  Proof.
    intros E R r w' [y w1 r0 w2 H1 H2|y w1 H1|w1 H1]; unfold just in H1; rewrite E in H1; try discriminate H1.
    injection H1 as <- <-. exact (R _ _ H2).
  Qed.
  Lemma main_none cpus threads w sol r w' : (threads < 0)%Z -> graph_method (a_method a) = true -> a_targets a <> nil ->
    holds w (a_file a) (a_phase a) sol -> fresh w -> ca_ign C <> nil \/ ca_psr C <> nil \/ ca_flame C <> nil ->
    main_procs cpus threads B K rates floor C a w r w' -> r = Raise ValueError /\ w' = w.
  Proof.
    intros T G TN H F NE. revert r w'. change (refused (main_procs cpus threads B K rates floor C a) w).
    assert (refused (sampler_procs cpus threads K rates floor C a) w) as SR.
    { apply refused_after with sol; [exact (load_holds _ _ _ _ H)|]. apply refused_then. intros r w' X.
      destruct (no_processes _ _ _ _ _ _ _ _ _ _ _ _ _ T F X) as (E & ->). auto. }
    assert (a_method a = "DRG" \/ a_method a = "DRGEP" \/ a_method a = "PFA") as GM.
    { unfold graph_method in G. apply PyFacts.str_in_iff in G. destruct G as [G|[G|[G|[]]]]; auto. }
    unfold main_procs. cbv zeta. rewrite G. destruct (a_targets a) as [|t0 ts] eqn:ET; [contradiction|]. cbn [andb].
    assert (forall cs, j_targets (graph_job a cs) = t0 :: ts) as JT by (intros; exact ET).
    destruct GM as [E|[E|E]]; rewrite E; cbn [String.eqb Ascii.eqb Bool.eqb andb negb]; apply refused_then; apply refused_then.
    - unfold run_drg_with. rewrite JT. apply refused_after with sol; [exact (load_holds _ _ _ _ H)|]. apply refused_then. exact SR.
    - unfold run_drgep_with. rewrite JT. apply refused_after with sol; [exact (load_holds _ _ _ _ H)|]. apply refused_then. exact SR.
    - unfold run_pfa_with. rewrite JT. apply refused_after with sol; [exact (load_holds _ _ _ _ H)|]. apply refused_then. exact SR.
  Qed.
End Top.

(** Failures that need not be reported alike. *)
From Verif.Spec Require Import Samples DriverSamples SimSamples SamplingSamples MainSamples FloatMainSamples PoolSamples.
Lemma main_other_failure :
  exists K rates C B a w e e' w1 w2,
    main_procs 4 2 B K rates None C a w (Raise e) w1 /\ fmain B K rates None C a w = (Raise e', w2) /\ e <> e'.
Proof.
  exists (mkMachine whole 50 psr_fails (fun _ _ => Ok nil)), (steady_rates nil), two_psr, toy_limits, (toy_main "DRG" nil false None), toy_world,
    RuntimeError, CanteraError, toy_world, toy_world.
  split; [|split; [vm_compute; reflexivity|discriminate]].
  unfold main_procs. cbn [toy_main a_method a_targets a_sa a_limit graph_method str_in existsb String.eqb Ascii.eqb Bool.eqb orb andb negb].
  apply et_raise. apply et_raise. unfold run_drg_with. eapply et_ok; [vm_compute; reflexivity|]. apply et_raise.
  eapply et_ok; [vm_compute; reflexivity|]. apply et_raise.
  eapply et_ok; [reflexivity|]. apply et_raise. eapply et_ok; [vm_compute; reflexivity|]. apply et_raise. apply et_raise.
  pose (ps := map (psr_sample_worker psr_fails "mech.yaml" "") (jobs_of (ca_psr two_psr))).
  apply rw_some with (ps := [nth 0 ps (Ret NoFuel); Ret (Raise RuntimeError)]); [reflexivity| |right; left; reflexivity].
  eapply steps_more; [exact (step_get [nth 0 ps (Ret NoFuel)] [] "mech.yaml" _ toy_world)|]. vm_compute. apply steps_refl.
Qed.
