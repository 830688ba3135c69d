(** The properties of sampling, from the lemmas about its parts. *)
From Coq Require Import String Ascii List QArith ZArith Bool Arith Lia Permutation.
From Verif.Base Require Import Py Num XNum Paths.
From Verif.Model Require Import Mech World Metrics Drivers Simulation Sampling.
From Verif.Spec Require Import MetricSpec DriverSpec SimSpec SamplingSpec.
From Verif.Proofs Require Import PyFacts MetricFacts SimFacts SimMore ProgFacts SamplingFacts SamplingMore SamplingEnd SamplingWhole.
Import ListNotations.
Local Open Scope string_scope.

Lemma starts_Forall2 fuel Ph C m xi : starts_right Ph C m ->
  mapM (ign_pure fuel Ph m) (ca_ign C) = Ok xi -> Forall2 (ign_gives fuel Ph m) (ca_ign C) xi.
Proof. intros S. apply mapM_Forall2. intros c x I. apply ign_pure_iff. now apply S. Qed.
Lemma Forall2_starts fuel Ph C m xi : starts_right Ph C m ->
  Forall2 (ign_gives fuel Ph m) (ca_ign C) xi -> mapM (ign_pure fuel Ph m) (ca_ign C) = Ok xi.
Proof. intros S. apply Forall2_mapM. intros c x I. apply ign_pure_iff. now apply S. Qed.

Lemma measured_iff fuel Ph floor C m xi xp xf : starts_right Ph C m ->
  measured fuel Ph floor C m xi xp xf <->
  mapM (ign_pure fuel Ph m) (ca_ign C) = Ok xi /\ mapM (psr_pure Ph m) (ca_psr C) = Ok xp /\
  mapM (flame_pure Ph floor m) (ca_flame C) = Ok xf.
Proof.
  intros S. unfold measured. split; intros (A & B & D); (split; [|split]).
  - now apply Forall2_starts.
  - revert B. apply Forall2_mapM. intros ? ? _. apply psr_pure_iff.
  - revert D. apply Forall2_mapM. intros ? ? _. apply flame_pure_iff.
  - now apply starts_Forall2.
  - revert B. apply mapM_Forall2. intros ? ? _. apply psr_pure_iff.
  - revert D. apply mapM_Forall2. intros ? ? _. apply flame_pure_iff.
Qed.

Lemma together_app a b c :
  (fst (together a) ++ fst (together b) ++ fst (together c), snd (together a) ++ snd (together b) ++ snd (together c))%list
  = together (a ++ b ++ c).
Proof. unfold together. simpl. rewrite !map_app, !concat_app. reflexivity. Qed.

(** ** Worker processes *)

Section Pools.
  Context (fuel : nat) (Ph : physics) (floor : option Q) (model phase path : string) (m : mech).

  Lemma off_all cs : ~ scratch path (length (cs : list in_ign)) model ->
    forall i, (i < length cs)%nat -> ~ model = h5_name path i.
  Proof. intros N i L E. apply N. now exists i. Qed.

  Lemma ign_pool_ends (cs : list in_ign) w rs w' :
    holds w model phase m -> ~ scratch path (length cs) model ->
    (forall c, In c cs -> starts_at (A := ph_calc Ph) (ph_reactor Ph c m) (ig_T c)) ->
    steps (map (ign_sample_worker fuel Ph model phase path) (jobs_of cs), w) (map Ret rs, w') ->
    length rs = length cs /\
    (forall i c, nth_error cs i = Some c ->
       exists r, nth_error rs i = Some r /\ (forall x, r = Ok x <-> ign_gives fuel Ph m c x) /\
         (forall x, r = Ok x -> w_fs w' (h5_name path i) = None)) /\
    (forall f, ~ scratch path (length cs) f -> w_fs w' f = w_fs w f).
  Proof.
    intros H N S ST.
    destruct (pool_ends _ _ model phase m _ (ign_runs fuel Ph model phase path m) (ign_sep path)
      (ign_worker_within fuel Ph model phase path) cs w rs w' (off_all cs N) H ST) as (-> & F1 & F2).
    split; [apply map_length|]. split.
    - intros i c E. exists (ign_pure fuel Ph m c). split; [now apply map_nth_error|].
      split; [intros x; apply ign_pure_iff; apply S; eapply nth_error_In; eauto|].
      intros x X. rewrite (F1 i c (h5_name path i) E eq_refl).
      destruct (ign_runs fuel Ph model phase path m w i c H) as (w2 & E2 & _ & G). rewrite E2. eapply G; eauto.
    - intros f Nf. apply F2. intros i L E. apply Nf. now exists i.
  Qed.

  Lemma collect_samples_of results rs : collect results = Ok rs -> collect_samples results = Ok (together rs).
  Proof. unfold collect_samples. intros ->. reflexivity. Qed.

  Lemma serial_samples (p : prog (list (nat * case_result))) (w w1 : world) rs :
    exec (x <~ p ;; Ret (collect x)) w = (Ok rs, w1) -> exec (x <~ p ;; Ret (collect_samples x)) w = (Ok (together rs), w1).
  Proof. intros E. rewrite (collect_together p (fun x => x)). rewrite E. reflexivity. Qed.

  Lemma ign_pool (cs : list in_ign) w results w' :
    holds w model phase m -> ~ scratch path (length cs) model ->
    (forall c, In c cs -> starts_at (A := ph_calc Ph) (ph_reactor Ph c m) (ig_T c)) ->
    pool_run (ign_sample_worker fuel Ph model phase path) (jobs_of cs) w results w' ->
    exists rs w1, Forall2 (ign_gives fuel Ph m) cs rs /\ collect_samples results = Ok (together rs) /\
      exec (ign_jobs fuel Ph model phase path cs) w = (Ok (together rs), w1) /\ same_files w' w1.
  Proof.
    intros H N S P.
    destruct (pool_collect _ _ model phase m _ (ign_runs fuel Ph model phase path m) (ign_sep path)
      (ign_worker_within fuel Ph model phase path) (fun i f => h5_dec path i f) cs w results w' (off_all cs N) H P)
      as (rs & w1 & E & C & X & F).
    exists rs, w1. split; [|split; [|split]]; auto.
    - revert E. apply mapM_Forall2. intros c x I. apply ign_pure_iff. auto.
    - now apply collect_samples_of.
    - unfold ign_jobs. apply serial_samples. exact X.
  Qed.
  Lemma psr_pool (cs : list in_psr) w results w' :
    holds w model phase m -> pool_run (psr_sample_worker Ph model phase) (jobs_of cs) w results w' ->
    exists rs w1, Forall2 (psr_gives Ph m) cs rs /\ collect_samples results = Ok (together rs) /\
      exec (psr_jobs Ph model phase cs) w = (Ok (together rs), w1) /\ same_files w' w1.
  Proof.
    intros H P.
    destruct (pool_collect _ _ model phase m _ (psr_runs Ph model phase m) none_sep
      (fun i a => psr_worker_within Ph model phase (i, a)) (fun i f => or_intror (fun X : False => X)) cs w results w' (fun i _ => none_off model i) H P)
      as (rs & w1 & E & C & X & F).
    exists rs, w1. split; [|split; [|split]]; auto.
    - revert E. apply mapM_Forall2. intros c x I. apply psr_pure_iff.
    - now apply collect_samples_of.
    - unfold psr_jobs. apply serial_samples. exact X.
  Qed.
  Lemma flame_pool (cs : list in_flame) w results w' :
    holds w model phase m -> pool_run (flame_sample_worker Ph floor model phase) (jobs_of cs) w results w' ->
    exists rs w1, Forall2 (flame_gives Ph floor m) cs rs /\ collect_samples results = Ok (together rs) /\
      exec (flame_jobs Ph floor model phase cs) w = (Ok (together rs), w1) /\ same_files w' w1.
  Proof.
    intros H P.
    destruct (pool_collect _ _ model phase m _ (flame_runs Ph floor model phase m) none_sep
      (fun i a => flame_worker_within Ph floor model phase (i, a)) (fun i f => or_intror (fun X : False => X)) cs w results w' (fun i _ => none_off model i) H P)
      as (rs & w1 & E & C & X & F).
    exists rs, w1. split; [|split; [|split]]; auto.
    - revert E. apply mapM_Forall2. intros c x I. apply flame_pure_iff.
    - now apply collect_samples_of.
    - unfold flame_jobs. apply serial_samples. exact X.
  Qed.
  Lemma metric_pool (cs : list cond) w results w' :
    holds w model phase m -> pool_run (metric_worker model phase) (jobs_of cs) w results w' ->
    exists rs w1, mapM (fun c : cond => c m) cs = Ok rs /\ collect results = Ok rs /\
      exec (x <~ run_serial (metric_worker model phase) (jobs_of cs) ;; Ret (collect x)) w = (Ok rs, w1) /\ same_files w' w1.
  Proof.
    intros H P.
    exact (pool_collect _ _ model phase m _ (metric_runs model phase m) none_sep
      (fun i a => metric_worker_within model phase (i, a)) (fun i f => or_intror (fun X : False => X)) cs w results w' (fun i _ => none_off model i) H P).
  Qed.

  (** Serial runs that succeed can be reproduced by processes. *)
  Lemma ign_pool_exists (cs : list in_ign) w rs :
    holds w model phase m -> ~ scratch path (length cs) model ->
    (forall c, In c cs -> starts_at (A := ph_calc Ph) (ph_reactor Ph c m) (ig_T c)) ->
    Forall2 (ign_gives fuel Ph m) cs rs ->
    exists results w', pool_run (ign_sample_worker fuel Ph model phase path) (jobs_of cs) w results w'.
  Proof.
    intros H N S F.
    apply (pool_exists _ _ model phase m _ (ign_runs fuel Ph model phase path m) (ign_sep path)
      (ign_worker_within fuel Ph model phase path) cs w rs (off_all cs N) H).
    revert F. apply Forall2_mapM. intros c x I. apply ign_pure_iff. auto.
  Qed.
End Pools.

(** ** A first call *)

Section First.
  Context (torn : xnum -> list xnum) (fuel : nat) (Ph : physics) (floor : option Q)
          (model phase path : string) (C : cases) (m : mech).
  Hypothesis AP : model_apart path C model.
  Hypothesis SH : shaped Ph C m.
  Hypothesis SR : starts_right Ph C m.

  Ltac in_files := unfold sample_files; simpl; tauto.

  Lemma fresh_rec {w xi xp xf} : fresh w ->
    k_rec (KI torn fuel Ph model phase path C xi) w /\ k_rec (KP torn Ph model phase C xp) w /\ k_rec (KF torn Ph floor model phase C xf) w.
  Proof. intros FR. split; [|split]; intros _; left; apply FR; in_files. Qed.
  Lemma fresh_uns {w xi xp xf} : fresh w ->
    k_uns (KI torn fuel Ph model phase path C xi) w /\ k_uns (KP torn Ph model phase C xp) w /\ k_uns (KF torn Ph floor model phase C xf) w.
  Proof. intros FR. split; [|split]; intros _; left; apply FR; in_files. Qed.

  Lemma fresh_measures w xi xp xf : holds w model phase m -> fresh w -> measured fuel Ph floor C m xi xp xf ->
    exists w', exec (sample torn fuel Ph floor model phase path C) w = (Ok (together (xi ++ xp ++ xf)), w').
  Proof.
    intros H FR ME. destruct (proj1 (measured_iff _ _ _ _ _ _ _ _ SR) ME) as (EI & EP & EF).
    destruct (@fresh_rec w xi xp xf FR) as (R1 & R2 & R3).
    destruct (first_run torn fuel Ph floor model phase path C m AP SH xi xp xf EI EP EF w H R1 R2 R3) as (w' & E & _).
    rewrite together_app in E. eauto.
  Qed.

  Lemma unused_none {A} (cs : list A) data output n nc pc jobs w x w1 : cs = nil ->
    exec (part_of torn model phase cs data output n pc jobs) w = (Ok x, w1) -> nc = 0%nat -> w1 = w.
  Proof. intros -> E _. simpl in E. congruence. Qed.

  Lemma fresh_done w r w' : holds w model phase m -> fresh w ->
    exec (sample torn fuel Ph floor model phase path C) w = (Ok r, w') ->
    exists xi xp xf, measured fuel Ph floor C m xi xp xf /\ r = together (xi ++ xp ++ xf) /\
      saved_for (ca_ign C) w' data_ignition output_ignition (together xi) /\
      saved_for (ca_psr C) w' data_psr output_psr (together xp) /\
      saved_for (ca_flame C) w' data_flame output_flame (together xf) /\
      (forall f, scratch path (length (ca_ign C)) f -> w_fs w' f = None) /\
      (forall f, ~ In f sample_files -> ~ scratch path (length (ca_ign C)) f -> w_fs w' f = w_fs w f).
  Proof.
    intros H FR E.
    destruct (first_success torn fuel Ph floor model phase path C m AP SH w r w' H FR E) as (xi & xp & xf & EI & EP & EF & -> & FO & FS).
    exists xi, xp, xf. split; [now apply measured_iff|]. split; [reflexivity|].
    destruct (@fresh_rec w xi xp xf FR) as (R1 & R2 & R3).
    destruct (first_run torn fuel Ph floor model phase path C m AP SH xi xp xf EI EP EF w H R1 R2 R3) as (w2 & E2 & S1 & S2 & S3 & _).
    rewrite E in E2. injection E2 as _ _ <-.
    destruct (split_success torn fuel Ph floor model phase path C w _ w' E) as (i & w1 & p & w2 & f & Q1 & Q2 & Q3 & _).
    destruct (rI torn fuel Ph model phase path C m AP SH w i w1 H Q1) as (_ & F1).
    assert (holds w1 model phase m) as H1.
    { apply (holds_same _ _ m w); auto. apply F1; [apply (off _ _ _ AP); in_files|apply (off _ _ _ AP); in_files|apply (proj1 AP)]. }
    destruct (rP torn Ph model phase path C m AP SH w1 p w2 H1 Q2) as (_ & F2).
    assert (holds w2 model phase m) as H2.
    { apply (holds_same _ _ m w1); auto. apply F2; [apply (off _ _ _ AP); in_files|apply (off _ _ _ AP); in_files|apply (proj1 AP)]. }
    destruct (rF torn Ph floor model phase path C m AP SH w2 f w' H2 Q3) as (_ & F3).
    assert (forall g, In g sample_files -> w_fs w g = None) as FR' by exact FR.
    split; [|split; [|split; [|split]]]; auto.
    - unfold saved_for. unfold KI, k_sv in S1. cbn [k_used k_data k_out k_x] in S1. destruct (ca_ign C) eqn:EC; [|auto].
      assert (w1 = w) as ->. { unfold pI, part_of in Q1. rewrite EC in Q1. simpl in Q1. congruence. }
      split.
      + transitivity (w_fs w2 data_ignition); [apply F3; [discriminate|discriminate|apply not_scratch; in_files]|].
        transitivity (w_fs w data_ignition); [apply F2; [discriminate|discriminate|apply not_scratch; in_files]|apply FR; in_files].
      + transitivity (w_fs w2 output_ignition); [apply F3; [discriminate|discriminate|apply not_scratch; in_files]|].
        transitivity (w_fs w output_ignition); [apply F2; [discriminate|discriminate|apply not_scratch; in_files]|apply FR; in_files].
    - unfold saved_for. unfold KP, k_sv in S2. cbn [k_used k_data k_out k_x] in S2. destruct (ca_psr C) eqn:EC; [|auto].
      assert (w2 = w1) as ->. { unfold pP, part_of in Q2. rewrite EC in Q2. simpl in Q2. congruence. }
      split.
      + transitivity (w_fs w1 data_psr); [apply F3; [discriminate|discriminate|apply not_scratch; in_files]|].
        transitivity (w_fs w data_psr); [apply F1; [discriminate|discriminate|apply not_scratch; in_files]|apply FR; in_files].
      + transitivity (w_fs w1 output_psr); [apply F3; [discriminate|discriminate|apply not_scratch; in_files]|].
        transitivity (w_fs w output_psr); [apply F1; [discriminate|discriminate|apply not_scratch; in_files]|apply FR; in_files].
    - unfold saved_for. unfold KF, k_sv in S3. cbn [k_used k_data k_out k_x] in S3. destruct (ca_flame C) eqn:EC; [|auto].
      assert (w' = w2) as ->. { unfold pF, part_of in Q3. rewrite EC in Q3. simpl in Q3. congruence. }
      split.
      + transitivity (w_fs w1 data_flame); [apply F2; [discriminate|discriminate|apply not_scratch; in_files]|].
        transitivity (w_fs w data_flame); [apply F1; [discriminate|discriminate|apply not_scratch; in_files]|apply FR; in_files].
      + transitivity (w_fs w1 output_flame); [apply F2; [discriminate|discriminate|apply not_scratch; in_files]|].
        transitivity (w_fs w output_flame); [apply F1; [discriminate|discriminate|apply not_scratch; in_files]|apply FR; in_files].
  Qed.

  (** A crash of the first call and a second one. *)
  Lemma crash_rerun w r w1 v : holds w model phase m -> fresh w ->
    exec (sample torn fuel Ph floor model phase path C) w = (Ok r, w1) ->
    In v (states (sample torn fuel Ph floor model phase path C) w) ->
    (exists w2, exec (sample torn fuel Ph floor model phase path C) v = (Ok r, w2)) \/
    (exists xi xp xf, measured fuel Ph floor C m xi xp xf /\ r = together (xi ++ xp ++ xf) /\
       ((ca_ign C <> nil /\ cut_short torn v output_ignition (fst (together xi))) \/
        (ca_psr C <> nil /\ cut_short torn v output_psr (fst (together xp))) \/
        (ca_flame C <> nil /\ cut_short torn v output_flame (fst (together xf))))).
  Proof.
    intros H FR E I.
    destruct (first_success torn fuel Ph floor model phase path C m AP SH w r w1 H FR E) as (xi & xp & xf & EI & EP & EF & -> & _).
    destruct (@fresh_uns w xi xp xf FR) as (R1 & R2 & R3).
    destruct (first_crash torn fuel Ph floor model phase path C m AP SH xi xp xf EI EP EF w v H R1 R2 R3 I) as ([(V1 & V2 & V3)|D] & HV).
    - left. destruct (first_run torn fuel Ph floor model phase path C m AP SH xi xp xf EI EP EF v HV V1 V2 V3) as (w2 & E2 & _).
      rewrite together_app in E2. eauto.
    - right. exists xi, xp, xf. split; [now apply measured_iff|]. split; [reflexivity|].
      unfold k_cut, KI, KP, KF in D. cbn [k_used k_data k_out k_x] in D.
      destruct D as [(U & D)|[(U & D)|(U & D)]]; [left|right; left|right; right]; (split; [intros N; rewrite N in U; discriminate|exact D]).
  Qed.

  (** The samples' metrics are the candidates' metrics. *)
  Lemma cond_of_pure_ign c x : In c (ca_ign C) -> ign_pure fuel Ph m c = Ok x -> ign_cond fuel Ph c m = Ok (fst x).
  Proof.
    intros I E. apply ign_pure_iff in E; [|now apply SR].
    destruct E as (SU & n & k & d & ps & rows & E1 & E2 & E3 & E4 & E5 & E6 & ->). unfold ign_cond.
    apply supports_iff in SU. rewrite SU. simpl.
    pose (w0 := mkWorld (fun _ => None) nil).
    assert (fst (run_case (A := ph_calc Ph) fuel (ph_reactor Ph c m) c "" w0) = Ok d) as RC.
    { apply run_case_success. exists n, k. auto. }
    destruct (run_case (A := ph_calc Ph) fuel (ph_reactor Ph c m) c "" w0) as [o wr] eqn:ER. simpl in RC. subst o.
    destruct (delay_same _ _ _ _ _ _ _ ER (SR c I)) as (-> & _). reflexivity.
  Qed.
  Lemma cond_of_pure_psr c x : psr_pure Ph m c = Ok x -> psr_cond Ph c m = Ok (fst x).
  Proof.
    unfold psr_pure, psr_cond. destruct (setup_gas (ps_mix c) m); simpl; try discriminate.
    destruct x as (v, rows). apply psr_alike.
  Qed.
  Lemma cond_of_pure_flame c x : flame_pure Ph floor m c = Ok x -> flame_cond Ph floor c m = Ok (fst x).
  Proof.
    unfold flame_pure, flame_cond. destruct (setup_gas (fl_mix c) m); simpl; try discriminate.
    destruct (flame_process (flame_floor floor) (ph_flame Ph c m)) as [(v, rows)| |] eqn:E; simpl; try discriminate.
    rewrite (flame_alike _ _ _ _ E). simpl. intros X. injection X as <-. reflexivity.
  Qed.
  Lemma mapM_conds {A} (pure : A -> res case_result) (cond_of : A -> cond) cs xs :
    (forall c x, In c cs -> pure c = Ok x -> cond_of c m = Ok (fst x)) ->
    mapM pure cs = Ok xs -> mapM (fun c : cond => c m) (map cond_of cs) = Ok (map fst xs).
  Proof.
    revert xs. induction cs as [|c cs IH]; intros xs K E.
    - simpl in *. injection E as <-. reflexivity.
    - simpl in *. destruct (pure c) as [x| |] eqn:E1; try discriminate. simpl in E.
      destruct (mapM pure cs) as [ys| |]; try discriminate. simpl in E. injection E as <-.
      rewrite (K c x (or_introl eq_refl) E1). simpl. rewrite (IH ys); auto.
  Qed.
  Lemma mapM_apps {A B} (f : A -> res B) l1 l2 r1 r2 : mapM f l1 = Ok r1 -> mapM f l2 = Ok r2 -> mapM f (l1 ++ l2)%list = Ok (r1 ++ r2)%list.
  Proof.
    revert r1. induction l1 as [|a l IH]; simpl; intros r1 E1 E2.
    - injection E1 as <-. exact E2.
    - destruct (f a) as [b| |]; try discriminate. simpl in *. destruct (mapM f l) as [bs| |]; try discriminate.
      simpl in E1. injection E1 as <-. rewrite (IH bs eq_refl E2). reflexivity.
  Qed.
  Lemma conds_of_measured xi xp xf : measured fuel Ph floor C m xi xp xf ->
    metrics_of (conds_of fuel Ph floor C) m = Ok (fst (together (xi ++ xp ++ xf))).
  Proof.
    intros ME. destruct (proj1 (measured_iff _ _ _ _ _ _ _ _ SR) ME) as (EI & EP & EF).
    unfold metrics_of, conds_of. cbn [c_ign c_psr c_flame].
    rewrite (mapM_apps _ _ _ (map fst xi) (map fst xp ++ map fst xf)%list).
    - simpl. unfold together. simpl. rewrite !map_app. reflexivity.
    - eapply mapM_conds; [|exact EI]. exact cond_of_pure_ign.
    - apply mapM_apps.
      + eapply mapM_conds; [|exact EP]. intros c x _. apply cond_of_pure_psr.
      + eapply mapM_conds; [|exact EF]. intros c x _. apply cond_of_pure_flame.
  Qed.
End First.

Lemma combine_diag {A} (l : list A) o t : In (o, t) (combine l l) -> o = t.
Proof. induction l; simpl; [tauto|]. intros [E|I]; [congruence|auto]. Qed.

Lemma same_num_refl x : same_num x x.
Proof. destruct x; simpl; auto; reflexivity. Qed.

Lemma self_error l : l <> nil -> (forall x, In x l -> positive x) -> exists e, calculate_error l l = Ok (Fin e) /\ (e == 0)%Q.
Proof.
  intros N P. apply error_zero_iff; auto. intros o t I. apply combine_diag in I. subst. apply same_num_refl.
Qed.

(** ** A second call *)

Lemma sample_again torn fuel Ph floor model phase path C m w r w1 :
  model_apart path C model -> shaped Ph C m -> holds w model phase m ->
  exec (sample torn fuel Ph floor model phase path C) w = (Ok r, w1) ->
  forall torn' fuel' Ph' floor' path', exec (sample torn' fuel' Ph' floor' model phase path' C) w1 = (Ok r, w1).
Proof.
  intros AP SH H E torn' fuel' Ph' floor' path'.
  destruct (sample_ready torn fuel Ph floor model phase path C m AP SH w r w1 H E) as (i & p & f & -> & H1 & RI & RP & RF).
  rewrite sample_parts, exec_bind.
  assert (exec (pI torn' fuel' Ph' model phase path' C) w1 = (Ok i, w1)) as ->.
  { unfold pI, part_of. destruct (ca_ign C) eqn:EC; [subst i; reflexivity|]. rewrite <- EC in *. rewrite (if_any_ne _ _ _ _ EC).
    eapply part_ready; eauto. }
  rewrite exec_bind.
  assert (exec (pP torn' Ph' model phase C) w1 = (Ok p, w1)) as ->.
  { unfold pP, part_of. destruct (ca_psr C) eqn:EC; [subst p; reflexivity|]. rewrite <- EC in *. rewrite (if_any_ne _ _ _ _ EC).
    eapply part_ready; eauto. }
  rewrite exec_bind.
  assert (exec (pF torn' Ph' floor' model phase C) w1 = (Ok f, w1)) as ->.
  { unfold pF, part_of. destruct (ca_flame C) eqn:EC; [subst f; reflexivity|]. rewrite <- EC in *. rewrite (if_any_ne _ _ _ _ EC).
    eapply part_ready; eauto. }
  reflexivity.
Qed.

(** ** Files that are there already *)

Lemma states_right {A B} (p : prog A) (k : A -> prog B) w a w' v :
  exec p w = (Ok a, w') -> In v (states (k a) w') -> In v (states (pbind p k) w).
Proof.
  revert w. induction p as [r|f g IH|f c p IH]; intros w E I.
  - simpl in E. injection E as -> ->. exact I.
  - simpl in *. eapply IH; eauto.
  - simpl in *. right. eauto.
Qed.
Lemma states_left {A B} (p : prog A) (k : A -> prog B) w v :
  In v (states p w) -> In v (states (pbind p k) w).
Proof.
  revert w. induction p as [r|f g IH|f c p IH]; intros w I.
  - simpl in I. destruct I as [<-|[]]. simpl. destruct r as [a|e|]; try (left; reflexivity).
    generalize (k a). induction p as [r|f g IH|f c p IH]; simpl; auto.
  - simpl in *. auto.
  - simpl in *. destruct I; auto.
Qed.
Lemma states_start {A} (p : prog A) w : In w (states p w).
Proof. revert w. induction p as [r|f g IH|f c p IH]; intros w; simpl; auto. Qed.

Section Ignition.
  Context (torn : xnum -> list xnum) (fuel : nat) (Ph : physics) (floor : option Q)
          (model phase path : string) (cs : list in_ign) (m : mech).
  Let C := mkCases cs nil nil.
  Hypothesis AP : model_apart path C model.
  Hypothesis NE : cs <> nil.

  Let part := sample_part torn model phase data_ignition output_ignition
            (length cs) (length cs) 20 (ign_jobs fuel Ph model phase path cs).
  Lemma sample_ign : sample torn fuel Ph floor model phase path C =
    (i <~ part ;; pret (fst i ++ nil, snd i ++ nil)%list).
  Proof using NE.
    clear AP. unfold sample, C. cbn [ca_ign ca_psr ca_flame]. unfold if_any. destruct cs; [congruence|]. reflexivity.
  Qed.
  Lemma sample_ign_exec w : fst (exec (sample torn fuel Ph floor model phase path C) w) = fst (exec part w) /\
    snd (exec (sample torn fuel Ph floor model phase path C) w) = snd (exec part w).
  Proof.
    rewrite sample_ign, exec_bind. destruct (exec part w) as [[(a, b)| |] w1]; simpl; auto. rewrite !app_nil_r. auto.
  Qed.
  Lemma sample_ign_eq w r w1 : exec (sample torn fuel Ph floor model phase path C) w = (r, w1) <-> exec part w = (r, w1).
  Proof.
    destruct (sample_ign_exec w) as (A & B). destruct (exec _ w) as [a b]. destruct (exec part w) as [a' b']. simpl in *. subst. tauto.
  Qed.

  Lemma mdl f : In f sample_files -> model <> f.
  Proof. intros I ->. apply (proj2 AP). exact I. Qed.

  (** The data file is empty, there is an output file: every call raises. *)
  Lemma blocked w l : holds w model phase m ->
    w_fs w data_ignition = Some (FTable nil) -> w_fs w output_ignition = Some (FNums l) ->
    exec (sample torn fuel Ph floor model phase path C) w = (Raise IndexError, w).
  Proof.
    intros (ph & HF & HP) D O. apply sample_ign_eq. unfold part, sample_part, pis_file, genfromtxt, pload, pret.
    simpl. repeat (first [rewrite D|rewrite O|rewrite HF|rewrite HP]; simpl). reflexivity.
  Qed.

  (** What the code does when saved files are present but of the wrong size. *)
  Definition mismatched (w : world) : Prop :=
    exists l ds, w_fs w output_ignition = Some (FNums l) /\ w_fs w data_ignition = Some (FTable ds) /\
      text_array (FTable ds) = Ok (Arr2 ds) /\
      ~ (length l = length cs /\ length ds = (20 * length cs)%nat /\ length (hd nil ds) = (2 + n_species m)%nat).

  Lemma mismatched_exec w : holds w model phase m -> mismatched w ->
    exec part w = exec (recompute torn data_ignition output_ignition (ign_jobs fuel Ph model phase path cs)) w /\
    states part w = states (recompute torn data_ignition output_ignition (ign_jobs fuel Ph model phase path cs)) w.
  Proof.
    intros (ph & HF & HP) (l & ds & O & D & T & N). unfold part, sample_part, pis_file, genfromtxt, pload, pret.
    simpl in T. simpl. repeat (first [rewrite D|rewrite O|rewrite T|rewrite HF|rewrite HP]; simpl).
    destruct (Nat.eqb (length l) (length cs) && Nat.eqb (length ds) _ && Nat.eqb _ (S (S (n_species m)))) eqn:B; simpl.
    - exfalso. apply andb_true_iff in B. destruct B as (B & B3). apply andb_true_iff in B. destruct B as (B1 & B2).
      apply Nat.eqb_eq in B1, B2, B3. apply N. split; [exact B1|]. split; [exact B2|]. destruct ds; exact B3.
    - split; reflexivity.
  Qed.

  (** Two states of a run that recomputes: new data beside the old output, and
      emptied data beside it. *)
  Lemma recompute_states w r w1 : holds w model phase m ->
    exec (recompute torn data_ignition output_ignition (ign_jobs fuel Ph model phase path cs)) w = (Ok r, w1) ->
    exists v1 v2, In v1 (states (recompute torn data_ignition output_ignition (ign_jobs fuel Ph model phase path cs)) w) /\
      In v2 (states (recompute torn data_ignition output_ignition (ign_jobs fuel Ph model phase path cs)) w) /\
      w_fs v1 data_ignition = Some (FTable (snd r)) /\ w_fs v1 output_ignition = w_fs w output_ignition /\ holds v1 model phase m /\
      w_fs v2 data_ignition = Some (FTable nil) /\ w_fs v2 output_ignition = w_fs w output_ignition /\ holds v2 model phase m /\
      (exists v3, In v3 (states (recompute torn data_ignition output_ignition (ign_jobs fuel Ph model phase path cs)) w) /\
        w_fs v3 data_ignition = Some (FTable (snd r)) /\ w_fs v3 output_ignition = Some (FNums nil) /\ holds v3 model phase m).
  Proof.
    intros H E.
    destruct (exec (ign_jobs fuel Ph model phase path cs) w) as [[x| |] wj] eqn:EJ.
    2:{ rewrite (recompute_fails _ _ _ _ _ _ _ EJ) in E. discriminate. }
    2:{ rewrite (recompute_fuel _ _ _ _ _ _ EJ) in E. discriminate. }
    pose proof (exec_frame _ _ _ (ign_jobs_within fuel Ph model phase path cs) w) as FR. rewrite EJ in FR. simpl in FR.
    assert (forall f, In f sample_files -> ~ scratch path (length cs) f) as NS by (intros f I; now apply not_scratch).
    assert (holds wj model phase m) as HJ.
    { apply (holds_same _ _ m w); auto. apply FR. apply (proj1 AP). }
    destruct (save_rows_exec torn data_ignition (snd x) wj) as (wr & ER & FR2 & DR).
    assert (holds wr model phase m) as HR.
    { apply (holds_same _ _ m wj); auto. apply FR2. apply mdl. unfold sample_files; simpl; tauto. }
    assert (w_fs wr output_ignition = w_fs w output_ignition) as OR.
    { rewrite FR2 by discriminate. apply FR. apply NS. unfold sample_files; simpl; tauto. }
    assert (r = x) as ->.
    { unfold recompute in E. rewrite exec_bind, EJ, exec_bind, ER, exec_bind in E.
      destruct (save_nums_exec torn output_ignition (fst x) wr) as (wn & EN & _). rewrite EN in E. simpl in E. congruence. }
    exists wr, (set_file data_ignition (Some (FTable nil)) wj).
    split. { unfold recompute. eapply states_right; [exact EJ|]. eapply states_right; [exact ER|]. apply states_start. }
    split. { unfold recompute. eapply states_right; [exact EJ|]. apply states_left. unfold save_rows. simpl. right. apply states_start. }
    split; [exact DR|]. split; [exact OR|]. split; [exact HR|].
    split; [reflexivity|]. split.
    { simpl. unfold fs_set. simpl. apply FR. apply NS. unfold sample_files; simpl; tauto. }
    split.
    { apply (holds_same _ _ m wj); auto. simpl. unfold fs_set. destruct (String.eqb_spec model data_ignition); [|reflexivity].
      exfalso. eapply mdl; [|exact e]. unfold sample_files; simpl; tauto. }
    exists (set_file output_ignition (Some (FNums nil)) wr).
    split. { unfold recompute. eapply states_right; [exact EJ|]. eapply states_right; [exact ER|]. apply states_left. unfold save_nums. simpl. right. apply states_start. }
    split; [exact DR|]. split; [reflexivity|].
    apply (holds_same _ _ m wr); auto. simpl. unfold fs_set. destruct (String.eqb_spec model output_ignition); [|reflexivity].
    exfalso. eapply mdl; [|exact e]. unfold sample_files; simpl; tauto.
  Qed.
End Ignition.
