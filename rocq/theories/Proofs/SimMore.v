(** More facts about simulations: candidates, and packaged statements. *)
From Coq Require Import String List QArith ZArith Bool Arith Lia Lqa.
From Verif.Base Require Import Py Num XNum.
From Verif.Model Require Import Mech World Metrics Drivers Simulation.
From Verif.Spec Require Import DriverSpec MetricSpec SimSpec.
From Verif.Proofs Require Import PyFacts NumFacts MetricFacts SimFacts.
Import ListNotations.

Section Calculations.
Context {CA : calc}.

Lemma ended_iff fuel R c n : ended fuel R c n <-> ends_after R c n /\ (Qnz (ig_end c) = true -> (n <= fuel)%nat).
Proof.
  unfold ended, ends_after. change steps_allowed with max_steps. destruct (Qnz (ig_end c)).
  - intuition.
  - split.
    + intros (A & B & L). split; [split; auto; lia|discriminate].
    + intros ((B & L) & _). split; [lia|]. split; auto. lia.
Qed.

Lemma run_case_success fuel R c f w d :
  fst (run_case fuel R c f w) = Ok d <->
  exists n k, ends_after R c n /\ (Qnz (ig_end c) = true -> (n <= fuel)%nat) /\ (k <= n)%nat /\ ignites R (ig_T c) k d.
Proof.
  rewrite run_case_iff. split.
  - intros (n & k & E & K & I). apply ended_iff in E. exists n, k. tauto.
  - intros (n & k & E & F & K & I). exists n, k. rewrite ended_iff. tauto.
Qed.

Lemma settles_fun R n n' : settles R n -> settles R n' -> n = n'.
Proof.
  intros (A & _ & B & C) (A' & _ & B' & C'). destruct (Nat.lt_trichotomy n n') as [L|[->|L]]; auto.
  - rewrite C' in B by lia. discriminate.
  - rewrite C in B' by lia. discriminate.
Qed.

Lemma last_step_fails fuel R c f w n : Qnz (ig_end c) = false -> settles R n -> (Z.of_nat n = max_steps c)%Z ->
  run_case fuel R c f w = (Raise RuntimeError, w).
Proof.
  intros Z S L. unfold run_case, mbind, mlift, integrate. rewrite Z.
  pose proof S as (P & _).
  destruct (Z.ltb_spec (max_steps c) 0); [lia|].
  destruct (to_steady_runs R (ig_T c) n (Z.to_nat (max_steps c)) 0 (start R) eq_refl S) as (s' & E1 & E2); [lia|].
  unfold start in E2. rewrite E2. simpl. destruct (Nat.eqb_spec n (Z.to_nat (max_steps c))); [|lia]. reflexivity.
Qed.

Lemma no_ignition_leaves_file fuel R c f w n : ends_after R c n -> (Qnz (ig_end c) = true -> (n <= fuel)%nat) ->
  (forall k d, (k <= n)%nat -> ~ ignites R (ig_T c) k d) ->
  exists ps w', run_case fuel R c f w = (Raise RuntimeError, w') /\ recorded R n ps /\ w_fs w' f = Some (FProfile ps).
Proof.
  intros EN F NI. assert (ended fuel R c n) as E by (apply ended_iff; auto).
  destruct (alive_st R (ig_T c) n (ended_alive _ _ _ _ E)) as (s & S).
  unfold run_case, mbind, mlift, put_file, mret, mraise. rewrite (integrate_runs _ _ _ _ _ E S).
  pose proof (st_flag _ _ _ _ S) as FL. destruct (rs_flag s).
  { destruct FL as (k & K & I). exfalso. eapply NI; eauto. }
  eexists _, _. split; [reflexivity|]. split; [eapply st_recorded; eauto|]. simpl. apply fs_set_same.
Qed.

Lemma negative_steps fuel R c f w : Qnz (ig_end c) = false -> (max_steps c < 0)%Z ->
  run_case fuel R c f w = (Raise UnboundLocalError, w) /\ calculate fuel R c = Raise UnboundLocalError.
Proof.
  intros Z L. unfold run_case, mbind, mlift, integrate, calculate. rewrite Z.
  destruct (Z.ltb_spec (max_steps c) 0); [|lia]. split; reflexivity.
Qed.

(** ** Candidates *)
Lemma calc_time_found R T0 tend : forall fuel n u, cool R T0 n -> time_at R n u ->
  (forall j, (j < n)%nat -> exists t, time_at R j t /\ (t < tend)%Q) ->
  calc_to_time fuel R T0 tend n u = NoFuel \/
  (calc_to_time fuel R T0 tend n u = Ok 0%Q) \/
  exists k t, ignites R T0 k t /\ (forall j, (j < k)%nat -> exists t, time_at R j t /\ (t < tend)%Q) /\
     calc_to_time fuel R T0 tend n u = Ok t.
Proof.
  induction fuel as [|fuel IH]; intros n u C TA B; simpl; destruct (Qlt_bool u tend) eqn:E; auto.
  assert (forall j, (j < S n)%nat -> exists t, time_at R j t /\ (t < tend)%Q) as B'.
  { intros j J. destruct (Nat.eq_dec j n) as [->|]; [|apply B; lia]. exists u. split; auto. now apply Qlt_bool_iff. }
  destruct (ra_step R (S n)) as [p|] eqn:EP; auto. destruct (hot T0 (p_T p)) eqn:H.
  - right. right. exists (S n), (p_time p). split; auto. split; [lia|]. split.
    + exists p. repeat split; auto. now apply hot_iff.
    + intros j J. apply C. lia.
  - apply IH; auto.
    + intros j J. destruct (Nat.eq_dec j (S n)) as [->|]; [|apply C; lia]. exists p. split; auto. now apply hot_false.
    + simpl. eauto.
Qed.

Lemma calculate_found fuel R c : (Qnz (ig_end c) = true \/ (0 <= max_steps c)%Z) ->
  calculate fuel R c = NoFuel \/ calculate fuel R c = Ok 0%Q \/
  exists d, burns R c d /\ calculate fuel R c = Ok d.
Proof.
  intros H. unfold calculate, burns, in_reach. change steps_allowed with max_steps. destruct (Qnz (ig_end c)).
  - destruct (calc_time_found R (ig_T c) (ig_end c) fuel 0 (p_time (ra_init R))) as [E|[E|(k & t & I & B & E)]]; auto.
    + intros j J. lia.
    + reflexivity.
    + intros j J. lia.
    + right. right. exists t. split; auto. exists k. auto.
  - destruct H as [|H]; [discriminate|]. destruct (Z.ltb_spec (max_steps c) 0); [lia|].
    destruct (calc_steps_some R (ig_T c) (Z.to_nat (max_steps c)) 0) as [E|(k & K & I)].
    + intros j J. lia.
    + right. left. now rewrite E.
    + right. right. eexists. split; [|reflexivity]. exists k. split; auto. lia.
Qed.

Lemma burns_fun R c d d' : burns R c d -> burns R c d' -> d = d'.
Proof. intros (k & I & _) (k' & I' & _). destruct (ignites_fun _ _ _ _ _ _ I I'). auto. Qed.

Lemma calculate_burns fuel R c d : burns R c d -> calculate fuel R c = NoFuel \/ calculate fuel R c = Ok d.
Proof.
  intros (k & I & B). unfold calculate, in_reach in *. change steps_allowed with max_steps in *. pose proof I as (P & _). destruct (Qnz (ig_end c)).
  - assert (forall fuel n u, (n < k)%nat -> time_at R n u ->
      calc_to_time fuel R (ig_T c) (ig_end c) n u = NoFuel \/ calc_to_time fuel R (ig_T c) (ig_end c) n u = Ok d) as X.
    { clear fuel. induction fuel as [|fuel IH]; intros n u L TA; simpl;
        destruct (B n) as (u' & TA' & LT); auto; rewrite (time_fun _ _ _ _ TA TA'); apply Qlt_bool_iff in LT; rewrite LT; auto.
      destruct I as (_ & (p & EP & HT & ED) & BL). destruct (Nat.eq_dec k (S n)) as [->|NE].
      - rewrite EP. apply hot_iff in HT. rewrite HT. right. congruence.
      - destruct (BL (S n)) as (q & EQ & CQ); [lia|]. rewrite EQ. apply hot_false in CQ. rewrite CQ.
        apply IH; [lia|]. simpl. eauto. }
    apply X; [lia|reflexivity].
  - destruct (Z.ltb_spec (max_steps c) 0); [lia|]. right. f_equal. apply calc_steps_runs with (k := k); auto. lia.
Qed.

Lemma calculate_cold fuel R c : (Qnz (ig_end c) = true \/ (0 <= max_steps c)%Z) -> (forall d, ~ burns R c d) ->
  calculate fuel R c = NoFuel \/ calculate fuel R c = Ok 0%Q.
Proof.
  intros H N. destruct (calculate_found fuel R c H) as [E|[E|(d & B & _)]]; auto. exfalso. eapply N; eauto.
Qed.

Lemma flame_alike floor r v rows : flame_process floor r = Ok (v, rows) -> flame_calculate floor r = Ok v.
Proof.
  unfold flame_process, flame_calculate. destruct (flame_detected floor r) as [[(v', ps)|]| |]; simpl; try discriminate.
  destruct (sample_profile ps); simpl; try discriminate. congruence.
Qed.
Lemma psr_alike P r v rows : psr_process P r = Ok (v, rows) -> psr_calculate r = Ok v.
Proof.
  unfold psr_process, psr_calculate. destruct (psr_detect r) as [[c|]| |]; simpl; try discriminate. congruence.
Qed.

End Calculations.

Section Score.
  Variables (fuel : nat) (Ph : physics) (floor : option Q) (C : cases) (m : mech).
  Hypothesis RU : runnable Ph C m.

  (** The result of one case: metrics, zero if it fails. *)
  Let scored (n : nat) (r : res (list xnum)) : Prop := r = NoFuel \/ exists l, r = Ok l /\ length l = n.
  Let zeroed (r : res (list xnum)) : Prop := r = NoFuel \/ exists l, r = Ok l /\ In (Fin 0) l.

  Lemma ign_scored c : In c (ca_ign C) -> scored 1 (ign_cond fuel Ph c m).
  Proof.
    intros I. destruct (ru_ign _ _ _ RU c I) as (S & H). unfold ign_cond. rewrite setup_ok by auto. simpl.
    destruct (calculate_found (CA := ph_calc Ph) fuel (ph_reactor Ph c m) c H) as [->|[->|(d & _ & ->)]]; simpl.
    - left; auto.
    - right; eauto.
    - right; eauto.
  Qed.
  Lemma ign_zeroed c : In c (ca_ign C) -> (forall d, ~ burns (A := ph_calc Ph) (ph_reactor Ph c m) c d) -> zeroed (ign_cond fuel Ph c m).
  Proof.
    intros I N. destruct (ru_ign _ _ _ RU c I) as (S & H). unfold ign_cond. rewrite setup_ok by auto. simpl.
    destruct (calculate_cold (CA := ph_calc Ph) fuel (ph_reactor Ph c m) c H N) as [-> | ->]; simpl; [left; auto|right].
    eexists. split; [reflexivity|simpl; auto].
  Qed.
  Lemma psr_scored c : In c (ca_psr C) -> scored 3 (psr_cond Ph c m).
  Proof.
    intros I. destruct (ru_psr _ _ _ RU c I) as (S & H). unfold psr_cond. rewrite setup_ok by auto. simpl.
    destruct H as [(k & ->)|[-> | ->]]; right; eexists; split; reflexivity.
  Qed.
  Lemma psr_zeroed c e : In c (ca_psr C) -> ph_psr Ph c m = Raise e -> zeroed (psr_cond Ph c m).
  Proof.
    intros I E. destruct (ru_psr _ _ _ RU c I) as (S & H). unfold psr_cond. rewrite setup_ok by auto. simpl.
    destruct H as [(k & X)|[X | X]]; rewrite X; [congruence| |]; right; eexists; split; try reflexivity; simpl; auto.
  Qed.
  Lemma flame_scored c : In c (ca_flame C) -> scored 1 (flame_cond Ph floor c m).
  Proof.
    intros I. destruct (ru_flame _ _ _ RU c I) as (S & H). unfold flame_cond. rewrite setup_ok by auto. simpl.
    destruct H as [((v & ps) & ->)| ->]; unfold flame_calculate, flame_detected; simpl.
    - destruct (xle v (Fin (flame_floor floor))); right; eexists; split; reflexivity.
    - right; eexists; split; reflexivity.
  Qed.
  Lemma flame_zeroed c : In c (ca_flame C) ->
     ((exists e, ph_flame Ph c m = Raise e) \/
      (exists v ps, ph_flame Ph c m = Ok (v, ps) /\ xle v (Fin (least_speed floor)) = true)) ->
    zeroed (flame_cond Ph floor c m).
  Proof.
    intros I F. destruct (ru_flame _ _ _ RU c I) as (S & H). unfold flame_cond. rewrite setup_ok by auto. simpl.
    unfold flame_calculate, flame_detected. destruct F as [(e & E)|(v & ps & E & L)]; [|change least_speed with flame_floor in L].
    - destruct H as [((v & ps) & X)| X]; rewrite X; [congruence|]. right. eexists. split; [reflexivity|simpl; auto].
    - rewrite E, L. right. eexists. split; [reflexivity|simpl; auto].
  Qed.

  Lemma mapM_scored {A} (f : A -> res (list xnum)) n xs :
    (forall x, In x xs -> scored n (f x)) ->
    mapM f xs = NoFuel \/ exists ls, mapM f xs = Ok ls /\ length (concat ls) = (n * length xs)%nat.
  Proof.
    induction xs as [|x xs IH]; intros H; simpl.
    - right. exists nil. split; [reflexivity|simpl; lia].
    - destruct (H x (or_introl eq_refl)) as [->|(l & -> & L)]; [left; auto|]. simpl.
      destruct (IH (fun y Y => H y (or_intror Y))) as [->|(ls & -> & L')]; [left; auto|]. right. simpl.
      exists (l :: ls). split; auto. simpl. rewrite app_length. lia.
  Qed.
  Lemma mapM_zeroed {A} (f : A -> res (list xnum)) xs x ls : In x xs -> zeroed (f x) ->
    mapM f xs = Ok ls -> In (Fin 0) (concat ls).
  Proof.
    revert ls. induction xs as [|y xs IH]; intros ls I Z E; [destruct I|]. simpl in E.
    destruct (f y) as [l| |] eqn:EY; simpl in E; try discriminate.
    destruct (mapM f xs) as [ls'| |]; simpl in E; try discriminate. injection E as <-.
    simpl. apply in_or_app. destruct I as [->|I].
    - left. destruct Z as [Z|(l' & Z & IN)]; congruence.
    - right. eapply IH; eauto.
  Qed.

  Lemma mapM_app {A B} (f : A -> res B) xs ys :
    mapM f (xs ++ ys)%list = bind (mapM f xs) (fun a => bind (mapM f ys) (fun b => Ok (a ++ b)%list)).
  Proof.
    induction xs as [|x xs IH]; simpl.
    - destruct (mapM f ys); reflexivity.
    - destruct (f x); simpl; auto. rewrite IH. destruct (mapM f xs); simpl; auto. destruct (mapM f ys); reflexivity.
  Qed.
  Lemma mapM_map {A B D} (f : B -> res D) (g : A -> B) xs : mapM f (map g xs) = mapM (fun x => f (g x)) xs.
  Proof. induction xs as [|x xs IH]; simpl; auto. rewrite IH. reflexivity. Qed.

  Lemma metrics_conds : 
    metrics_of (conds_of fuel Ph floor C) m = NoFuel \/
    exists i p f, mapM (fun c => ign_cond fuel Ph c m) (ca_ign C) = Ok i /\
                  mapM (fun c => psr_cond Ph c m) (ca_psr C) = Ok p /\
                  mapM (fun c => flame_cond Ph floor c m) (ca_flame C) = Ok f /\
       metrics_of (conds_of fuel Ph floor C) m = Ok (concat i ++ concat p ++ concat f)%list /\
       length (concat i ++ concat p ++ concat f)%list = n_metrics C.
  Proof.
    unfold metrics_of, conds_of. simpl. rewrite !mapM_app, !mapM_map.
    destruct (mapM_scored (fun c => ign_cond fuel Ph c m) 1 (ca_ign C) ign_scored) as [->|(i & -> & Li)]; [left; auto|]. simpl.
    destruct (mapM_scored (fun c => psr_cond Ph c m) 3 (ca_psr C) psr_scored) as [->|(p & -> & Lp)]; [left; auto|]. simpl.
    destruct (mapM_scored (fun c => flame_cond Ph floor c m) 1 (ca_flame C) flame_scored) as [->|(f & -> & Lf)]; [left; auto|]. simpl.
    right. exists i, p, f. split; auto. split; auto. split; auto. rewrite !concat_app. split; auto.
    rewrite !app_length. unfold n_metrics. lia.
  Qed.

  Lemma failing_scored os : some_case_fails Ph floor C m -> length os = n_metrics C ->
    error_of (conds_of fuel Ph floor C) os m <> NoFuel ->
    error_of (conds_of fuel Ph floor C) os m = Ok (Fin 100).
  Proof.
    intros F L NF. unfold error_of in *. destruct metrics_conds as [E|(i & p & f & Ei & Ep & Ef & E & LE)];
      rewrite E in NF |- *; [contradiction NF; reflexivity|]. simpl.
    apply error_zero_metric with (q := 0%Q); [congruence| |reflexivity].
    rewrite !in_app_iff. destruct F as [(c & I & N)|[(c & e & I & N)|(c & I & N)]].
    - left. eapply mapM_zeroed; eauto. now apply ign_zeroed.
    - right. left. eapply mapM_zeroed; eauto. eapply psr_zeroed; eauto.
    - right. right. eapply mapM_zeroed; eauto. now apply flame_zeroed.
  Qed.
End Score.

(** A case that names a species the model lacks. *)
Lemma mapM_raises {A B} (f : A -> res B) xs x e : In x xs -> f x = Raise e -> forall l, mapM f xs <> Ok l.
Proof.
  induction xs as [|y xs IH]; intros I E l; [destruct I|]. simpl. destruct I as [->|I].
  - rewrite E. discriminate.
  - destruct (f y); simpl; try discriminate. specialize (IH I E). destruct (mapM f xs); simpl; try discriminate.
    intros _. eapply IH; reflexivity.
Qed.

Lemma unsupported_escapes fuel Ph floor C m os :
  (exists c, In c (ca_ign C) /\ ~ supports (ig_mix c) m) \/
  (exists c, In c (ca_psr C) /\ ~ supports (ps_mix c) m) \/
  (exists c, In c (ca_flame C) /\ ~ supports (fl_mix c) m) ->
  forall e, error_of (conds_of fuel Ph floor C) os m <> Ok e.
Proof.
  intros H e. unfold error_of, metrics_of, conds_of. simpl.
  assert (exists x, In x (map (ign_cond fuel Ph) (ca_ign C) ++ map (psr_cond Ph) (ca_psr C) ++ map (flame_cond Ph floor) (ca_flame C))%list /\
            x m = Raise CanteraError) as (x & I & E).
  { destruct H as [(c & I & N)|[(c & I & N)|(c & I & N)]].
    - exists (ign_cond fuel Ph c). split; [apply in_or_app; left; now apply in_map|]. unfold ign_cond. now rewrite setup_bad.
    - exists (psr_cond Ph c). split; [apply in_or_app; right; apply in_or_app; left; now apply in_map|]. unfold psr_cond. now rewrite setup_bad.
    - exists (flame_cond Ph floor c). split; [apply in_or_app; right; apply in_or_app; right; now apply in_map|]. unfold flame_cond. now rewrite setup_bad. }
  pose proof (mapM_raises (fun c : cond => c m) _ x _ I E) as N.
  destruct (mapM _ _) as [l| |]; simpl; try discriminate. exfalso. eapply N; reflexivity.
Qed.
