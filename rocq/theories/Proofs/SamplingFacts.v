(** Facts about the sampling workers. *)
From Coq Require Import String Ascii List QArith ZArith Bool Arith Lia Permutation DecimalString DecimalNat.
From Verif.Base Require Import Py Num XNum Paths.
From Verif.Model Require Import Mech World Metrics Drivers Simulation Sampling.
From Verif.Spec Require Import DriverSpec SimSpec SamplingSpec.
From Verif.Proofs Require Import SimFacts SimMore ProgFacts.
Import ListNotations.
Local Open Scope string_scope.

(** ** Names *)
Lemma append_inj_r a b c : a ++ c = b ++ c -> a = b.
Proof.
  revert b. induction a as [|x a IH]; intros [|y b] H; simpl in H; auto.
  - exfalso. assert (String.length c = String.length (String y (b ++ c))) as L by now rewrite <- H.
    simpl in L. clear H. assert (String.length (b ++ c) = String.length b + String.length c)%nat as E.
    { clear. induction b; simpl; auto. } lia.
  - exfalso. assert (String.length (String x (a ++ c)) = String.length c) as L by now rewrite H.
    simpl in L. clear H. assert (String.length (a ++ c) = String.length a + String.length c)%nat as E.
    { clear. induction a; simpl; auto. } lia.
  - injection H as -> H. f_equal. eauto.
Qed.
Lemma append_inj_l a b c : a ++ b = a ++ c -> b = c.
Proof. induction a as [|x a IH]; simpl; intros H; auto. injection H as H. auto. Qed.
Lemma str_nat_inj i j : str_nat i = str_nat j -> i = j.
Proof.
  unfold str_nat. intros H. apply DecimalNat.Unsigned.to_uint_inj.
  assert (Some (Nat.to_uint i) = Some (Nat.to_uint j)) as E; [|congruence].
  rewrite <- (DecimalString.NilEmpty.usu (Nat.to_uint i)), <- (DecimalString.NilEmpty.usu (Nat.to_uint j)). now rewrite H.
Qed.
Lemma str_nat_head n : exists c s, str_nat n = String c s /\ c <> slash.
Proof.
  unfold str_nat. assert (Nat.to_uint n <> Decimal.Nil) as N.
  { destruct n; [discriminate|]. intros E. assert (Nat.of_uint (Nat.to_uint (S n)) = Nat.of_uint Decimal.Nil) as X by now rewrite E.
    rewrite DecimalNat.Unsigned.of_to in X. discriminate. }
  destruct (Nat.to_uint n); simpl; try congruence; eexists; eexists; (split; [reflexivity|discriminate]).
Qed.
Lemma join_num path n s : path_join path (str_nat n ++ s) =
  match last_char path with
  | None => str_nat n ++ s
  | Some l => if Ascii.eqb l slash then path ++ (str_nat n ++ s) else path ++ "/" ++ (str_nat n ++ s)
  end.
Proof.
  destruct (str_nat_head n) as (c & t & E & N). rewrite E. unfold path_join. simpl append at 1. cbv iota.
  destruct (Ascii.eqb_spec c slash); [congruence|]. reflexivity.
Qed.
Lemma h5_inj path i j : h5_name path i = h5_name path j -> i = j.
Proof.
  unfold h5_name. rewrite !join_num. destruct (last_char path) as [l|].
  - destruct (Ascii.eqb l slash); intros H; apply append_inj_l in H; try (apply append_inj_l in H); apply append_inj_r in H; now apply str_nat_inj.
  - intros H. apply append_inj_r in H. now apply str_nat_inj.
Qed.
Lemma last_app a b : b <> "" -> last_char (a ++ b) = last_char b.
Proof.
  intros N. induction a as [|x a IH]; auto. simpl. destruct (a ++ b) eqn:E; auto.
  destruct a; simpl in E; [congruence|discriminate].
Qed.
Lemma h5_last path i : last_char (h5_name path i) = Some "5"%char.
Proof.
  unfold h5_name. rewrite join_num. 
  assert (last_char (str_nat i ++ ".h5") = Some "5"%char) as E by (rewrite last_app; [reflexivity|discriminate]).
  assert (str_nat i ++ ".h5" <> "") as N by (destruct (str_nat_head i) as (c & t & -> & _); discriminate).
  destruct (last_char path) as [l|]; auto. destruct (Ascii.eqb l slash).
  - now rewrite last_app.
  - rewrite last_app; [|discriminate]. now rewrite last_app.
Qed.
Lemma h5_not_saved path i f : In f sample_files -> f <> h5_name path i.
Proof.
  intros I ->. pose proof (h5_last path i) as L. unfold sample_files in I. simpl in I.
  destruct I as [I|[I|[I|[I|[I|[I|[]]]]]]]; rewrite <- I in L; discriminate.
Qed.

(** ** What the workers compute *)
Definition ign_pure (fuel : nat) (Ph : physics) (m : mech) (c : in_ign) : res case_result :=
  bind (setup_gas (ig_mix c) m) (fun _ =>
  bind (integrate (A := ph_calc Ph) fuel (ph_reactor Ph c m) c) (fun s =>
    if rs_flag s then
      match rs_points s with
      | nil => Raise IndexError
      | p0 :: _ => bind (sample_profile (A := ph_calc Ph) (rs_points s)) (fun rows => Ok ([Fin (first_hot (A := ph_calc Ph) (p_T p0) (rs_points s))], fin_rows rows))
      end
    else Raise RuntimeError)).
Definition psr_pure (Ph : physics) (m : mech) (c : in_psr) : res case_result :=
  bind (setup_gas (ps_mix c) m) (fun _ => psr_process (A := ph_calc Ph) (ps_P c) (ph_psr Ph c m)).
Definition flame_pure (Ph : physics) (floor : option Q) (m : mech) (c : in_flame) : res case_result :=
  bind (setup_gas (fl_mix c) m) (fun _ =>
  bind (flame_process (A := ph_calc Ph) (flame_floor floor) (ph_flame Ph c m)) (fun r => Ok ([fst r], fin_rows (snd r)))).

Lemma exec_pload model phase w m : holds w model phase m -> exec (pload model phase) w = (Ok m, w).
Proof. intros (ph & E & P). simpl. now rewrite E, P. Qed.
Lemma exec_ret {A} (r : res A) w : exec (Ret r) w = (r, w).
Proof. reflexivity. Qed.

Lemma ign_worker_exec fuel Ph model phase path i c w m : holds w model phase m ->
  exists w', exec (ign_sample_worker fuel Ph model phase path (i, c)) w = (ign_pure fuel Ph m c, w') /\
    (forall f, f <> h5_name path i -> w_fs w' f = w_fs w f) /\
    (forall x, ign_pure fuel Ph m c = Ok x -> w_fs w' (h5_name path i) = None).
Proof.
  intros H. unfold ign_sample_worker, ign_pure. rewrite exec_bind, (exec_pload _ _ _ _ H), exec_bind, exec_ret.
  set (f := h5_name path i).
  destruct (setup_gas (ig_mix c) m) as [[]| |] eqn:ES; simpl bind; try (eexists; split; [reflexivity|split; [auto|discriminate]]).
  unfold prun_case. rewrite exec_bind.
  destruct (integrate (A := ph_calc Ph) fuel (ph_reactor Ph c m) c) as [s| |] eqn:EI; simpl bind;
    try (eexists; split; [reflexivity|split; [auto|discriminate]]).
  set (w2 := set_file f (Some (FProfile (rs_points s))) (set_file f (Some FOther) w)).
  assert (forall g, g <> f -> w_fs w2 g = w_fs w g) as F by (intros g G; unfold w2; now rewrite !set_file_ne).
  assert (w_fs w2 f = Some (FProfile (rs_points s))) as E by apply fs_set_eq.
  change (exec (Put f (Some FOther) (Put f (Some (FProfile (rs_points s))) (Ret (if rs_flag s then Ok (rs_delay s) else Raise RuntimeError)))) w)
    with (if rs_flag s then Ok (rs_delay s) else Raise RuntimeError, w2).
  clearbody w2. destruct (rs_flag s).
  - unfold pprocess. rewrite exec_bind. simpl exec at 1. rewrite E. destruct (rs_points s) as [|p0 rest] eqn:EP.
    + simpl. eexists; split; [reflexivity|split; [exact F|discriminate]].
    + destruct (sample_profile_ok (CA := ph_calc Ph) p0 rest) as (rows & ER). rewrite ER. simpl bind. simpl exec.
      eexists; split; [reflexivity|]. split.
      * intros g G. rewrite set_file_ne by auto. apply F. auto.
      * intros x _. apply set_file_eq.
  - eexists; split; [reflexivity|split; [exact F|discriminate]].
Qed.

Lemma ign_worker_within fuel Ph model phase path i c :
  within (ign_sample_worker fuel Ph model phase path (i, c)) (fun f => f = model) (fun f => f = h5_name path i).
Proof.
  unfold ign_sample_worker. apply within_bind; [simpl; auto|]. intros m. apply within_bind; [simpl; auto|]. intros [].
  apply within_bind.
  - unfold prun_case. destruct (integrate _ _ _); simpl; auto.
  - intros q. apply within_bind; [simpl; auto|]. intros r. simpl. auto.
Qed.

Lemma psr_worker_exec Ph model phase i c w m : holds w model phase m ->
  exec (psr_sample_worker Ph model phase (i, c)) w = (psr_pure Ph m c, w).
Proof.
  intros H. unfold psr_sample_worker, psr_pure. rewrite exec_bind, (exec_pload _ _ _ _ H), exec_bind, exec_ret. simpl snd.
  destruct (setup_gas (ps_mix c) m); reflexivity.
Qed.
Lemma psr_worker_within Ph model phase j : within (psr_sample_worker Ph model phase j) (fun f => f = model) (fun _ => False).
Proof.
  unfold psr_sample_worker. apply within_bind; [simpl; auto|]. intros m. apply within_bind; [simpl; auto|]. intros []. simpl. auto.
Qed.
Lemma flame_worker_exec Ph floor model phase i c w m : holds w model phase m ->
  exec (flame_sample_worker Ph floor model phase (i, c)) w = (flame_pure Ph floor m c, w).
Proof.
  intros H. unfold flame_sample_worker, flame_pure. rewrite exec_bind, (exec_pload _ _ _ _ H), exec_bind, exec_ret. simpl snd.
  destruct (setup_gas (fl_mix c) m); simpl; auto. destruct (flame_process _ _); reflexivity.
Qed.
Lemma flame_worker_within Ph floor model phase j : within (flame_sample_worker Ph floor model phase j) (fun f => f = model) (fun _ => False).
Proof.
  unfold flame_sample_worker. apply within_bind; [simpl; auto|]. intros m. apply within_bind; [simpl; auto|]. intros [].
  apply within_bind; simpl; auto.
Qed.
Lemma metric_worker_exec model phase i c w m : holds w model phase m ->
  exec (metric_worker model phase (i, c)) w = (c m, w).
Proof. intros H. unfold metric_worker. rewrite exec_bind, (exec_pload _ _ _ _ H). reflexivity. Qed.
Lemma metric_worker_within model phase j : within (metric_worker model phase j) (fun f => f = model) (fun _ => False).
Proof. unfold metric_worker. apply within_bind; simpl; auto. Qed.

(** ** The computed results are those of the simulators *)
Lemma recorded_fun R n ps ps' : recorded R n ps -> recorded R n ps' -> ps = ps'.
Proof.
  intros (qs & -> & L & H) (qs' & -> & L' & H'). f_equal. 
  assert (forall k, nth_error qs k = nth_error qs' k) as X.
  { intros k. destruct (Nat.lt_ge_cases k n) as [K|K].
    - rewrite H, H'; auto.
    - rewrite (proj2 (nth_error_None qs k)), (proj2 (nth_error_None qs' k)); auto; lia. }
  clear - X. revert qs' X. induction qs as [|a qs IH]; intros [|b qs'] X; auto.
  - specialize (X 0%nat). discriminate.
  - specialize (X 0%nat). discriminate.
  - pose proof (X 0%nat) as X0. simpl in X0. injection X0 as ->. f_equal. apply IH. intros k. apply (X (S k)).
Qed.

Lemma supports_iff x m : setup_gas x m = Ok tt <-> supports x m.
Proof.
  split; [|apply setup_ok]. unfold setup_gas, supports. destruct (forallb _ _) eqn:E; [|discriminate]. intros _ s S. apply sets_iff in S.
  rewrite forallb_forall in E. apply PyFacts.str_in_iff, E, S.
Qed.

Lemma ign_pure_iff fuel Ph m c x : starts_at (A := ph_calc Ph) (ph_reactor Ph c m) (ig_T c) ->
  (ign_pure fuel Ph m c = Ok x <-> ign_gives fuel Ph m c x).
Proof.
  intros EQ. unfold ign_pure, ign_gives. set (R := ph_reactor Ph c m) in *. split.
  - destruct (setup_gas (ig_mix c) m) as [[]| |] eqn:ES; simpl; try discriminate.
    destruct (integrate (A := ph_calc Ph) fuel R c) as [s| |] eqn:E; simpl; try discriminate.
    destruct (integrate_ok _ _ _ _ E) as (n & S & EN). pose proof (st_flag _ _ _ _ S) as F.
    pose proof (st_recorded _ _ _ _ S) as RC. pose proof RC as (qs & EPS & _).
    destruct (rs_flag s); [|discriminate]. destruct F as (k & K & I).
    pose proof (first_hot_recorded (CA := ph_calc Ph) R (ig_T c) n (rs_points s) k _ RC I K EQ) as FH.
    rewrite EPS in FH |- *. rewrite FH. clear FH.
    destruct (sample_profile_ok (CA := ph_calc Ph) (ra_init R) qs) as (rows & ER). rewrite ER. simpl. intros H. injection H as <-.
    split; [now apply supports_iff|]. exists n, k, (rs_delay s), (ra_init R :: qs), rows.
    apply ended_iff in EN. destruct EN as (EN1 & EN2). rewrite EPS in RC. apply (sampled_profile (CA := ph_calc Ph)) in ER.
    repeat (split; [assumption|]). reflexivity.
  - intros (SU & n & k & d & ps & rows & EN & FU & K & I & RC & SP & ->).
    rewrite (proj2 (supports_iff _ _) SU). simpl.
    assert (ended fuel R c n) as EN' by (apply ended_iff; auto).
    destruct (alive_st (CA := ph_calc Ph) R (ig_T c) n (ended_alive _ _ _ _ EN')) as (s & S).
    rewrite (integrate_runs _ _ _ _ _ EN' S). simpl.
    destruct (st_ignited _ _ _ _ _ _ S I K) as (-> & _).
    pose proof (st_recorded _ _ _ _ S) as RC'. rewrite (recorded_fun _ _ _ _ RC' RC).
    pose proof (first_hot_recorded (CA := ph_calc Ph) R (ig_T c) n ps k _ RC I K EQ) as FH.
    apply (sampled_profile (CA := ph_calc Ph)) in SP. destruct RC as (qs & -> & _). cbv iota beta. rewrite FH, SP. reflexivity.
Qed.

Lemma psr_pure_iff Ph m c x : psr_pure Ph m c = Ok x <-> psr_gives Ph m c x.
Proof.
  unfold psr_pure, psr_gives, psr_process, psr_detect. split.
  - destruct (setup_gas (ps_mix c) m) as [[]| |] eqn:ES; simpl; try discriminate.
    destruct (ph_psr Ph c m) as [k|e|]; simpl; try discriminate; [|destruct e; discriminate].
    intros H. injection H as <-. split; [now apply supports_iff|]. exists k. split; reflexivity.
  - intros (SU & k & E & ->). rewrite (proj2 (supports_iff _ _) SU), E. reflexivity.
Qed.

Lemma flame_pure_iff Ph floor m c x : flame_pure Ph floor m c = Ok x <-> flame_gives Ph floor m c x.
Proof.
  unfold flame_pure, flame_gives, flame_process, flame_detected. split.
  - destruct (setup_gas (fl_mix c) m) as [[]| |] eqn:ES; simpl; try discriminate.
    destruct (ph_flame Ph c m) as [[v ps]|e|]; simpl; try discriminate; [|destruct e; discriminate].
    change flame_floor with least_speed; destruct (xle v (Fin (least_speed floor))) eqn:EX; simpl; try discriminate.
    destruct (sample_profile (A := ph_calc Ph) ps) as [rows| |] eqn:EP; simpl; try discriminate.
    intros H. injection H as <-. split; [now apply supports_iff|]. exists v, ps, rows. apply (sampled_profile (CA := ph_calc Ph)) in EP. auto.
  - intros (SU & v & ps & rows & E & X & EP & ->). apply (sampled_profile (CA := ph_calc Ph)) in EP. rewrite (proj2 (supports_iff _ _) SU), E. simpl. change least_speed with flame_floor in X. rewrite X. simpl. rewrite EP. reflexivity.
Qed.

(** ** Several workers, one after another *)
Lemma combine_seq {A} (l : list A) : forall s i x, In (i, x) (combine (seq s (length l)) l) ->
  (s <= i < s + length l)%nat /\ nth_error l (i - s) = Some x.
Proof.
  induction l as [|a l IH]; intros s i x H; simpl in H; [destruct H|]. destruct H as [H|H].
  - injection H as <- <-. rewrite Nat.sub_diag. simpl. split; [lia|reflexivity].
  - apply IH in H. destruct H as (H1 & H2). simpl. split; [lia|]. replace (i - s)%nat with (S (i - S s))%nat by lia. exact H2.
Qed.

Section Serial.
  Context {A B : Type}.
  Variables (worker : nat * A -> prog B) (pure : A -> res B) (model phase : string) (m : mech) (W : nat -> string -> Prop).
  Hypothesis runs : forall w i a, holds w model phase m ->
    exists w', exec (worker (i, a)) w = (pure a, w') /\ (forall f, ~ W i f -> w_fs w' f = w_fs w f) /\
               (forall x, pure a = Ok x -> forall f, W i f -> w_fs w' f = None).
  Hypothesis sep : forall i j f, W i f -> W j f -> i = j.

  Lemma serial_exec cs : forall s w, (forall i, (s <= i < s + length cs)%nat -> ~ W i model) -> holds w model phase m ->
    exists w', exec (run_serial worker (combine (seq s (length cs)) cs)) w =
      (bind (mapM pure cs) (fun rs => Ok (combine (seq s (length rs)) rs)), w') /\
      (forall f, (forall i, (s <= i < s + length cs)%nat -> ~ W i f) -> w_fs w' f = w_fs w f) /\
      (forall rs, mapM pure cs = Ok rs -> forall i f, (s <= i < s + length cs)%nat -> W i f -> w_fs w' f = None).
  Proof.
    unfold run_serial. induction cs as [|c cs IH]; intros s w off H; simpl.
    - exists w. split; [reflexivity|]. split; auto. intros. lia.
    - rewrite !exec_bind. destruct (runs w s c H) as (w1 & E1 & F1 & G1). rewrite E1.
      destruct (pure c) as [x| |] eqn:EP; simpl.
      + destruct (IH (S s) w1) as (w2 & E2 & F2 & G2).
        { intros i Hi. apply off. simpl. lia. }
        { destruct H as (ph & H1 & H2). exists ph. rewrite F1; auto. apply off. simpl. lia. }
        rewrite exec_bind, E2. destruct (mapM pure cs) as [rs| |]; simpl.
        * eexists. split; [reflexivity|]. split.
          -- intros f Hf. rewrite F2, F1; auto. apply Hf; lia. intros i Hi. apply Hf. lia.
          -- intros rs' E i f Hi Wf. destruct (Nat.eq_dec i s) as [->|N].
             ++ rewrite F2; [eapply G1; eauto|]. intros j J Wj. pose proof (sep _ _ _ Wf Wj). lia.
             ++ apply (G2 rs eq_refl i f); auto. lia.
        * eexists. split; [reflexivity|]. split; [|discriminate].
          intros f Hf. rewrite F2, F1; auto. apply Hf; lia. intros i Hi. apply Hf. lia.
        * eexists. split; [reflexivity|]. split; [|discriminate].
          intros f Hf. rewrite F2, F1; auto. apply Hf; lia. intros i Hi. apply Hf. lia.
      + eexists. split; [reflexivity|]. split; [|discriminate]. intros f Hf. apply F1. apply Hf. lia.
      + eexists. split; [reflexivity|]. split; [|discriminate]. intros f Hf. apply F1. apply Hf. lia.
  Qed.

  Lemma mapM_length {X Y} (f : X -> res Y) l r : mapM f l = Ok r -> length r = length l.
  Proof.
    revert r. induction l as [|x l IH]; simpl; intros r H; [now injection H as <-|].
    destruct (f x); simpl in H; try discriminate. destruct (mapM f l) as [ys| |]; simpl in H; try discriminate.
    injection H as <-. simpl. f_equal. auto.
  Qed.

  Lemma serial_collect cs w : (forall i, (i < length cs)%nat -> ~ W i model) -> holds w model phase m ->
    exists w', exec (pbind (run_serial worker (jobs_of cs)) (fun rs => Ret (collect rs))) w = (mapM pure cs, w') /\
      (forall f, (forall i, (i < length cs)%nat -> ~ W i f) -> w_fs w' f = w_fs w f) /\
      (forall rs, mapM pure cs = Ok rs -> forall i f, (i < length cs)%nat -> W i f -> w_fs w' f = None).
  Proof.
    intros off H. destruct (serial_exec cs 0 w (fun i Hi => off i (proj2 Hi)) H) as (w' & E & F & G). exists w'. rewrite exec_bind. unfold jobs_of. rewrite E.
    split.
    - destruct (mapM pure cs) as [rs| |] eqn:EM; simpl; auto. f_equal. rewrite collect_perm with (rs := rs); auto.
    - split.
      + intros f Hf. apply F. intros i Hi. apply Hf. lia.
      + intros rs E1 i f Hi. apply (G rs E1). lia.
  Qed.

  (** The same workers at the same time. *)
  Hypothesis foot : forall i a, within (worker (i, a)) (fun f => f = model) (W i).

  Lemma nth_jobs cs i : nth_error (map worker (jobs_of cs)) i = option_map (fun c => worker (i, c)) (nth_error cs i).
  Proof.
    unfold jobs_of. assert (forall s, nth_error (map worker (combine (seq s (length cs)) cs)) i =
      option_map (fun c => worker ((s + i)%nat, c)) (nth_error cs i)) as X; [|apply (X 0%nat)].
    revert i. induction cs as [|c cs IH]; intros [|i] s; simpl; auto.
    - now rewrite Nat.add_0_r.
    - rewrite IH. now replace (S s + i)%nat with (s + S i)%nat by lia.
  Qed.

  Lemma pool_ends cs w rs w' : (forall i, (i < length cs)%nat -> ~ W i model) -> holds w model phase m -> steps (map worker (jobs_of cs), w) (map Ret rs, w') ->
    rs = map pure cs /\
    (forall i c f, nth_error cs i = Some c -> W i f -> w_fs w' f = w_fs (snd (exec (worker (i, c)) w)) f) /\
    (forall f, (forall i, (i < length cs)%nat -> ~ W i f) -> w_fs w' f = w_fs w f).
  Proof.
    intros off H S. set (V := fun i f => (i < length cs)%nat /\ W i f).
    assert (forall i j f, i <> j -> V j f -> ~ f = model /\ ~ V i f) as D.
    { intros i j f N (J & Wf). split.
      - intros ->. eapply off; eauto.
      - intros (_ & Wi). apply N. eapply sep; eauto. }
    assert (pool_ok (fun _ f => f = model) V (map worker (jobs_of cs))) as OK.
    { intros i p P. rewrite nth_jobs in P. destruct (nth_error cs i) eqn:EN; simpl in P; [|discriminate]. injection P as <-.
      eapply within_weaken; [| |apply foot]; simpl; auto. intros f Wf. split; auto. apply nth_error_Some. congruence. }
    destruct (pool_end (fun _ f => f = model) V D _ _ _ _ OK S) as (E & _ & F & G).
    split; [|split].
      + rewrite E. rewrite map_map. clear - H runs. unfold jobs_of. generalize 0%nat. induction cs as [|c cs IH]; intros s; simpl; auto. rewrite IH. f_equal.
        destruct (runs w s c H) as (w1 & E1 & _). now rewrite E1.
      + intros i c f N Wf. apply (F i); [rewrite nth_jobs, N; reflexivity|]. split; auto. apply nth_error_Some. congruence.
      + intros f Hf. apply G. intros i _ (Hi & Wi). exact (Hf i Hi Wi).
  Qed.

  Lemma mapM_all cs rs : map pure cs = map Ok rs <-> mapM pure cs = Ok rs.
  Proof.
    revert rs. induction cs as [|c cs IH]; intros rs; simpl.
    - destruct rs; simpl; split; congruence.
    - split.
      + destruct rs as [|r rs]; simpl; [discriminate|]. intros E. injection E as -> E. apply IH in E. rewrite E. reflexivity.
      + destruct (pure c) as [x| |]; simpl; try discriminate. destruct (mapM pure cs) as [ys| |]; simpl; try discriminate.
        intros E. injection E as <-. simpl. f_equal. now apply IH.
  Qed.

  Hypothesis dec : forall i f, W i f \/ ~ W i f.
  Lemma some_or_none n f : (exists i, (i < n)%nat /\ W i f) \/ (forall i, (i < n)%nat -> ~ W i f).
  Proof.
    induction n as [|n [(i & I & Wi)|N]].
    - right. intros. lia.
    - left. exists i. split; auto.
    - destruct (dec n f); [left; exists n; split; auto|]. right. intros i I. destruct (Nat.eq_dec i n) as [->|]; auto. apply N. lia.
  Qed.

  Lemma pool_collect cs w results w' : (forall i, (i < length cs)%nat -> ~ W i model) -> holds w model phase m -> pool_run worker (jobs_of cs) w results w' ->
    exists rs w1, mapM pure cs = Ok rs /\ collect results = Ok rs /\ 
      exec (pbind (run_serial worker (jobs_of cs)) (fun rs => Ret (collect rs))) w = (Ok rs, w1) /\ same_files w' w1.
  Proof.
    intros off H (rs & S & P). rewrite <- (map_map Ok Ret) in S.
    destruct (pool_ends _ _ _ _ off H S) as (E & F & G). symmetry in E. apply mapM_all in E.
    destruct (serial_collect cs w off H) as (w1 & E1 & F1 & G1). exists rs, w1. rewrite E in E1. split; auto. split.
    - apply collect_perm. unfold jobs_of in P. rewrite (mapM_length _ _ _ E).
      replace (map fst (combine (seq 0 (length cs)) cs)) with (seq 0 (length cs)) in P; auto.
      generalize 0%nat. clear. induction cs; intros n; simpl; auto. f_equal; apply IHcs.
    - split; auto. intros f. destruct (some_or_none (length cs) f) as [(i & I & Wi)|N].
      + rewrite (G1 rs E i f I Wi). destruct (nth_error cs i) as [c|] eqn:EC; [|apply nth_error_None in EC; lia].
        rewrite (F i c f EC Wi). destruct (runs w i c H) as (w2 & E2 & _ & G2). rewrite E2. simpl.
        assert (exists x, pure c = Ok x) as (x & EX); [|eapply G2; eauto].
        clear - E EC. apply mapM_all in E. apply (map_nth_error pure) in EC. rewrite E in EC.
        destruct (nth_error rs i) eqn:ER.
        * rewrite (map_nth_error Ok _ _ ER) in EC. injection EC as EC. eauto.
        * exfalso. assert (nth_error (map (@Ok B) rs) i = None) as X; [|congruence].
          apply nth_error_None. rewrite map_length. now apply nth_error_None.
      + rewrite G, F1; auto.
  Qed.

  (** Serial success means that the workers can also run at the same time. *)
  Lemma pool_exists cs w rs : (forall i, (i < length cs)%nat -> ~ W i model) -> holds w model phase m -> mapM pure cs = Ok rs ->
    exists results w', pool_run worker (jobs_of cs) w results w'.
  Proof.
    intros off H E. destruct (pool_finishes (map worker (jobs_of cs)) w) as (rs' & w' & S).
    destruct (pool_ends _ _ _ _ off H S) as (E' & _). apply mapM_all in E. rewrite E in E'. subst rs'. rewrite map_map in S.
    exists (combine (map fst (jobs_of cs)) rs), w', rs. split; auto.
  Qed.
End Serial.
