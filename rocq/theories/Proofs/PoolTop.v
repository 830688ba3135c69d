(** The number of processes and [sample]. *)
From Coq Require Import String List QArith ZArith Bool Arith Lia Permutation.
From Verif.Base Require Import Py Num XNum.
From Verif.Model Require Import Mech World Metrics Drivers Simulation Sampling Pool.
From Verif.Spec Require Import MetricSpec DriverSpec DriverSamples SimSpec SimSamples SamplingSpec SamplingSamples PoolSamples.
From Verif.Proofs Require Import ProgFacts SamplingFacts SamplingMore SamplingEnd SamplingWhole SamplingTop PoolFacts.
Import ListNotations.
Local Open Scope string_scope.

Lemma processes_some cpus threads : (1 <= cpus)%Z -> (0 <= threads)%Z -> (1 <= processes cpus threads)%Z.
Proof.
  intros A B. unfold processes. destruct (Z.eqb_spec threads 0); [|lia]. destruct (Z.eqb_spec (cpus - 1) 0); lia.
Qed.

Lemma keeps {A} (p : prog A) R W model phase m : within p R W -> ~ W model ->
  forall v a v', holds v model phase m -> exec p v = (Ok a, v') -> holds v' model phase m.
Proof.
  intros I N v a v' (ph & E & P) X. exists ph. split; [|exact P]. pose proof (exec_frame p R W I v model N) as F. rewrite X in F. simpl in F. congruence.
Qed.

Lemma saved_within model phase data output nm nc pc :
  within (saved_samples model phase data output nm nc pc) (fun f => f = model \/ f = data \/ f = output) (fun _ => False).
Proof.
  unfold saved_samples. apply within_bind; [simpl; auto|]. intros ed. apply within_bind; [simpl; auto|]. intros eo.
  destruct (ed && eo); [|simpl; auto]. apply within_bind; [simpl; auto|]. intros o. apply within_bind; [simpl; auto|]. intros d.
  apply within_bind; [simpl; auto|]. intros g. apply within_bind; [simpl; auto|]. intros c.
  destruct (_ && _); [|simpl; auto]. apply within_bind; simpl; auto.
Qed.

Lemma part_splits torn model phase data output nm nc pc jobs v :
  exec (s <~ saved_samples model phase data output nm nc pc ;;
        match s with
        | Some r => pret r
        | None => r <~ jobs ;; save_rows torn data (snd r) ~;; save_nums torn output (fst r) ~;; pret r
        end) v = exec (sample_part torn model phase data output nm nc pc jobs) v.
Proof.
  unfold sample_part, saved_samples. rewrite !exec_bind. destruct (exec (pis_file data) v) as ([ed| |] & v1); auto.
  rewrite !exec_bind. destruct (exec (pis_file output) v1) as ([eo| |] & v2); auto. rewrite exec_bind. reflexivity.
Qed.

Section Sampling.
  Context (torn : xnum -> list xnum) (fuel : nat) (Ph : physics) (floor : option Q)
          (model phase path : string) (C : cases) (m : mech).
  Hypothesis AP : model_apart path C model.

  Notation Pre := (fun v => holds v model phase m).

  Section OnePart.
    Context {A : Type} (n : Z) (data output : string) (nm pc : nat) (worker : nat * A -> prog case_result) (cs : list A)
            (jobs : prog case_result) (Sc : string -> Prop).
    Hypothesis model_off : ~ Sc model.
    Hypothesis jobs_in : within jobs (fun f => f = model) Sc.
    Lemma part_keeps v x v' : model <> data -> model <> output -> holds v model phase m ->
      exec (if_any cs (sample_part torn model phase data output nm (length cs) pc jobs)) v = (Ok x, v') -> holds v' model phase m.
    Proof.
      intros md mo. unfold if_any. destruct cs as [|c cs']; [intros H E; injection E as _ <-; exact H|].
      refine (keeps _ _ _ _ _ _ (part_within torn model phase data output nm _ pc jobs Sc jobs_in) _ v x v'). intuition.
    Qed.
    Hypothesis jobs_like : sim Pre (sampling_jobs n worker cs) jobs.

    Lemma part_sim : sim Pre (part_with n torn model phase data output nm pc worker cs)
      (if_any cs (sample_part torn model phase data output nm (length cs) pc jobs)).
    Proof.
      unfold part_with, if_any. destruct cs as [|c cs'] eqn:EC; [apply sim_prog|]. rewrite <- EC in *.
      eapply sim_same; [intros v; apply part_splits|]. apply sim_then; [apply sim_prog| |].
      - intros [r|]; [apply sim_prog|]. apply sim_then; [exact jobs_like|intros r; apply sim_prog|].
        exact (keeps _ _ _ _ _ _ jobs_in model_off).
      - exact (keeps _ _ _ _ _ _ (saved_within _ _ _ _ _ _ _) (fun x => x)).
    Qed.
  End OnePart.

  Lemma off' f : In f sample_files -> model <> f.
  Proof. intros I ->. apply (proj2 AP). exact I. Qed.
  Ltac in_files := unfold sample_files; simpl; tauto.

  Lemma ign_sim n : (1 <= n)%Z ->
    sim Pre (sampling_jobs n (ign_sample_worker fuel Ph model phase path) (ca_ign C)) (ign_jobs fuel Ph model phase path (ca_ign C)).
  Proof.
    intros N. exact (jobs_sim _ _ model phase m _ (ign_runs fuel Ph model phase path m) (ign_sep path)
      (ign_worker_within fuel Ph model phase path) (fun i f => h5_dec path i f)
      (fun rs => Ok (concat (map fst rs), concat (map snd rs))) n (ca_ign C) N (off_all model path (ca_ign C) (proj1 AP))).
  Qed.
  Lemma psr_sim n : (1 <= n)%Z ->
    sim Pre (sampling_jobs n (psr_sample_worker Ph model phase) (ca_psr C)) (psr_jobs Ph model phase (ca_psr C)).
  Proof.
    intros N. exact (jobs_sim _ _ model phase m _ (psr_runs Ph model phase m) none_sep
      (fun i a => psr_worker_within Ph model phase (i, a)) (fun i f => or_intror (fun X : False => X))
      (fun rs => Ok (concat (map fst rs), concat (map snd rs))) n (ca_psr C) N (fun i _ => none_off model i)).
  Qed.
  Lemma flame_sim n : (1 <= n)%Z ->
    sim Pre (sampling_jobs n (flame_sample_worker Ph floor model phase) (ca_flame C)) (flame_jobs Ph floor model phase (ca_flame C)).
  Proof.
    intros N. exact (jobs_sim _ _ model phase m _ (flame_runs Ph floor model phase m) none_sep
      (fun i a => flame_worker_within Ph floor model phase (i, a)) (fun i f => or_intror (fun X : False => X))
      (fun rs => Ok (concat (map fst rs), concat (map snd rs))) n (ca_flame C) N (fun i _ => none_off model i)).
  Qed.

  Lemma sample_sim cpus threads : (1 <= cpus)%Z -> (0 <= threads)%Z ->
    sim Pre (sample_with cpus threads torn fuel Ph floor model phase path C) (sample torn fuel Ph floor model phase path C).
  Proof.
    intros A B. pose proof (processes_some _ _ A B) as N. unfold sample_with, sample. set (n := processes cpus threads) in *.
    apply sim_then; [|intros i; apply sim_then; [|intros p; apply sim_then; [|intros f; apply sim_prog|]|]|].
    - exact (part_sim n _ _ _ _ _ _ _ _ (proj1 AP) (ign_jobs_within fuel Ph model phase path (ca_ign C)) (ign_sim n N)).
    - exact (part_sim n _ _ _ _ _ _ _ _ (fun x => x) (psr_jobs_within Ph model phase (ca_psr C) (fun _ => False)) (psr_sim n N)).
    - exact (part_sim n _ _ _ _ _ _ _ _ (fun x => x) (flame_jobs_within Ph floor model phase (ca_flame C) (fun _ => False)) (flame_sim n N)).
    - intros v a v' H E. eapply part_keeps with (Sc := fun _ => False); [..|exact H|exact E]; first [apply flame_jobs_within | apply off'; in_files | apply AP | exact (fun x => x) | exact (fun _ => pret (nil, nil))].
    - intros v a v' H E. eapply part_keeps with (Sc := fun _ => False); [..|exact H|exact E]; first [apply psr_jobs_within | apply off'; in_files | apply AP | exact (fun x => x) | exact (fun _ => pret (nil, nil))].
    - intros v a v' H E. eapply part_keeps with (Sc := scratch path (length (ca_ign C))); [..|exact H|exact E]; first [apply ign_jobs_within | apply off'; in_files | apply AP | exact (fun x => x) | exact (fun _ => pret (nil, nil))].
  Qed.

  Lemma any_processes cpus threads w r w' : (1 <= cpus)%Z -> (0 <= threads)%Z -> holds w model phase m ->
    sample_with cpus threads torn fuel Ph floor model phase path C w (Ok r) w' ->
    exists w1, exec (sample torn fuel Ph floor model phase path C) w = (Ok r, w1) /\ same_files w' w1.
  Proof. intros A B H X. exact (sim_ok _ _ _ (sample_sim cpus threads A B) w w r w' H (same_refl w) X). Qed.
  Lemma any_failure cpus threads w e w' : (1 <= cpus)%Z -> (0 <= threads)%Z -> holds w model phase m ->
    sample_with cpus threads torn fuel Ph floor model phase path C w (Raise e) w' ->
    forall r w1, exec (sample torn fuel Ph floor model phase path C) w <> (Ok r, w1).
  Proof. intros A B H X. exact (sim_bad _ _ _ (sample_sim cpus threads A B) w w e w' H (same_refl w) X). Qed.
  Lemma any_success cpus threads w r w1 : (1 <= cpus)%Z -> (0 <= threads)%Z -> holds w model phase m ->
    exec (sample torn fuel Ph floor model phase path C) w = (Ok r, w1) ->
    exists w', sample_with cpus threads torn fuel Ph floor model phase path C w (Ok r) w'.
  Proof. intros A B H X. exact (sim_can _ _ _ (sample_sim cpus threads A B) w w r w1 H (same_refl w) X). Qed.
End Sampling.

(** ** One process *)
Definition exactly {A} (e : ends A) (p : prog A) : Prop := forall w r w', e w r w' <-> exec p w = (r, w').
Lemma exactly_prog {A} (p : prog A) : exactly (of_prog p) p.
Proof. intros w r w'. reflexivity. Qed.
Lemma exactly_then {A B} (e : ends A) p (k : A -> ends B) q : exactly e p -> (forall a, exactly (k a) (q a)) -> exactly (ethen e k) (pbind p q).
Proof.
  intros E K w r w'. rewrite exec_bind. split.
  - intros [a w1 r0 w2 H1 H2|x w1 H1|w1 H1]; apply E in H1; rewrite H1; auto. now apply K.
  - destruct (exec p w) as ([a|x|] & w1) eqn:X; intros Y; apply E in X.
    + eapply et_ok; [exact X|]. now apply K.
    + injection Y as <- <-. now apply et_raise.
    + injection Y as <- <-. now apply et_fuel.
Qed.
Lemma exactly_same {A} (e : ends A) p q : (forall v, exec p v = exec q v) -> exactly e p -> exactly e q.
Proof. intros E X w r w'. rewrite <- E. apply X. Qed.
Lemma one_worker {A B} (worker : nat * A -> prog B) jobs : exactly (run_workers 1 worker jobs) (run_serial worker jobs).
Proof.
  intros w r w'. split; [|intros E; now apply rw_one]. intros [r0 w0 _ E|L|results w0 L _|ps e w0 L _ _]; [exact E|lia|lia|lia].
Qed.
Lemma one_part {A} torn model phase data output nm pc (worker : nat * A -> prog case_result) cs :
  exactly (part_with 1 torn model phase data output nm pc worker cs)
    (if_any cs (sample_part torn model phase data output nm (length cs) pc (rs <~ run_serial worker (jobs_of cs) ;; Ret (collect_samples rs)))).
Proof.
  unfold part_with, if_any. destruct cs as [|c cs'] eqn:EC; [apply exactly_prog|]. rewrite <- EC.
  eapply exactly_same; [intros v; apply part_splits|]. apply exactly_then; [apply exactly_prog|].
  intros [r|]; [apply exactly_prog|]. apply exactly_then; [|intros r; apply exactly_prog].
  apply exactly_then; [apply one_worker|intros rs; apply exactly_prog].
Qed.
Lemma one_process cpus threads torn fuel Ph floor model phase path C : processes cpus threads = 1%Z ->
  exactly (sample_with cpus threads torn fuel Ph floor model phase path C) (sample torn fuel Ph floor model phase path C).
Proof.
  intros E. unfold sample_with, sample. rewrite E.
  apply exactly_then; [apply one_part|intros i; apply exactly_then; [apply one_part|intros p; apply exactly_then; [apply one_part|intros f; apply exactly_prog]]].
Qed.

(** ** Less than one process *)
Lemma no_saved model phase data output nm nc pc w r w' : w_fs w data = None ->
  exec (saved_samples model phase data output nm nc pc) w = (r, w') -> r = Ok None /\ w' = w.
Proof.
  intros E. unfold saved_samples. rewrite exec_bind. cbn [pis_file exec]. rewrite E. cbn [pret exec]. rewrite exec_bind. cbn [pis_file exec pret]. cbn [andb].
  intros X. injection X as <- <-. auto.
Qed.
Lemma no_part {A} n torn model phase data output nm pc (worker : nat * A -> prog case_result) cs w r w' : (n < 1)%Z -> w_fs w data = None ->
  part_with n torn model phase data output nm pc worker cs w r w' ->
  w' = w /\ ((cs = nil /\ r = Ok (nil, nil)) \/ (cs <> nil /\ r = Raise ValueError)).
Proof.
  intros L E. unfold part_with. destruct cs as [|c cs'] eqn:EC.
  - intros X. injection X as <- <-. auto.
  - rewrite <- EC. assert (cs <> nil) as NE by congruence. clear EC.
    assert (forall r0 w0, run_workers n worker (jobs_of cs) w r0 w0 -> r0 = Raise ValueError /\ w0 = w) as RW.
    { intros r0 w0 [? ? Z _|_|? ? Z _|? ? ? Z _ _]; try lia. auto. }
    intros [a w1 r0 w2 H1 H2|x w1 H1|w1 H1]; apply (no_saved _ _ _ _ _ _ _ _ _ _ E) in H1; destruct H1 as (Y & ->); try discriminate Y.
    injection Y as ->. assert (forall r0 w0, sampling_jobs n worker cs w r0 w0 -> r0 = Raise ValueError /\ w0 = w) as SJ.
    { intros r1 w1 [? ? ? ? X _|? ? X|? X]; apply RW in X; destruct X as (X & ->); try discriminate X. injection X as ->. auto. }
    inversion H2 as [? ? ? ? X _|? ? X|? X]; subst; apply SJ in X; destruct X as (X & ->); try discriminate X. injection X as ->. auto.
Qed.
Lemma no_processes cpus threads torn fuel Ph floor model phase path C w r w' :
  (threads < 0)%Z -> fresh w -> sample_with cpus threads torn fuel Ph floor model phase path C w r w' ->
  (ca_ign C <> nil \/ ca_psr C <> nil \/ ca_flame C <> nil -> r = Raise ValueError) /\ w' = w.
Proof.
  intros L F. assert (processes cpus threads < 1)%Z as N. { unfold processes. destruct (Z.eqb_spec threads 0); lia. }
  assert (w_fs w data_ignition = None /\ w_fs w data_psr = None /\ w_fs w data_flame = None) as (F1 & F2 & F3).
  { split; [|split]; apply F; unfold sample_files; simpl; tauto. }
  unfold sample_with. set (n := processes cpus threads) in *. clearbody n.
  intros [a w1 r0 w2 H1 H2|x w1 H1|w1 H1]; apply (no_part _ _ _ _ _ _ _ _ _ _ _ _ _ N F1) in H1; destruct H1 as (-> & [(E1 & X1)|(E1 & X1)]); try discriminate X1;
    [|injection X1 as ->; auto].
  inversion H2 as [a1 w1 r1 w3 H3 H4|x w1 H3|w1 H3]; subst; apply (no_part _ _ _ _ _ _ _ _ _ _ _ _ _ N F2) in H3; destruct H3 as (-> & [(E2 & X2)|(E2 & X2)]); try discriminate X2;
    [|injection X2 as ->; auto].
  inversion H4 as [a2 w1 r2 w3 H5 H6|x w1 H5|w1 H5]; subst; apply (no_part _ _ _ _ _ _ _ _ _ _ _ _ _ N F3) in H5; destruct H5 as (-> & [(E3 & X3)|(E3 & X3)]); try discriminate X3;
    [|injection X3 as ->; auto].
  unfold of_prog in H6. injection H6 as <- <-. split; [intros [Y|[Y|Y]]; contradiction|reflexivity].
Qed.

(** ** Metrics of a candidate *)
Lemma metrics_sim cpus threads model phase m (cs : list cond) : (1 <= cpus)%Z -> (0 <= threads)%Z ->
  sim (fun v => holds v model phase m) (metrics_with cpus threads model phase cs)
    (rs <~ run_serial (metric_worker model phase) (jobs_of cs) ;; Ret (collect rs)).
Proof.
  intros A B.
  assert (forall rs : list (nat * list xnum), bind (collect rs) (fun x => Ok x) = collect rs) as G by (intros rs; now destruct (collect rs)).
  pose proof (jobs_sim _ _ model phase m _ (metric_runs model phase m) none_sep
      (fun i a => metric_worker_within model phase (i, a)) (fun i f => or_intror (fun X : False => X))
      (fun x => Ok x) (processes cpus threads) cs (processes_some _ _ A B) (fun i _ => none_off model i)) as S.
  unfold gather in S.
  assert (forall w r w', metrics_with cpus threads model phase cs w r w' <->
    ethen (run_workers (processes cpus threads) (metric_worker model phase) (jobs_of cs)) (fun rs => of_prog (Ret (bind (collect rs) (fun x => Ok x)))) w r w') as EQ.
  { intros w r w'. unfold metrics_with. split; (intros [a w1 r0 w2 H1 H2|x w1 H1|w1 H1]; [|now apply et_raise|now apply et_fuel]);
      (eapply et_ok; [exact H1|]); unfold of_prog in *; [now rewrite G|now rewrite G in H2]. }
  assert (forall v, exec (rs <~ run_serial (metric_worker model phase) (jobs_of cs) ;; Ret (bind (collect rs) (fun x => Ok x))) v
    = exec (rs <~ run_serial (metric_worker model phase) (jobs_of cs) ;; Ret (collect rs)) v) as EV.
  { intros v. rewrite !exec_bind. destruct (exec (run_serial (metric_worker model phase) (jobs_of cs)) v) as ([rs| |] & v1); auto. now rewrite G. }
  apply (sim_same _ _ _ _ EV) in S. destruct S as [S1 S2 S3]. constructor.
  - intros w v a w' H E X. apply EQ in X. exact (S1 _ _ _ _ H E X).
  - intros w v a w' H E X. apply EQ in X. exact (S2 _ _ _ _ H E X).
  - intros w v a w' H E X. destruct (S3 _ _ _ _ H E X) as (w1 & Y). exists w1. now apply EQ.
Qed.

Lemma serial_metrics model phase m (cs : list cond) v : holds v model phase m ->
  exists v', exec (rs <~ run_serial (metric_worker model phase) (jobs_of cs) ;; Ret (collect rs)) v = (mapM (fun c : cond => c m) cs, v') /\ same_files v' v.
Proof.
  intros H. destruct (serial_collect _ _ model phase m _ (metric_runs model phase m) none_sep cs v (fun i _ => none_off model i) H) as (v' & E & F & _).
  exists v'. split; [exact E|]. intros f. apply F. intros i _ [].
Qed.

Lemma metrics_any cpus threads model phase m (cs : list cond) w : (1 <= cpus)%Z -> (0 <= threads)%Z -> holds w model phase m ->
  (forall l, mapM (fun c : cond => c m) cs = Ok l <-> exists w', metrics_with cpus threads model phase cs w (Ok l) w' /\ same_files w' w) /\
  (forall e w', metrics_with cpus threads model phase cs w (Raise e) w' -> forall l, mapM (fun c : cond => c m) cs <> Ok l).
Proof.
  intros A B H. destruct (serial_metrics model phase m cs w H) as (v & E & F). pose proof (metrics_sim cpus threads model phase m cs A B) as S.
  split.
  - intros l. split.
    + intros X. rewrite X in E. destruct (sim_can _ _ _ S w w l v H (same_refl w) E) as (w' & Y). exists w'. split; [exact Y|].
      destruct (sim_ok _ _ _ S w w l w' H (same_refl w) Y) as (v1 & E1 & G). rewrite E in E1. injection E1 as <-. eapply same_trans; eauto.
    + intros (w' & Y & _). destruct (sim_ok _ _ _ S w w l w' H (same_refl w) Y) as (v1 & E1 & G). congruence.
  - intros e w' Y l X. rewrite X in E. exact (sim_bad _ _ _ S w w e w' H (same_refl w) Y _ _ E).
Qed.
Lemma metrics_none cpus threads model phase (cs : list cond) w r w' : (threads < 0)%Z ->
  metrics_with cpus threads model phase cs w r w' -> r = Raise ValueError /\ w' = w.
Proof.
  intros L. assert (processes cpus threads < 1)%Z as N. { unfold processes. destruct (Z.eqb_spec threads 0); lia. }
  unfold metrics_with. generalize dependent (processes cpus threads). intros n N.
  assert (forall r0 w0, run_workers n (metric_worker model phase) (jobs_of cs) w r0 w0 -> r0 = Raise ValueError /\ w0 = w) as RW.
  { intros r0 w0 [? ? Z _|_|? ? Z _|? ? ? Z _ _]; try lia. auto. }
  intros [a w1 r0 w2 H1 H2|x w1 H1|w1 H1]; apply RW in H1; destruct H1 as (Y & ->); try discriminate Y. injection Y as ->. auto.
Qed.

(** ** What 0 and 1 mean *)
Lemma zero_like cpus torn fuel Ph floor model phase path C w r w' : (1 <= cpus)%Z ->
  sample_with cpus 0 torn fuel Ph floor model phase path C w r w' <->
  sample_with cpus (Z.max 1 (cpus - 1)) torn fuel Ph floor model phase path C w r w'.
Proof.
  intros N. unfold sample_with. replace (processes cpus (Z.max 1 (cpus - 1))) with (processes cpus 0); [reflexivity|].
  unfold processes. cbn [Z.eqb]. destruct (Z.eqb_spec (cpus - 1) 0); destruct (Z.eqb_spec (Z.max 1 (cpus - 1)) 0); lia.
Qed.
Lemma one_like cpus threads torn fuel Ph floor model phase path C w r w' :
  threads = 1%Z \/ (threads = 0%Z /\ (cpus = 1%Z \/ cpus = 2%Z)) ->
  sample_with cpus threads torn fuel Ph floor model phase path C w r w' <->
  exec (sample torn fuel Ph floor model phase path C) w = (r, w').
Proof. intros E. apply one_process. destruct E as [->|(-> & [->| ->])]; reflexivity. Qed.

(** ** Two failures *)
Lemma other_failure :
  exists threads Ph C w e e' w1 w2,
    sample_with 4 threads whole 50 Ph None "mech.yaml" "" "out" C w (Raise e) w1 /\
    exec (sample whole 50 Ph None "mech.yaml" "" "out" C) w = (Raise e', w2) /\ e <> e'.
Proof.
  exists 2%Z, psr_fails, two_psr, toy_world, RuntimeError, CanteraError, toy_world, toy_world. split; [|split; [vm_compute; reflexivity|discriminate]].
  eapply et_ok; [reflexivity|]. apply et_raise. eapply et_ok; [vm_compute; reflexivity|]. apply et_raise. apply et_raise.
  pose (ps := map (psr_sample_worker psr_fails "mech.yaml" "") (jobs_of (ca_psr two_psr))).
  apply rw_some with (ps := [nth 0 ps (Ret NoFuel); Ret (Raise RuntimeError)]); [reflexivity| |right; left; reflexivity].
  eapply steps_more; [exact (step_get [nth 0 ps (Ret NoFuel)] [] "mech.yaml" _ toy_world)|]. vm_compute. apply steps_refl.
Qed.
