(** The drivers with exact thresholds: when they return, and what. *)
From Coq Require Import String List QArith Bool Arith Lia Lqa.
From Verif.Base Require Import Py Num XNum Paths.
From Verif.Model Require Import Mech Matrices Graph World Metrics Drivers.
From Verif.Spec Require Import TrimSpec GraphSpec MetricSpec DriverSpec.
From Verif.Proofs Require Import PyFacts NumFacts TrimFacts MatrixFacts DfsFacts GraphMore ImportanceFacts
  MetricFacts StepFacts StepInst LoopFacts LoopForward RunFacts ReduceFacts.
Import ListNotations.
Local Open Scope string_scope.

Lemma start_pos j : (0 < start_at j)%Q.
Proof.
  induction j as [|j IH]; simpl; [reflexivity|]. fold (start_at j). apply Qlt_shift_div_l; lra.
Qed.

Lemma climb_exact j k : (A_val exactA (climb_at exactA j k) == times (S k) (start_at j))%Q.
Proof.
  induction k as [|k IH]; [unfold climb_at; simpl; rewrite times_1; reflexivity|].
  rewrite times_S, <- IH. reflexivity.
Qed.

Lemma climb_up j k : (A_val exactA (climb_at exactA j k) <= A_val exactA (climb_at exactA j (S k)))%Q.
Proof. rewrite !climb_exact, (times_S (S k)). pose proof (start_pos j). lra. Qed.

Section Driver.
  Variables (me : method) (J : job) (smp : sampler) (w : world) (sol : mech).
  Variables (sampled : list xnum) (rops : list (list Q)) (w1 : world) (limit : xnum).
  Hypothesis ST : started J smp w sol sampled rops w1.
  Hypothesis FA : fair J sol sampled limit.

  Notation K := (kept me J sol rops).
  Notation err := (error_of (j_conds J) sampled).
  Notation pass t := (passes J sol sampled limit (K t)).
  Notation exceed t := (exceeds J sol sampled limit (K t)).

  Lemma kpass_eq t t' : (t == t')%Q -> pass t -> pass t'.
  Proof.
    intros E (m & e & C & H). exists m, e. split; auto. eapply cut_to_ext; [|exact C].
    intros s _. split; apply kept_antitone; lra.
  Qed.
  Lemma kexceed_eq t t' : (t == t')%Q -> exceed t -> exceed t'.
  Proof.
    intros E (m & e & C & H). exists m, e. split; auto. eapply cut_to_ext; [|exact C].
    intros s _. split; apply kept_antitone; lra.
  Qed.

  Lemma driver_scan_any A floor fuel dfuel r w' :
    (forall j k, (A_val A (climb_at A j k) <= A_val A (climb_at A j (S k)))%Q) ->
    run me A floor fuel dfuel J smp limit w = (Ok r, w') ->
    exists j n, (forall i, (i < j)%nat -> exceed (A_val A (sd A i)) /\ floor (sd A (S i)) = false) /\ (1 <= n)%nat /\
      (forall k, (k < n)%nat -> pass (A_val A (climb_at A j k))) /\
      exceed (A_val A (climb_at A j n)) /\
      cut_to J sol (K (A_val A (A_back A (climb_at A j (S n)) (sd A j)))) (r_model r).
  Proof.
    intros UP E. destruct (driver_ok _ _ _ _ _ _ _ _ _ ST _ _ _ _ _ _ E) as (red & short & lb & w2 & S1 & S2 & R & _).
    destruct FA as [BL NN DE].
    destruct (run_scan_any A J sol sampled red K short lb limit S1 S2
      (fun t t' s => kept_antitone me J sol rops t t' s) (st_wf _ _ _ _ _ _ _ ST) (st_apart _ _ _ _ _ _ _ ST)
      BL (sol_nonempty _ _ _ _ _ _ _ ST) DE NN UP floor fuel (by_last me) w1 r w2 (st_file1 _ _ _ _ _ _ _ ST) R)
      as (j & n & H1 & H2 & H3 & H4 & H5 & _).
    exists j, n. auto.
  Qed.

  Lemma driver_forward_any A floor fuel dfuel j n mm e :
    (forall j k, (A_val A (climb_at A j k) <= A_val A (climb_at A j (S k)))%Q) ->
    search_ends me dfuel J sol rops -> limbo_ok me J rops ->
    (forall i, (i < j)%nat -> exceed (A_val A (sd A i)) /\ floor (sd A (S i)) = false) ->
    (1 <= n)%nat -> (forall k, (k < n)%nat -> pass (A_val A (climb_at A j k))) ->
    exceed (A_val A (climb_at A j n)) ->
    cut_to J sol (K (A_val A (A_back A (climb_at A j (S n)) (sd A j)))) mm -> err mm = Ok e ->
    (j + n + 1 <= fuel)%nat ->
    exists r w', run me A floor fuel dfuel J smp limit w = (Ok r, w') /\ r_model r = mm /\ r_error r = e.
  Proof.
    intros UP SE LO Ex N P X C E Lf.
    destruct (started_spec me J smp w sol sampled rops w1 ST dfuel SE) as (red & short & lb & S1 & S2 & S3 & S4 & S5 & S6 & O).
    destruct (S3 LO) as [l0 Hl]. destruct FA as [BL NN DE].
    destruct (run_forward A J sol sampled red K short lb limit S1 S2
      (fun t t' s => kept_antitone me J sol rops t t' s) (st_wf _ _ _ _ _ _ _ ST) (st_apart _ _ _ _ _ _ _ ST)
      BL (sol_nonempty _ _ _ _ _ _ _ ST) DE NN UP l0 Hl floor (by_last me) j n mm e fuel w1 Ex N P X C E Lf
      (st_file1 _ _ _ _ _ _ _ ST)) as (r & w2 & R & M1 & M2).
    specialize (O A floor fuel limit). rewrite R in O. destruct O as (w' & O & _). eauto 6.
  Qed.

  Lemma driver_nan_any A floor fuel dfuel j n mm e :
    (forall j k, (A_val A (climb_at A j k) <= A_val A (climb_at A j (S k)))%Q) ->
    search_ends me dfuel J sol rops -> limbo_ok me J rops ->
    (forall i, (i < j)%nat -> exceed (A_val A (sd A i)) /\ floor (sd A (S i)) = false) ->
    (forall k, (k < n)%nat -> pass (A_val A (climb_at A j k))) ->
    cut_to J sol (K (A_val A (climb_at A j n))) mm -> err mm = Ok e ->
    xle e limit = false -> xgt e limit = false -> (j + n + 1 <= fuel)%nat ->
    exists w', run me A floor fuel dfuel J smp limit w = (Raise AttributeError, w') /\
      w_fs w' (out_file J (n_species mm)) = None.
  Proof.
    intros UP SE LO Ex P C E X1 X2 Lf.
    destruct (started_spec me J smp w sol sampled rops w1 ST dfuel SE) as (red & short & lb & S1 & S2 & S3 & S4 & S5 & S6 & O).
    destruct (S3 LO) as [l0 Hl]. destruct FA as [BL NN DE].
    destruct (run_nan A J sol sampled red K short lb limit S1 S2
      (fun t t' s => kept_antitone me J sol rops t t' s) (st_wf _ _ _ _ _ _ _ ST) (st_apart _ _ _ _ _ _ _ ST)
      BL (sol_nonempty _ _ _ _ _ _ _ ST) DE NN UP l0 Hl floor (by_last me) j n mm e fuel w1 Ex P C E X1 X2 Lf
      (st_file1 _ _ _ _ _ _ _ ST)) as (w' & R & Z).
    specialize (O A floor fuel limit). rewrite R in O. simpl in O. exists w'. auto.
  Qed.

  Lemma floor_open i : (S i < starts me)%nat -> floor_of me (start_at (S i)) = false.
  Proof.
    unfold starts, floor_of. destruct me; intros H; destruct i as [|[|[|i]]]; try lia; vm_compute; reflexivity.
  Qed.

  Lemma driver_returns fuel dfuel j n :
    rops <> nil -> search_ends me dfuel J sol rops ->
    (j < starts me)%nat -> scanned J sol sampled limit K j n -> (j + n + 1 <= fuel)%nat ->
    exists r w', run me exactA (floor_of me) fuel dfuel J smp limit w = (Ok r, w') /\
      cut_to J sol (K (times n (start_at j))) (r_model r).
  Proof.
    intros NE SE Lj (S1 & S2 & S3 & S4) Lf.
    destruct (S3 n) as (mm & e & C & E & L); [lia|].
    destruct (driver_forward_any exactA (floor_of me) fuel dfuel j n mm e climb_up SE) as (r & w' & R & M & _); auto.
    - unfold limbo_ok. destruct me; auto.
    - intros i Hi. split; [apply S1; auto|]. apply (floor_open i). lia.
    - intros k Hk. eapply kpass_eq; [symmetry; apply climb_exact|]. apply S3. lia.
    - eapply kexceed_eq; [symmetry; apply climb_exact|]. exact S4.
    - eapply cut_to_ext; [|exact C]. intros s _.
      assert (A_val exactA (A_back exactA (climb_at exactA j (S n)) (sd exactA j)) == times n (start_at j))%Q as Q.
      { change (A_val exactA (climb_at exactA j (S n)) - 2 * start_at j == times n (start_at j))%Q.
        rewrite climb_exact, (times_S (S n)), (times_S n). ring. }
      split; apply kept_antitone; lra.
    - exists r, w'. split; auto. now rewrite M.
  Qed.

  Lemma driver_nan fuel dfuel j n mm e :
    rops <> nil -> search_ends me dfuel J sol rops -> (j < starts me)%nat ->
    (forall i, (i < j)%nat -> exceed (start_at i)) ->
    (forall i, (1 <= i <= n)%nat -> pass (times i (start_at j))) ->
    cut_to J sol (K (times (S n) (start_at j))) mm -> err mm = Ok e ->
    xle e limit = false -> xgt e limit = false -> (j + n + 1 <= fuel)%nat ->
    exists w', run me exactA (floor_of me) fuel dfuel J smp limit w = (Raise AttributeError, w') /\
      w_fs w' (out_file J (n_species mm)) = None.
  Proof.
    intros NE SE Lj S1 S3 C E X1 X2 Lf.
    apply (driver_nan_any exactA (floor_of me) fuel dfuel j n mm e climb_up SE); auto.
    - unfold limbo_ok. destruct me; auto.
    - intros i Hi. split; [apply S1; auto|]. apply (floor_open i). lia.
    - intros k Hk. eapply kpass_eq; [symmetry; apply climb_exact|]. apply S3. lia.
    - eapply cut_to_ext; [|exact C]. intros s _.
      pose proof (climb_exact j n) as Q. split; apply kept_antitone; lra.
  Qed.

  Lemma cut_has Kp m s : cut_to J sol Kp m -> In s (species_names sol) -> Kp s -> In s (species_names m).
  Proof.
    intros (rm & R & C) Hs Ks. apply (cut_names J sol rm m C). split; auto. rewrite (R s Hs). tauto.
  Qed.

  Lemma driver_keeps fuel dfuel r w' : rops <> nil ->
    run me exactA (floor_of me) fuel dfuel J smp limit w = (Ok r, w') ->
    incl (j_targets J) (species_names (r_model r)) /\
    (forall s, In s (j_safe J) -> In s (species_names sol) -> In s (species_names (r_model r))).
  Proof.
    intros NE E. destruct (driver_scan _ _ _ _ _ _ _ _ _ ST FA _ _ _ _ E) as (j & n & (S1 & S2 & S3 & S4) & C).
    pose proof (st_wf _ _ _ _ _ _ _ ST) as WF. pose proof (st_job _ _ _ _ _ _ _ ST) as JO. split.
    - intros s Hs. apply (cut_has _ _ _ C); [now apply (proj2 JO)|]. apply target_kept; auto.
      intros Em. destruct (Qlt_le_dec 1 (times n (start_at j))) as [G|]; auto. exfalso.
      destruct (S3 n) as (m1 & e1 & C1 & E1 & L1); [lia|].
      destruct S4 as (m2 & e2 & C2 & E2 & G2). rewrite Em in *.
      assert (1 < times (S n) (start_at j))%Q as G'.
      { rewrite times_S. pose proof (start_pos j). lra. }
      assert (m1 = m2) as ->.
      { eapply cut_to_unique; [exact WF| |exact C2]. eapply cut_to_ext; [|exact C1]. intros x _.
        rewrite (high_drgep J sol rops _ x G), (high_drgep J sol rops _ x G'). reflexivity. }
      rewrite E1 in E2. injection E2 as <-. apply xle_gt in L1. congruence.
    - intros s Hs Hn. apply (cut_has _ _ _ C); auto. now left.
  Qed.

  Lemma driver_terminates_core :
    rops <> nil -> (forall m, err m <> NoFuel) ->
    (exceeds J sol sampled limit (core me J) \/ (forall s, In s (species_names sol) -> ~ core me J s)) ->
    exists N, forall fuel dfuel, (N <= fuel)%nat -> (N <= dfuel)%nat ->
      fst (run me exactA (floor_of me) fuel dfuel J smp limit w) <> NoFuel.
  Proof.
    intros NE NF HI.
    assert (forall t s, (3 + 2 * inject_Z (Z.of_nat (n_species sol)) <= t)%Q -> (K t s <-> core me J s)) as HK.
    { intros t s Ht. assert (0 <= inject_Z (Z.of_nat (n_species sol)))%Q as Z0.
      { change 0%Q with (inject_Z 0). rewrite <- Zle_Qle. lia. }
      destruct (method_dec me DRGEP) as [->|N].
      - rewrite high_drgep by lra. unfold core. intuition congruence.
      - apply high_graph; auto; [lra|]. apply (proj2 (st_job _ _ _ _ _ _ _ ST)). }
    apply (driver_terminates me J smp w sol sampled rops w1 limit ST FA
             (3 + 2 * inject_Z (Z.of_nat (n_species sol)))%Q); auto.
    intros t Ht. destruct HI as [(m & e & C & E & G)|HI].
    - left. exists m, e. split; auto. eapply cut_to_ext; [|exact C]. intros s _. now rewrite HK.
    - right. intros s Hs. rewrite HK; auto.
  Qed.

  Lemma driver_forever fuel dfuel :
    rops <> nil -> search_ends me dfuel J sol rops ->
    (forall n, (1 <= n)%nat -> pass (times n (1 # 100))) ->
    fst (run me exactA (floor_of me) fuel dfuel J smp limit w) = NoFuel.
  Proof.
    intros NE SE P. apply (driver_never_ends me J smp w sol sampled rops w1 limit ST FA); auto.
    - unfold limbo_ok. destruct me; auto.
    - intros n. eapply kpass_eq; [symmetry; exact (climb_exact 0 n)|]. apply P. lia.
  Qed.

  Lemma driver_metrics fuel dfuel r w' l ts : limit = Fin l -> (l < 100)%Q ->
    exact_errors (j_conds J) -> (forall o, In o sampled -> positive o) ->
    run me exactA (floor_of me) fuel dfuel J smp limit w = (Ok r, w') ->
    metrics_of (j_conds J) (r_model r) = Ok ts -> length sampled = length ts ->
    forall o t, In (o, t) (combine sampled ts) -> usable t /\ within l o t.
  Proof.
    intros El L1 XE Po E M Len.
    destruct (driver_file me J smp w sol sampled rops w1 limit ST exactA _ _ _ _ _ E) as (_ & _ & _ & Er & _).
    pose proof (driver_within me J smp w sol sampled rops w1 limit ST FA _ _ _ _ E) as Wi.
    unfold error_of in Er. rewrite M, XE in Er. simpl in Er. subst limit.
    eapply error_le_within; eauto.
  Qed.

  Lemma driver_limbo A floor fuel dfuel r w' : run me A floor fuel dfuel J smp limit w = (Ok r, w') ->
    limbo_spec me J sol rops (r_limbo r) /\
    (me <> DRGEP -> w_shared w' = w_shared w1) /\
    (me = DRGEP -> exists l, w_shared w' = (w_shared w1 ++ l)%list /\ drgep_limbo J sol rops (r_model r) l).
  Proof.
    intros E. destruct (driver_ok _ _ _ _ _ _ _ _ _ ST _ _ _ _ _ _ E) as (red & short & lb & w2 & _ & _ & _ & _ & H).
    exact H.
  Qed.
End Driver.

(** A limit that 0 does not meet: negative or NaN. *)
Lemma driver_bad_limit me A floor fuel dfuel J smp w sol sampled rops w1 limit :
  started J smp w sol sampled rops w1 -> search_ends me dfuel J sol rops -> xle (Fin 0) limit = false ->
  (me <> DRG \/ xgt (Fin 0) limit = false ->
     run me A floor fuel dfuel J smp limit w = (Raise UnboundLocalError, w1)) /\
  (me = DRG -> xgt (Fin 0) limit = true -> forall m e,
     cut_to J sol (kept DRG J sol rops (A_val A (A_back A (A_start A) (A_start A)))) m ->
     error_of (j_conds J) sampled m = Ok e ->
     exists r w', run me A floor fuel dfuel J smp limit w = (Ok r, w') /\ r_model r = m /\ r_error r = e).
Proof.
  intros ST SE X.
  destruct (started_spec me J smp w sol sampled rops w1 ST dfuel SE) as (red & short & lb & S1 & S2 & S3 & S4 & S5 & S6 & O).
  specialize (O A floor fuel limit).
  assert (thr_run A fuel J sol red limit floor (by_last me) w1 =
          thr_finish A (j_path J) red limit (by_last me) (thr_init A sol (j_file J)) w1) as E.
  { unfold thr_run, mbind. destruct fuel; cbn [thr_loop]; unfold thr_init at 1; cbn [l_err]; rewrite X; reflexivity. }
  rewrite E in O. clear E. split.
  - intros D. assert (thr_finish A (j_path J) red limit (by_last me) (thr_init A sol (j_file J)) w1 =
                      (Raise UnboundLocalError, w1)) as E.
    { unfold thr_finish. destruct me; cbn [by_last]; try reflexivity.
      destruct D as [D|D]; [contradiction|]. unfold thr_init. cbn [l_err]. rewrite D. reflexivity. }
    rewrite E in O. exact O.
  - intros -> G m e C Er. cbn [by_last] in O. unfold thr_finish, thr_init in O.
    cbn [l_err l_thr l_inc] in O. rewrite G in O. destruct (S3 I) as [l0 Hl].
    destruct (fresh_forward J sol sampled red (kept DRG J sol rops) short lb S1 (st_wf _ _ _ _ _ _ _ ST)
      (st_apart _ _ _ _ _ _ _ ST) l0 Hl _ w1 m e (st_file1 _ _ _ _ _ _ _ ST) C Er) as (r & w2 & R & _ & M1 & M2).
    rewrite R in O. destruct O as (w' & O & _). eauto 6.
Qed.


(** Simulations that always give an acceptable error. *)
Lemma always_passes me J sol rops sampled limit t :
  wf_mech sol -> job_ok J sol -> rops <> nil -> 
  (forall m, exists e, error_of (j_conds J) sampled m = Ok e /\ xle e limit = true) ->
  (exists s, In s (species_names sol) /\ core me J s) ->
  passes J sol sampled limit (kept me J sol rops t).
Proof.
  intros WF JO NE H (s & Hs & Cs).
  destruct (drgep_search_total (species_names sol) (j_targets J) (map (kin_of sol) rops)) as (imp & N & G & _).
  - apply (proj1 WF).
  - apply (proj2 JO).
  - intros Kk Hk. apply in_map_iff in Hk. destruct Hk as (rop & <- & _). simpl.
    unfold species_names. now rewrite map_length.
  - destruct (reduce_is_step me N J sol rops sampled WF (proj2 JO)) as (short & lb & S1 & _).
    { exists imp. intros _. rewrite map_map in G. exact (G N (le_n _)). }
    destruct (S1 t) as (rm & R & _).
    destruct (trim_mech sol rm ("reduced_" ++ j_file J) (j_phase J)) as [m|e|] eqn:E.
    + destruct (H m) as (e & He & L). exists m, e. split; auto. exists rm. split; auto.
      intros x Hx. rewrite <- (R x Hx). destruct (in_dec string_dec x rm); tauto.
    + exfalso. unfold trim_mech in E. destruct (trim_species sol rm) as [|y l] eqn:Es; [|discriminate].
      assert (~ In s rm) as Ns.
      { apply (R s Hs). destruct Cs as [Cs|[M1 Cs]]; [now left|]. apply target_kept; auto. intros ->. contradiction. }
      unfold species_names in Hs. apply in_map_iff in Hs. destruct Hs as (x & <- & Hx).
      assert (In x (trim_species sol rm)) as X by (apply trim_species_in; auto). rewrite Es in X. destruct X.
    + exfalso. unfold trim_mech in E. destruct (trim_species sol rm); discriminate.
Qed.
