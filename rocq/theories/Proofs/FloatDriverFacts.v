(** The drivers with binary64 thresholds. *)
From Coq Require Import String List ZArith QArith Qabs Bool Arith Lia Lqa.
From Verif.Base Require Import Py Num XNum Paths B64.
From Verif.Model Require Import Mech Matrices Graph World Metrics Drivers FloatDrivers.
From Verif.Spec Require Import TrimSpec Samples GraphSpec DriverSpec DriverSamples FloatSpec.
From Verif.Proofs Require Import PyFacts NumFacts TrimFacts DfsFacts MatrixFacts ImportanceFacts GraphMore StepFacts StepInst
     LoopFacts RunFacts ReduceFacts LoopForward DriverFacts SampleFacts DriverSampleFacts FloatFacts.
Import ListNotations.
Local Open Scope string_scope.

Lemma sd_f j : sd floatA j = start_f j.
Proof. reflexivity. Qed.
Lemma climb_at_f j k : climb_at floatA j k = climb_f j k.
Proof. reflexivity. Qed.

Lemma starts_attempts me : attempts floatA (floor_f me) (A_start floatA) (map start_f (seq 0 (starts_f me))).
Proof. destruct me; vm_compute; repeat split. Qed.

(** No coefficient between two thresholds: the same species are kept. *)
Lemma kept_between me J sol rops a b : (a <= b)%Q ->
  (forall v, coefficient me J sol rops v -> (a <= v)%Q -> (b <= v)%Q) ->
  forall s, kept me J sol rops a s <-> kept me J sol rops b s.
Proof.
  intros L H s. split; [|apply kept_antitone; auto]. intros [S|Kp]; [now left|]. right.
  assert (forall Mx tgt x, In Mx (matrices me sol rops) -> me <> DRGEP ->
    reach (species_names sol) Mx a tgt x -> reach (species_names sol) Mx b tgt x) as G.
  { intros Mx tgt x HM NE R. induction R as [|y z v R IH X Nz Le]; [now constructor|].
    econstructor; eauto. apply H; auto. destruct X as (i & j & _ & _ & Ev).
    destruct me; try contradiction; exists Mx, i, j; auto. }
  destruct me; simpl in Kp |- *.
  - destruct Kp as (Mx & tgt & H1 & H2 & H3). exists Mx, tgt. split; auto. split; auto. apply G; auto. discriminate.
  - destruct Kp as (Mx & tgt & H1 & H2 & H3). exists Mx, tgt. split; auto. split; auto. apply G; auto. discriminate.
  - destruct Kp as (m & I & Lm). exists m. split; auto. apply H; auto. exists s. exact I.
Qed.

Lemma close_same me J sol rops t d : ~ close_coefficient me J sol rops t ->
  (t - (2 # 1) ^ (-49) * t <= d <= t + (2 # 1) ^ (-49) * t)%Q ->
  forall s, kept me J sol rops d s <-> kept me J sol rops t s.
Proof.
  intros NC D s. destruct (Qlt_le_dec d t) as [L|L].
  - apply kept_between; [lra|]. intros v Cv Lv. destruct (Qlt_le_dec v t); auto. exfalso.
    apply NC. exists v. split; auto. apply Qabs_Qle_condition. split; lra.
  - symmetry. apply kept_between; auto. intros v Cv Lv. destruct (Qlt_le_dec v d); auto. exfalso.
    apply NC. exists v. split; auto. apply Qabs_Qle_condition. split; lra.
Qed.

Section Driver.
  Variables (me : method) (J : job) (smp : sampler) (w : world) (sol : mech).
  Variables (sampled : list xnum) (rops : list (list Q)) (w1 : world) (limit : xnum).
  Hypothesis ST : started J smp w sol sampled rops w1.
  Hypothesis FA : fair J sol sampled limit.

  Notation K := (kept me J sol rops).
  Notation pass t := (passes J sol sampled limit (K t)).
  Notation exceed t := (exceeds J sol sampled limit (K t)).
  Notation err := (error_of (j_conds J) sampled).

  Lemma float_scan fuel dfuel r w' : run me floatA (floor_f me) fuel dfuel J smp limit w = (Ok r, w') ->
    exists j n t, (j < starts_f me)%nat /\ (forall i, (i < j)%nat -> exceed (start_v i)) /\
      (forall k, (k <= n)%nat -> pass (climb_v j k)) /\ exceed (climb_v j (S n)) /\
      (climb_v j n - (2 # 1) ^ (-49) * climb_v j n <= t <= climb_v j n + (2 # 1) ^ (-49) * climb_v j n)%Q /\
      cut_to J sol (K t) (r_model r) /\ err (r_model r) = Ok (r_error r).
  Proof.
    intros E. destruct (driver_scan_any me J smp w sol sampled rops w1 limit ST FA floatA _ _ _ _ _ float_up E)
      as (j & n & H1 & H2 & H3 & H4 & H5).
    destruct n as [|n]; [lia|]. exists j, n. eexists.
    split; [destruct (le_lt_dec (starts_f me) j) as [G|]; auto; exfalso|split; [intros i Hi; apply H1; auto|]].
    { assert (exists i, (S i = starts_f me)%nat) as [i Ei] by (destruct me; simpl; eauto).
      destruct (H1 i) as [_ Fl]; [lia|]. rewrite Ei in Fl. destruct me; vm_compute in Fl; discriminate. } split; [intros k Hk; apply H3; lia|].
    split; [exact H4|]. split; [exact (back_rel j n)|]. split; [exact H5|].
    eapply (driver_file _ _ _ _ _ _ _ _ _ ST floatA); eauto.
  Qed.

  Lemma float_within fuel dfuel r w' :
    run me floatA (floor_f me) fuel dfuel J smp limit w = (Ok r, w') ->
    exists j n, (j < starts_f me)%nat /\ (forall i, (i < j)%nat -> exceed (start_v i)) /\
      (forall k, (k <= n)%nat -> pass (climb_v j k)) /\ exceed (climb_v j (S n)) /\
      (~ close_coefficient me J sol rops (climb_v j n) ->
       xle (r_error r) limit = true /\ cut_to J sol (K (climb_v j n)) (r_model r)).
  Proof.
    intros E. destruct (float_scan _ _ _ _ E) as (j & n & t & Hj & H1 & H2 & H3 & H4 & H5 & H6).
    exists j, n. split; auto. split; auto. split; auto. split; auto. intros NC.
    assert (cut_to J sol (K (climb_v j n)) (r_model r)) as C.
    { eapply cut_to_ext; [|exact H5]. intros s _. now apply close_same. }
    split; auto. destruct (H2 n (le_n _)) as (m & e & Cm & Em & L).
    rewrite (cut_to_unique _ _ _ _ _ (st_wf _ _ _ _ _ _ _ ST) Cm C), H6 in Em. injection Em as <-. auto.
  Qed.

  Lemma float_exit fuel dfuel :
    (forall m, err m <> Raise SystemExit) -> rops <> nil -> search_ends me dfuel J sol rops ->
    (starts_f me <= fuel)%nat ->
    fst (run me floatA (floor_f me) fuel dfuel J smp limit w) = Raise SystemExit <->
    forall i, (i < starts_f me)%nat -> exceed (start_v i).
  Proof.
    intros NX NE SE Lf.
    rewrite (driver_exit_any me J smp w sol sampled rops w1 limit ST FA floatA (floor_f me) fuel dfuel
               (map start_f (seq 0 (starts_f me))) NX SE).
    - rewrite Forall_map, Forall_forall. split; intros H i Hi.
      + apply (H i). apply in_seq. lia.
      + apply (H i). apply in_seq in Hi. lia.
    - unfold limbo_ok. destruct me; auto.
    - apply starts_attempts.
    - now rewrite map_length, seq_length.
  Qed.

  Lemma float_ends : rops <> nil -> (forall m, err m <> NoFuel) ->
    (inject_Z (Z.of_nat (n_species sol)) <= (2 # 1) ^ 28)%Q ->
    (exceeds J sol sampled limit (core me J) \/ (forall s, In s (species_names sol) -> ~ core me J s)) ->
    exists N, forall fuel dfuel, (N <= fuel)%nat -> (N <= dfuel)%nat ->
      fst (run me floatA (floor_f me) fuel dfuel J smp limit w) <> NoFuel.
  Proof.
    intros NE NF SZ HI. destruct FA as [BL NN DE]. destruct ST as [W1 W2 W3 W4 W5 W6] eqn:EST.
    set (T := (3 + 2 * inject_Z (Z.of_nat (n_species sol)))%Q).
    assert (forall t s, (T <= t)%Q -> (K t s <-> core me J s)) as HK.
    { intros t s Ht. assert (0 <= inject_Z (Z.of_nat (n_species sol)))%Q as Z0.
      { change 0%Q with (inject_Z 0). rewrite <- Zle_Qle. lia. }
      unfold T in Ht. destruct (method_dec me DRGEP) as [->|N].
      - rewrite high_drgep by lra. unfold core. intuition.
      - apply high_graph; auto; [lra|apply (proj2 W3)]. }
    assert (exists imp N, forall dfuel, (N <= dfuel)%nat ->
      get_importance_coeffs dfuel (species_names sol) (j_targets J) (matrices DRGEP sol rops) = Ok imp)
      as (imp & N1 & HN1).
    { destruct (drgep_search_total (species_names sol) (j_targets J) (map (kin_of sol) rops))
        as (imp & N & G & _).
      - apply (proj1 W1).
      - apply (proj2 W3).
      - intros Kk Hk. apply in_map_iff in Hk. destruct Hk as (rop & <- & _). simpl.
        unfold species_names. now rewrite map_length.
      - exists imp, N. intros dfuel Ld. rewrite map_map in G. exact (G dfuel Ld). }
    assert (forall dfuel, (N1 <= dfuel)%nat -> search_ends me dfuel J sol rops) as SE.
    { intros dfuel Ld _. eauto. }
    destruct (started_spec me J smp w sol sampled rops w1 ST N1 (SE N1 (le_n _)))
      as (red & short & lb & S1 & S2 & S3 & S4 & S5 & S6 & O).
    assert (forall t, (T <= t)%Q -> exceed t \/ (forall s, In s (species_names sol) -> ~ K t s)) as HIGH.
    { intros t Ht. destruct HI as [(m & e & C & H)|HI].
      - left. exists m, e. split; auto. eapply cut_to_ext; [|exact C]. intros s _. symmetry. now apply HK.
      - right. intros s Hs Ks. apply (HI s Hs). now apply (HK t). }
    assert (T <= (2 # 1) ^ 30)%Q as HT.
    { unfold T. change ((2 # 1) ^ 28)%Q with (268435456 # 1) in SZ. change ((2 # 1) ^ 30)%Q with (1073741824 # 1). lra. }
    destruct (run_ends floatA J sol sampled red K short lb limit S1 S2
      (fun t t' s => kept_antitone me J sol rops t t' s) W1 W4 BL
      (sol_nonempty J smp w sol sampled rops w1 ST) DE NN float_up NF S5 T HIGH
      (floor_f me) (by_last me) _ (starts_attempts me)) as [N2 HN2].
    { intros i Hi. rewrite map_length, seq_length in Hi. apply float_high; auto. destruct me; simpl in Hi; lia. }
    exists (max N1 N2). intros fuel dfuel Lf Ld E.
    assert (run me floatA (floor_f me) fuel dfuel J smp limit w =
            run me floatA (floor_f me) fuel N1 J smp limit w) as EQ.
    { destruct me; auto. unfold run, run_drgep, mbind at 1. rewrite (load_holds _ _ _ _ W2).
      symmetry. unfold mbind at 1. rewrite (load_holds _ _ _ _ W2).
      destruct (j_targets J) as [|t0 tl] eqn:Et; auto. unfold mbind at 1. rewrite W5.
      symmetry. unfold mbind at 1. rewrite W5. simpl fst. simpl snd.
      change (map (fun rop => create_drgep_matrix (kin_of sol rop)) rops) with (matrices DRGEP sol rops).
      unfold mbind at 1, mlift at 1. rewrite HN1 by lia. symmetry.
      unfold mbind at 1, mlift at 1. rewrite HN1 by lia. reflexivity. }
    rewrite EQ in E. clear EQ.
    specialize (O floatA (floor_f me) fuel limit). specialize (HN2 fuel w1 ltac:(lia) W6).
    destruct (thr_run floatA fuel J sol red limit (floor_f me) (by_last me) w1) as [[r0|e|] w2]; simpl in O.
    - destruct O as (w' & O & _). rewrite O in E. discriminate.
    - rewrite O in E. discriminate.
    - now apply HN2.
  Qed.
End Driver.

Lemma fork_started : started fork_job fork_sampler fork_world fork [Fin 2] fork_rops fork_world.
Proof.
  assert (holds fork_world "mech.yaml" "" fork) as H by (exists [fork]; split; reflexivity).
  constructor; auto.
  - apply wf_mechb_sound. vm_compute. reflexivity.
  - split; [discriminate|]. intros s [<- | []]. simpl. auto.
  - intros n. unfold out_file, path_join. simpl. discriminate.
Qed.

Lemma fork_fair l : xle (Fin 0) l = true -> fair fork_job fork [Fin 2] l.
Proof.
  intros H. constructor; auto.
  - apply needs_blind.
  - exists (Fin (0 # 2)). split; [reflexivity|]. now apply zero_within.
Qed.

Lemma float_forever me J smp w sol sampled rops w1 limit fuel dfuel :
  started J smp w sol sampled rops w1 -> fair J sol sampled limit ->
  rops <> nil -> search_ends me dfuel J sol rops ->
  (forall n, passes J sol sampled limit (kept me J sol rops (climb_v 0 n))) ->
  fst (run me floatA (floor_f me) fuel dfuel J smp limit w) = NoFuel.
Proof.
  intros ST FA NE SE P. apply (driver_never_ends me J smp w sol sampled rops w1 limit ST FA); auto.
  unfold limbo_ok. destruct me; auto.
Qed.
