(** The drivers, from the facts about steps and loops. *)
From Coq Require Import String List QArith Bool Arith Lia Lqa.
From Verif.Base Require Import Py Num XNum Paths.
From Verif.Model Require Import Mech Matrices Graph World Metrics Drivers.
From Verif.Spec Require Import TrimSpec GraphSpec DriverSpec.
From Verif.Proofs Require Import PyFacts NumFacts TrimFacts MatrixFacts DfsFacts GraphMore ImportanceFacts
  StepFacts StepInst LoopFacts.
Import ListNotations.
Local Open Scope string_scope.

Definition by_last (me : method) : bool := match me with DRG => false | _ => true end.

Lemma cut_incl J sol K m : cut_to J sol K m -> incl (species_names m) (species_names sol).
Proof.
  intros (rm & _ & C) s Hs. apply (cut_names J sol rm m C) in Hs. tauto.
Qed.

Lemma filter_sublist {A} (f : A -> bool) l : sublist (filter f l) l.
Proof. induction l as [|x l IH]; simpl; [constructor|]. destruct (f x); now constructor. Qed.

(** What a driver does with the result of the loop. *)
Definition outcome me J sol rops (x : res rmodel * world) (y : res rmodel * world) : Prop :=
  match x with
  | (Ok r, w2) => exists w', y = (Ok r, w') /\ (forall g, w_fs w' g = w_fs w2 g) /\
      (me <> DRGEP -> w_shared w' = w_shared w2) /\
      (me = DRGEP -> exists l, w_shared w' = (w_shared w2 ++ l)%list /\ drgep_limbo J sol rops (r_model r) l)
  | _ => y = x
  end.

Section Run.
  Variables (me : method) (dfuel : nat) (J : job).
  Variables (smp : sampler) (sol : mech) (w : world).
  Variables (sampled : list xnum) (rops : list (list Q)) (w1 : world).
  Hypothesis WF : wf_mech sol.
  Hypothesis HOLDS : holds w (j_file J) (j_phase J) sol.
  Hypothesis JOB : job_ok J sol.
  Hypothesis SMP : smp w = (Ok (sampled, rops), w1).
  Hypothesis HOLDS1 : holds w1 (j_file J) (j_phase J) sol.
  Hypothesis APART : input_apart J.

  Lemma run_spec : search_ends me dfuel J sol rops ->
    exists red short lb,
      is_step J sol sampled red (kept me J sol rops) short lb /\
      short_sound sol (kept me J sol rops) short /\
      (limbo_ok me J rops -> exists l, lb = Ok l) /\
      (forall e, lb = Raise e -> e = UnboundLocalError) /\ lb <> NoFuel /\
      (forall l, lb = Ok l -> limbo_spec me J sol rops l) /\
      forall A floor fuel limit,
        outcome me J sol rops (thr_run A fuel J sol red limit floor (by_last me) w1)
                (run me A floor fuel dfuel J smp limit w).
  Proof.
    intros SE. destruct JOB as [NE T].
    assert (exists imp, me = DRGEP ->
      get_importance_coeffs dfuel (species_names sol) (j_targets J) (matrices DRGEP sol rops) = Ok imp) as Himp.
    { destruct me; try (exists nil; discriminate). destruct (SE eq_refl) as [imp Hi]. exists imp. auto. }
    destruct (reduce_is_step me dfuel J sol rops sampled WF T Himp) as (short & lb & S1 & S2 & S3 & S4 & S5 & S6).
    exists (reduce me dfuel J sol rops sampled), short, lb. do 6 (split; [assumption|]). intros A floor fuel limit.
    destruct me.
    - assert (run DRG A floor fuel dfuel J smp limit w =
              thr_run A fuel J sol (reduce DRG dfuel J sol rops sampled) limit floor false w1) as ->.
      { unfold run, run_drg, mbind at 1. rewrite (load_holds _ _ _ _ HOLDS).
        destruct (j_targets J); [contradiction|]. unfold mbind. now rewrite SMP. }
      simpl by_last. destruct (thr_run _ _ _ _ _ _ _ _ _) as [[r|e|] w2]; simpl; auto.
      exists w2. split; auto. split; auto. split; auto. discriminate.
    - assert (run PFA A floor fuel dfuel J smp limit w =
              thr_run A fuel J sol (reduce PFA dfuel J sol rops sampled) limit floor true w1) as ->.
      { unfold run, run_pfa, mbind at 1. rewrite (load_holds _ _ _ _ HOLDS).
        destruct (j_targets J); [contradiction|]. unfold mbind. now rewrite SMP. }
      simpl by_last. destruct (thr_run _ _ _ _ _ _ _ _ _) as [[r|e|] w2]; simpl; auto.
      exists w2. split; auto. split; auto. split; auto. discriminate.
    - destruct Himp as [imp Himp]. specialize (Himp eq_refl).
      pose (post := fun r => if truthy (j_upper J) then
        l <- mlift (below imp (j_safe J) (match j_upper J with Some u => u | None => 0%Q end)
                          (species_names (r_model r))) ;;
        append_limbo r l else mret r).
      assert (run DRGEP A floor fuel dfuel J smp limit w =
              mbind (thr_run A fuel J sol (reduce_drgep J imp sampled) limit floor true) post w1) as ->.
      { unfold run, run_drgep. unfold mbind at 1. rewrite (load_holds _ _ _ _ HOLDS).
        destruct (j_targets J) as [|t0 tl] eqn:Et; [contradiction|]. unfold mbind at 1. rewrite SMP.
        simpl fst. simpl snd.
        change (map (fun rop => create_drgep_matrix (kin_of sol rop)) rops) with (matrices DRGEP sol rops).
        unfold mbind at 1, mlift at 1. rewrite Himp. reflexivity. }
      assert (forall t p x, reduce DRGEP dfuel J sol rops sampled t p x = reduce_drgep J imp sampled t p x) as EXT.
      { intros. unfold reduce, mbind, mlift. now rewrite Himp. }
      assert (forall fl s x, thr_loop A fl (reduce DRGEP dfuel J sol rops sampled) limit floor s x =
                             thr_loop A fl (reduce_drgep J imp sampled) limit floor s x) as EL.
      { induction fl as [|fl IH]; intros s x; cbn [thr_loop]; destruct (xle (l_err s) limit); auto.
        cbv zeta. unfold mbind at 1. symmetry. unfold mbind at 1. rewrite EXT.
        destruct (reduce_drgep J imp sampled _ _ x) as [[r|e|] x']; auto.
        destruct (l_first s && xgt (r_error r) limit)%bool.
        - destruct (floor _); auto.
        - unfold mbind. destruct (Nat.eqb _ _).
          + unfold mret. symmetry. apply IH.
          + destruct (remove_file (r_file r) x') as [[[]|e|] x'']; auto. }
      assert (thr_run A fuel J sol (reduce_drgep J imp sampled) limit floor true w1 =
              thr_run A fuel J sol (reduce DRGEP dfuel J sol rops sampled) limit floor true w1) as ER.
      { unfold thr_run. unfold mbind. rewrite EL.
        destruct (thr_loop A fuel (reduce_drgep J imp sampled) limit floor (thr_init A sol (j_file J)) w1) as [[s|e|] w2]; auto.
        unfold thr_finish. destruct (l_last s); auto. destruct (xgt (r_error r) limit); auto. }
      unfold mbind. rewrite ER. cbn [by_last].
      destruct (thr_run A fuel J sol (reduce DRGEP dfuel J sol rops sampled) limit floor true w1) as [[r|e|] w2] eqn:R;
        simpl; auto.
      destruct (run_returns A J sol sampled _ _ _ _ limit S1 APART floor fuel true w1 r w2 HOLDS1 R)
        as (s & w3 & _ & _ & F & _).
      destruct F as (C & _ & _ & Fl & _). pose proof (cut_incl _ _ _ _ C) as I.
      destruct (importance_any _ _ _ _ _ (proj1 WF) T (drgep_unit sol rops) Himp) as [Kk Bb].
      pose proof (S6 _ Fl) as Sh. simpl in Sh. unfold post, drgep_limbo. fold (upper_of J).
      destruct (truthy (j_upper J)).
      2: { exists w2. split; auto. split; auto. split; [contradiction|]. intros _. exists nil.
           now rewrite app_nil_r. }
      unfold mbind, mlift. rewrite (below_sub sol imp Kk _ _ _ I). unfold append_limbo. rewrite Sh.
      eexists. split; [reflexivity|]. split; [auto|]. split; [contradiction|]. intros _.
      eexists. split; [reflexivity|]. split; [apply filter_sublist|].
      intros x. rewrite filter_In, andb_true_iff, negb_true_iff, str_in_false, Qlt_bool_iff.
      split.
      + intros (X1 & X2 & X3). split; auto. split; auto.
        destruct (coeff_some J sol (matrices DRGEP sol rops) imp Kk Bb x (I x X1)) as (v & _ & Ev & Bv).
        rewrite Ev in X2. eauto.
      + intros (X1 & X2 & v & Bv & Lv). split; auto. split; auto.
        destruct (coeff_some J sol (matrices DRGEP sol rops) imp Kk Bb x (I x X1)) as (v' & _ & -> & Bv').
        pose proof (importance_unique _ _ _ _ _ _ Bv Bv'). lra.
  Qed.

  Lemma run_ok_search A floor fuel limit r w' : run me A floor fuel dfuel J smp limit w = (Ok r, w') ->
    search_ends me dfuel J sol rops.
  Proof.
    intros E Em. subst me. unfold run, run_drgep, mbind at 1 in E. rewrite (load_holds _ _ _ _ HOLDS) in E.
    destruct (j_targets J) as [|t0 tl] eqn:Et; [discriminate|]. unfold mbind at 1 in E. rewrite SMP in E.
    simpl fst in E. simpl snd in E. unfold mbind at 1, mlift at 1 in E.
    change (map (fun rop => create_drgep_matrix (kin_of sol rop)) rops) with (matrices DRGEP sol rops) in E.
    destruct (get_importance_coeffs _ _ _ _) as [imp| |] eqn:Ei; try discriminate. eauto.
  Qed.
End Run.

Section Driver.
  Variables (me : method) (J : job) (smp : sampler) (w : world) (sol : mech).
  Variables (sampled : list xnum) (rops : list (list Q)) (w1 : world) (limit : xnum).
  Hypothesis ST : started J smp w sol sampled rops w1.

  Notation K := (kept me J sol rops).
  Notation err := (error_of (j_conds J) sampled).

  Lemma sol_nonempty : m_species sol <> nil.
  Proof.
    destruct (st_job _ _ _ _ _ _ _ ST) as [N I]. destruct (j_targets J) as [|t l]; [contradiction|].
    intros E. specialize (I t (or_introl eq_refl)). unfold species_names in I. rewrite E in I. destruct I.
  Qed.

  Lemma started_spec dfuel : search_ends me dfuel J sol rops ->
    exists red short lb,
      is_step J sol sampled red K short lb /\ short_sound sol K short /\
      (limbo_ok me J rops -> exists l, lb = Ok l) /\
      (forall e, lb = Raise e -> e = UnboundLocalError) /\ lb <> NoFuel /\
      (forall l, lb = Ok l -> limbo_spec me J sol rops l) /\
      forall A floor fuel limit,
        outcome me J sol rops (thr_run A fuel J sol red limit floor (by_last me) w1)
                (run me A floor fuel dfuel J smp limit w).
  Proof.
    intros SE. destruct ST. eapply run_spec; eauto.
  Qed.

  Lemma no_search A floor fuel dfuel :
    search_ends me dfuel J sol rops \/ snd (run me A floor fuel dfuel J smp limit w) = w1.
  Proof.
    destruct me eqn:Em; try (left; intros C; discriminate).
    destruct (get_importance_coeffs dfuel (species_names sol) (j_targets J) (matrices DRGEP sol rops))
      as [imp|e|] eqn:Ei; [left; intros _; eauto| |]; right;
      (unfold run, run_drgep, mbind at 1; rewrite (load_holds _ _ _ _ (st_file _ _ _ _ _ _ _ ST));
       destruct (j_targets J) as [|t0 tl] eqn:Et;
         [destruct (st_job _ _ _ _ _ _ _ ST) as [N _]; congruence|];
       unfold mbind at 1; rewrite (st_sample _ _ _ _ _ _ _ ST); simpl fst; simpl snd;
       change (map (fun rop => create_drgep_matrix (kin_of sol rop)) rops) with (matrices DRGEP sol rops);
       unfold mbind at 1, mlift at 1; rewrite Ei; reflexivity).
  Qed.

  Lemma outcome_fs x y : outcome me J sol rops x y -> forall g, w_fs (snd y) g = w_fs (snd x) g.
  Proof.
    destruct x as [[r|e|] w2]; simpl; intros O; try (subst y; reflexivity).
    destruct O as (w' & -> & H & _). exact H.
  Qed.

  Lemma driver_frame A floor fuel dfuel g : (forall n, g <> out_file J n) ->
    w_fs (snd (run me A floor fuel dfuel J smp limit w)) g = w_fs w1 g.
  Proof.
    intros G. destruct (no_search A floor fuel dfuel) as [SE| ->]; auto.
    destruct (started_spec dfuel SE) as (red & short & lb & S1 & S2 & _ & _ & _ & S6 & O).
    specialize (O A floor fuel limit).
    rewrite (outcome_fs _ _ O).
    destruct (run_frame A J sol sampled red K short lb limit S1 (st_apart _ _ _ _ _ _ _ ST)
                floor fuel (by_last me) w1 (st_file1 _ _ _ _ _ _ _ ST)) as [F _].
    now apply F.
  Qed.

  Lemma driver_ok A floor fuel dfuel r w' : run me A floor fuel dfuel J smp limit w = (Ok r, w') ->
    exists red short lb w2,
      is_step J sol sampled red K short lb /\ short_sound sol K short /\
      thr_run A fuel J sol red limit floor (by_last me) w1 = (Ok r, w2) /\
      (forall g, w_fs w' g = w_fs w2 g) /\ limbo_spec me J sol rops (r_limbo r) /\
      (me <> DRGEP -> w_shared w' = w_shared w1) /\
      (me = DRGEP -> exists l, w_shared w' = (w_shared w1 ++ l)%list /\ drgep_limbo J sol rops (r_model r) l).
  Proof.
    intros E.
    assert (search_ends me dfuel J sol rops) as SE.
    { exact (run_ok_search me dfuel J smp sol w sampled rops w1
               (st_file _ _ _ _ _ _ _ ST) (st_sample _ _ _ _ _ _ _ ST) A floor fuel limit r w' E). }
    destruct (started_spec dfuel SE) as (red & short & lb & S1 & S2 & _ & _ & _ & S6 & O).
    specialize (O A floor fuel limit).
    exists red, short, lb. rewrite E in O.
    pose proof (run_frame A J sol sampled red K short lb limit S1 (st_apart _ _ _ _ _ _ _ ST)
                floor fuel (by_last me) w1 (st_file1 _ _ _ _ _ _ _ ST)) as [_ F].
    destruct (thr_run A fuel J sol red limit floor (by_last me) w1) as [[r0|e|] w2] eqn:R; simpl in O; try discriminate.
    simpl in F. rewrite F in O.
    destruct (run_returns A J sol sampled red K short lb limit S1 (st_apart _ _ _ _ _ _ _ ST) floor fuel
                (by_last me) w1 r0 w2 (st_file1 _ _ _ _ _ _ _ ST) R) as (s & w3 & _ & _ & Fr & _).
    destruct Fr as (_ & _ & _ & Fl & _). apply S6 in Fl.
    destruct O as (w'' & O & M1 & M2 & M3). injection O as <- <-. exists w2. auto 10.
  Qed.

  Lemma driver_file A floor fuel dfuel r w' : run me A floor fuel dfuel J smp limit w = (Ok r, w') ->
    r_file r = out_file J (n_species (r_model r)) /\
    w_fs w' (r_file r) = Some (FMech [r_model r]) /\
    holds w' (r_file r) (j_phase J) (r_model r) /\
    err (r_model r) = Ok (r_error r) /\
    exists t, cut_to J sol (K (A_val A t)) (r_model r).
  Proof.
    intros E. destruct (driver_ok _ _ _ _ _ _ E) as (red & short & lb & w2 & S1 & S2 & R & M4 & _).
    destruct (run_returns A J sol sampled red K short lb limit S1 (st_apart _ _ _ _ _ _ _ ST) floor fuel
                (by_last me) w1 r w2 (st_file1 _ _ _ _ _ _ _ ST) R) as (s & w3 & _ & _ & F & _).
    destruct F as (C & Er & Fi & _ & W & _). rewrite M4. split; auto.
    assert (w_fs w2 (r_file r) = Some (FMech [r_model r])) as Hf by (rewrite W, String.eqb_refl; auto).
    split; auto. split; [|split; eauto]. exists [r_model r]. rewrite M4. split; auto.
    destruct C as (rm & _ & C). apply (trim_phase _ _ _ _ _ C).
  Qed.

  Section Fair.
    Hypothesis FA : fair J sol sampled limit.

    Lemma driver_scan fuel dfuel r w' :
      run me exactA (floor_of me) fuel dfuel J smp limit w = (Ok r, w') ->
      exists j n, scanned J sol sampled limit K j n /\
        cut_to J sol (K (times n (start_at j))) (r_model r).
    Proof.
      intros E. destruct (driver_ok exactA _ _ _ _ _ E) as (red & short & lb & w2 & S1 & S2 & R & _).
      destruct FA as [BL NN DE].
      destruct (run_scan exactA J sol sampled red K short lb limit S1 S2
        (fun t t' s => kept_antitone me J sol rops t t' s) (st_wf _ _ _ _ _ _ _ ST) (st_apart _ _ _ _ _ _ _ ST)
        BL sol_nonempty DE NN
        (fun t i => Qeq_refl _) (fun t i => Qeq_refl _) (fun t => Qeq_refl _)
        (floor_of me) fuel (by_last me) w1 r w2 (st_file1 _ _ _ _ _ _ _ ST) eq_refl R)
        as (j & n & H1 & H2 & H3 & H4 & H5).
      exists j, n. split; [|exact H5]. split; [exact H1|]. split; [exact H2|]. split; [exact H3|exact H4].
    Qed.

    Lemma driver_within fuel dfuel r w' :
      run me exactA (floor_of me) fuel dfuel J smp limit w = (Ok r, w') ->
      xle (r_error r) limit = true.
    Proof.
      intros E. destruct (driver_scan _ _ _ _ E) as (j & n & (_ & N & P & _) & C).
      destruct (P n) as (m & e & Cm & Em & L); [lia|].
      rewrite (cut_to_unique _ _ _ _ _ (st_wf _ _ _ _ _ _ _ ST) Cm C) in Em.
      destruct (driver_file exactA _ _ _ _ _ E) as (_ & _ & _ & Er & _). rewrite Er in Em.
      injection Em as ->. auto.
    Qed.

    Lemma driver_exit_any A floor fuel dfuel l :
      (forall m, err m <> Raise SystemExit) -> search_ends me dfuel J sol rops -> limbo_ok me J rops ->
      attempts A floor (A_start A) l -> (length l <= fuel)%nat ->
      fst (run me A floor fuel dfuel J smp limit w) = Raise SystemExit <->
      Forall (fun u => exceeds J sol sampled limit (K (A_val A u))) l.
    Proof.
      intros NX SE LO At Lf.
      destruct (started_spec dfuel SE) as (red & short & lb & S1 & S2 & S3 & S4 & S5 & S6 & O).
      specialize (O A floor fuel limit).
      destruct FA as [BL NN DE].
      assert (lb <> Raise SystemExit) as LX by (intros C; apply S4 in C; discriminate).
      rewrite <- (run_exit_iff A J sol sampled red K short lb limit S1 S2
        (st_wf _ _ _ _ _ _ _ ST) (st_apart _ _ _ _ _ _ _ ST)
        BL sol_nonempty DE NN NX LX floor fuel (by_last me) w1 l At
        (st_file1 _ _ _ _ _ _ _ ST) Lf (S3 LO)).
      destruct (thr_run A fuel J sol red limit floor (by_last me) w1) as [[r0|e|] w2]; simpl in O.
      - destruct O as (w' & -> & _). simpl. split; discriminate.
      - rewrite O. reflexivity.
      - rewrite O. reflexivity.
    Qed.

    Lemma driver_exit fuel dfuel :
      (forall m, err m <> Raise SystemExit) -> search_ends me dfuel J sol rops -> limbo_ok me J rops ->
      (starts me <= fuel)%nat ->
      fst (run me exactA (floor_of me) fuel dfuel J smp limit w) = Raise SystemExit <->
      forall i, (i < starts me)%nat -> exceeds J sol sampled limit (K (start_at i)).
    Proof.
      intros NX SE LO Lf.
      rewrite (driver_exit_any exactA (floor_of me) fuel dfuel (map start_at (seq 0 (starts me))) NX SE LO).
      - rewrite Forall_map, Forall_forall. split; intros H i Hi.
        + apply (H i). apply in_seq. lia.
        + apply (H i). apply in_seq in Hi. lia.
      - destruct me; vm_compute; repeat split.
      - now rewrite map_length, seq_length.
    Qed.

    Lemma driver_terminates T :
      (forall m, err m <> NoFuel) ->
      (forall t, (T <= t)%Q -> exceeds J sol sampled limit (K t) \/
                               (forall s, In s (species_names sol) -> ~ K t s)) ->
      exists N, forall fuel dfuel, (N <= fuel)%nat -> (N <= dfuel)%nat ->
        fst (run me exactA (floor_of me) fuel dfuel J smp limit w) <> NoFuel.
    Proof.
      intros NF HI. destruct FA as [BL NN DE]. destruct ST as [W1 W2 W3 W4 W5 W6].
      assert (exists imp N, forall dfuel, (N <= dfuel)%nat ->
        get_importance_coeffs dfuel (species_names sol) (j_targets J) (matrices DRGEP sol rops) = Ok imp)
        as (imp & N1 & HN1).
      { destruct (drgep_search_total (species_names sol) (j_targets J) (map (kin_of sol) rops))
          as (imp & N & G & _).
        - apply (proj1 W1).
        - apply (proj2 W3).
        - intros Kk Hk. apply in_map_iff in Hk. destruct Hk as (rop & <- & _). simpl.
          unfold species_names. now rewrite map_length.
        - exists imp, N. intros dfuel Ld. rewrite map_map in G. exact (G dfuel Ld). }
      assert (forall dfuel, (N1 <= dfuel)%nat -> search_ends me dfuel J sol rops) as SE.
      { intros dfuel Ld _. eauto. }
      destruct (started_spec N1 (SE N1 (le_n _))) as (red & short & lb & S1 & S2 & S3 & S4 & S5 & S6 & O).
      assert (exists l, attempts exactA (floor_of me) (A_start exactA) l) as [l At].
      { exists (map start_at (seq 0 (starts me))). destruct me; vm_compute; repeat split. }
      destruct (run_terminates exactA J sol sampled red K short lb limit S1 S2
        (fun t t' s => kept_antitone me J sol rops t t' s) W1 W4 BL sol_nonempty DE NN
        (floor_of me) (by_last me) l T (fun t i => Qeq_refl _) (fun t => Qeq_refl _) eq_refl NF S5 HI At)
        as [N2 HN2].
      exists (max N1 N2). intros fuel dfuel Lf Ld E.
      assert (run me exactA (floor_of me) fuel dfuel J smp limit w =
              run me exactA (floor_of me) fuel N1 J smp limit w) as EQ.
      { destruct me; auto. unfold run, run_drgep, mbind at 1. rewrite (load_holds _ _ _ _ W2).
        symmetry. unfold mbind at 1. rewrite (load_holds _ _ _ _ W2).
        destruct (j_targets J) as [|t0 tl] eqn:Et; auto. unfold mbind at 1. rewrite W5.
        symmetry. unfold mbind at 1. rewrite W5. simpl fst. simpl snd.
        change (map (fun rop => create_drgep_matrix (kin_of sol rop)) rops) with (matrices DRGEP sol rops).
        unfold mbind at 1, mlift at 1. rewrite HN1 by lia. symmetry.
        unfold mbind at 1, mlift at 1. rewrite HN1 by lia. reflexivity. }
      rewrite EQ in E. clear EQ.
      specialize (O exactA (floor_of me) fuel limit). specialize (HN2 fuel w1 ltac:(lia) W6).
      destruct (thr_run exactA fuel J sol red limit (floor_of me) (by_last me) w1) as [[r0|e|] w2]; simpl in O.
      - destruct O as (w' & O & _). rewrite O in E. discriminate.
      - rewrite O in E. discriminate.
      - now apply HN2.
    Qed.

    Lemma driver_diverges A floor : limbo_ok me J rops ->
      (forall n, passes J sol sampled limit (K (A_val A (climb A n)))) ->
      forall fuel dfuel r w', run me A floor fuel dfuel J smp limit w <> (Ok r, w').
    Proof.
      intros LO P fuel dfuel r w' E. destruct FA as [BL NN DE].
      assert (search_ends me dfuel J sol rops) as SE.
      { exact (run_ok_search me dfuel J smp sol w sampled rops w1
               (st_file _ _ _ _ _ _ _ ST) (st_sample _ _ _ _ _ _ _ ST) A floor fuel limit r w' E). }
      destruct (started_spec dfuel SE) as (red & short & lb & S1 & S2 & S3 & S4 & S5 & S6 & O).
      specialize (O A floor fuel limit).
      pose proof (run_diverges A J sol sampled red K short lb limit S1 (st_wf _ _ _ _ _ _ _ ST)
        (st_apart _ _ _ _ _ _ _ ST) NN floor (by_last me) (S3 LO) P fuel w1 (st_file1 _ _ _ _ _ _ _ ST)) as D.
      destruct (thr_run A fuel J sol red limit floor (by_last me) w1) as [[r0|e|] w2]; simpl in D; try discriminate.
      simpl in O. rewrite E in O. discriminate.
    Qed.

    (** The same with the search finishing: it never ends at all. *)
    Lemma driver_never_ends A floor : limbo_ok me J rops ->
      (forall n, passes J sol sampled limit (K (A_val A (climb A n)))) ->
      forall fuel dfuel, search_ends me dfuel J sol rops ->
      fst (run me A floor fuel dfuel J smp limit w) = NoFuel.
    Proof.
      intros LO P fuel dfuel SE. destruct FA as [BL NN DE].
      destruct (started_spec dfuel SE) as (red & short & lb & S1 & S2 & S3 & S4 & S5 & S6 & O).
      specialize (O A floor fuel limit).
      pose proof (run_diverges A J sol sampled red K short lb limit S1 (st_wf _ _ _ _ _ _ _ ST)
        (st_apart _ _ _ _ _ _ _ ST) NN floor (by_last me) (S3 LO) P fuel w1 (st_file1 _ _ _ _ _ _ _ ST)) as D.
      destruct (thr_run A fuel J sol red limit floor (by_last me) w1) as [[r0|e|] w2]; simpl in D; try discriminate.
      simpl in O. rewrite O. reflexivity.
    Qed.
  End Fair.
End Driver.

(** ** High thresholds *)

Lemma high_graph me J sol rops t s : me <> DRGEP -> rops <> nil ->
  (2 + 2 * inject_Z (Z.of_nat (n_species sol)) < t)%Q ->
  incl (j_targets J) (species_names sol) ->
  (kept me J sol rops t s <-> core me J s).
Proof.
  intros Me NE Ht T. unfold kept, core.
  assert (forall Mx i j, In Mx (matrices me sol rops) -> (i < n_species sol)%nat -> (j < n_species sol)%nat ->
    (mget Mx i j < t)%Q) as B.
  { intros Mx i j H Hi Hj. unfold matrices in H. apply in_map_iff in H. destruct H as (rop & <- & _).
    assert (0 <= inject_Z (Z.of_nat (n_species sol)))%Q as Z0.
    { change 0%Q with (inject_Z 0). rewrite <- Zle_Qle. lia. }
    destruct me; [| |contradiction].
    - destruct (drg_bounds (kin_of sol rop) i j) as [_ D]; auto. lra.
    - destruct (pfa_bounds (kin_of sol rop) i j) as [_ D]; auto. simpl k_nsp in D. lra. }
  assert (forall Mx a, In Mx (matrices me sol rops) -> reach (species_names sol) Mx t a s -> s = a) as R.
  { intros Mx a H Re. destruct Re as [|b c v Re (i & j & Ni & Nj & Ev) Nz Le]; auto.
    exfalso.
    assert (forall k x, nth_error (species_names sol) k = Some x -> (k < n_species sol)%nat) as NL.
    { intros k x Hk. unfold n_species. rewrite <- (map_length sp_name). apply nth_error_Some.
      unfold species_names in Hk. congruence. }
    apply NL in Ni. apply NL in Nj.
    subst v. assert (mget Mx i j < t)%Q as L; [apply B; auto|lra]. }
  assert (exists Mx, In Mx (matrices me sol rops)) as [Mx HM].
  { destruct rops as [|r0 l]; [contradiction|]. eexists. left. reflexivity. }
  destruct me; [| |contradiction].
  - split; intros [H|H]; auto.
    + destruct H as (M' & a & H1 & H2 & H3). rewrite (R M' a H1 H3). auto.
    + right. exists Mx, s. split; auto. split; [tauto|]. constructor. apply T. tauto.
  - split; intros [H|H]; auto.
    + destruct H as (M' & a & H1 & H2 & H3). rewrite (R M' a H1 H3). auto.
    + right. exists Mx, s. split; auto. split; [tauto|]. constructor. apply T. tauto.
Qed.

Lemma high_drgep J sol rops t s : (1 < t)%Q -> (kept DRGEP J sol rops t s <-> In s (j_safe J)).
Proof.
  intros Ht. unfold kept. split; [|auto]. intros [H|(m & I & L)]; auto.
  destruct (importance_range_lemma _ _ _ _ _ (drgep_unit sol rops) I) as [[_ B] _]. lra.
Qed.
