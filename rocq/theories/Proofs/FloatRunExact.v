(** What the drivers with doubles throughout keep, and how this compares with
    exact coefficients. *)
From Coq Require Import String List ZArith QArith Qabs Bool Arith Lia Lqa.
From Verif.Base Require Import Py Num XNum Paths B64.
From Verif.Model Require Import Mech Matrices Graph World Metrics Drivers FloatDrivers FloatMatrix FloatPfa FloatRun.
From Verif.Spec Require Import TrimSpec Samples GraphSpec DriverSpec MatrixSpec FloatSpec FloatMatrixSpec FloatRunSpec.
From Verif.Proofs Require Import PyFacts NumFacts TrimFacts DfsFacts MatrixFacts ImportanceFacts GraphMore StepFacts StepInst
     LoopFacts RunFacts ReduceFacts LoopForward DriverFacts FloatFacts FloatDriverFacts FloatMatrixFacts
     FloatImportance FloatMatrixFinal FloatPfaFinal FloatThrFacts FloatTop FloatRunFacts FloatRunMain.
Import ListNotations.
Local Open Scope string_scope.

Section Keeps.
  Variables (me : method) (J : job) (smp : fsampler) (w : world) (sol : mech).
  Variables (sampled : list xnum) (rops : list (list b64)) (w1 : world) (limit : xnum).
  Hypothesis ST : fstarted J smp w sol sampled rops w1.
  Hypothesis TA : tame J sol rops.
  Hypothesis FA : fair J sol sampled limit.

  Notation FK := (fkept me J sol rops).
  Notation names := (species_names sol).
  Notation pass t := (passes J sol sampled limit (FK t)).
  Notation exceed t := (exceeds J sol sampled limit (FK t)).

  Lemma fimp_has s : In s names -> exists c, unit_b64 c /\
    is_fimportance names (j_targets J) (fmatrices DRGEP sol rops) s c.
  Proof.
    intros Hs. destruct (fimportance_spec names (j_targets J) (fmatrices DRGEP sol rops)
                (proj2 (fs_job _ _ _ _ _ _ _ ST)) (drgep_funit J sol rops TA)) as (r & N & _ & K & B).
    rewrite <- K in Hs. apply dget_some_key in Hs. destruct Hs as (c & Hc). exists c. now apply B.
  Qed.

  Lemma fimp_unit s c : In s names -> is_fimportance names (j_targets J) (fmatrices DRGEP sol rops) s c ->
    exists d, unit_b64 d /\ is_fimportance names (j_targets J) (fmatrices DRGEP sol rops) s d /\ (b64_val c == b64_val d)%Q.
  Proof.
    intros Hs Hc. destruct (fimp_has s Hs) as (d & U & Hd). exists d. split; auto. split; auto.
    apply (fimp_unique J sol rops s); [exists c|exists d]; auto.
  Qed.

  Lemma fmatrices_nil m : rops <> nil -> fmatrices m sol rops <> nil.
  Proof. intros N E. apply map_eq_nil in E. contradiction. Qed.

  Lemma fhigh_drgep t s : In s names -> (1 < b64_val t)%Q -> me = DRGEP -> (FK t s <-> In s (j_safe J)).
  Proof.
    intros Hs Ht ->. unfold fkept. split; [|auto]. intros [H|(c & Hc & L)]; auto. exfalso.
    destruct (fimp_unit s c Hs Hc) as (d & [_ [_ U]] & _ & E). lra.
  Qed.

  Lemma ftarget_kept t s : rops <> nil -> (me = DRGEP -> (b64_val t <= 1)%Q) -> In s (j_targets J) -> FK t s.
  Proof.
    intros NE L Ht. pose proof (proj2 (fs_job _ _ _ _ _ _ _ ST) s Ht) as Hs. right.
    destruct (rops) as [|rop rs] eqn:Er; [contradiction|]. rewrite <- Er in *.
    destruct me.
    1,2: eexists; exists s; (split; [unfold fmatrices; rewrite Er; left; reflexivity|]); split; auto; now constructor.
    destruct (fimp_has s Hs) as (c & U & Hc). exists c. split; auto.
    pose proof (fimportance_target _ _ _ s c (drgep_funit J sol rops TA) (fmatrices_nil DRGEP NE) Ht Hs U Hc).
    specialize (L eq_refl). lra.
  Qed.

  Lemma fdriver_keeps fuel dfuel r w' : rops <> nil ->
    frun me fuel dfuel J smp limit w = (Ok r, w') ->
    incl (j_targets J) (species_names (r_model r)) /\
    (forall s, In s (j_safe J) -> In s names -> In s (species_names (r_model r))).
  Proof.
    intros NE E.
    destruct (fdriver_scan me J smp w sol sampled rops w1 limit ST TA FA fuel dfuel r w' E)
      as (j & n & t & Hj & S1 & S2 & S3 & Ft & Rt & C). split.
    - intros s Hs. pose proof (proj2 (fs_job _ _ _ _ _ _ _ ST) s Hs) as Hn.
      apply (cut_has _ _ _ _ _ C); auto. apply ftarget_kept; auto. intros Em.
      assert (climb_v j n <= 1)%Q as L.
      { destruct (Qlt_le_dec 1 (climb_v j n)) as [G|]; auto. exfalso.
        assert (1 < climb_v j (S n))%Q as G' by (pose proof (climb_mono j n (S n) ltac:(lia)); lra).
        destruct (S2 n (le_n _)) as (m1 & e1 & C1 & E1 & L1). destruct S3 as (m2 & e2 & C2 & E2 & G2).
        assert (m1 = m2) as ->.
        { eapply cut_to_unique; [exact (fs_wf _ _ _ _ _ _ _ ST)| |exact C2]. eapply cut_to_ext; [|exact C1].
          intros x Hx. rewrite (fhigh_drgep (climb_f j n) x Hx G Em), (fhigh_drgep (climb_f j (S n)) x Hx G' Em).
          reflexivity. }
        rewrite E1 in E2. injection E2 as <-. apply xle_gt in L1. congruence. }
      assert (j < 5)%nat as H5 by (destruct me; simpl in Hj; lia).
      pose proof (below_one j n H5 L). lra.
    - intros s Hs Hn. apply (cut_has _ _ _ _ _ C); auto. now left.
  Qed.

  (** *** Against exact coefficients *)
  Variable n : nat.
  Hypothesis ME : measured me n sol rops.
  Notation XK := (xkept me J sol rops).
  Notation e := (coefficient_bound me (n_species sol) n).

  Lemma len_names : length names = n_species sol.
  Proof. unfold species_names, n_species. apply map_length. Qed.

  Lemma pfa_error_mono s a b : (a <= b)%nat -> (pfa_error s a <= pfa_error s b)%Q.
  Proof.
    intros H. unfold pfa_error. apply Qplus_le_compat; [|apply Qle_refl].
    assert (0 <= inject_Z (Z.of_nat s))%Q by (change 0%Q with (inject_Z 0); rewrite <- Zle_Qle; lia).
    rewrite !(Qmult_comm (4 * inject_Z (Z.of_nat s) + 2)). apply Qmult_le_compat_r; [now apply error_mono|lra].
  Qed.

  Lemma gbound_nn : (0 <= e)%Q.
  Proof.
    unfold coefficient_bound. destruct me; [apply coefficient_error_nn|apply pfa_error_nn|].
    apply Qmult_le_0_compat; [change 0%Q with (inject_Z 0); rewrite <- Zle_Qle; lia|].
    pose proof (coefficient_error_nn n). assert (0 <= roundoff)%Q by (vm_compute; discriminate). lra.
  Qed.

  Lemma graph_close : me <> DRGEP ->
    Forall2 (close_to (length names) e) (fmatrices me sol rops) (xmatrices me sol rops).
  Proof.
    intros Nm. unfold fmatrices, xmatrices.
    assert (forall rop, In rop rops -> moderate (fkin_of sol rop) /\ (length rop <= n)%nat /\
      forall a, (a < n_species sol)%nat ->
        not_tiny (match me with DRG => drg_total | _ => drgep_total end (exact (fkin_of sol rop)) a)) as H.
    { intros rop HR. split; [now apply (ta_rates _ _ _ TA)|]. apply (ME rop HR). }
    revert H. generalize rops as l. induction l as [|rop l IH]; intros H; simpl; constructor.
    - destruct (H rop (or_introl eq_refl)) as (A & L & NT). intros i j Hi Hj. rewrite len_names in *.
      unfold coefficient_bound. destruct me; [| |congruence].
      + eapply Qle_trans; [exact (drg_close (fkin_of sol rop) (n_species sol) A eq_refl NT i j Hi Hj)|].
        now apply error_mono.
      + assert (Z.of_nat (fk_nsp (fkin_of sol rop)) <= 2 ^ 40)%Z as SZ by (simpl; pose proof (ta_size _ _ _ TA); lia).
        eapply Qle_trans; [exact (pfa_close (fkin_of sol rop) A SZ NT i j Hi Hj)|].
        now apply pfa_error_mono.
    - apply IH. intros; apply H; simpl; auto.
  Qed.

  Lemma gep_close_all : me = DRGEP ->
    Forall2 (close_to (length names) (coefficient_error n)) (fmatrices DRGEP sol rops) (xmatrices DRGEP sol rops).
  Proof.
    intros Em. unfold fmatrices, xmatrices.
    assert (forall rop, In rop rops -> moderate (fkin_of sol rop) /\ (length rop <= n)%nat /\
      forall a, (a < n_species sol)%nat -> not_tiny (drgep_total (exact (fkin_of sol rop)) a)) as H.
    { intros rop HR. split; [now apply (ta_rates _ _ _ TA)|]. pose proof (ME rop HR) as X. rewrite Em in X. exact X. }
    revert H. generalize rops as l. induction l as [|rop l IH]; intros H; simpl; constructor.
    - destruct (H rop (or_introl eq_refl)) as (A & L & NT). intros i j Hi Hj. rewrite len_names in *.
      eapply Qle_trans; [exact (gep_close (fkin_of sol rop) (n_species sol) A eq_refl NT i j Hi Hj)|].
      now apply error_mono.
    - apply IH. intros; apply H; simpl; auto.
  Qed.

  Lemma xgep_unit Mx : In Mx (xmatrices DRGEP sol rops) -> unit_matrix (length names) Mx.
  Proof.
    intros H. apply in_map_iff in H. destruct H as (rop & <- & _). intros i j Hi Hj. rewrite len_names in *.
    apply drgep_bounds; auto.
  Qed.

  Lemma ximp_has s : In s names -> exists m, is_importance names (j_targets J) (xmatrices DRGEP sol rops) s m.
  Proof.
    intros Hs. destruct (importance_spec names (j_targets J) (xmatrices DRGEP sol rops)
                (proj1 (fs_wf _ _ _ _ _ _ _ ST)) (proj2 (fs_job _ _ _ _ _ _ _ ST)) xgep_unit) as (r & N & _ & K & B).
    rewrite <- K in Hs. apply dget_some_key in Hs. destruct Hs as (c & Hc). exists c. now apply B.
  Qed.

  Lemma imp_dist s c m : me = DRGEP -> In s names ->
    is_fimportance names (j_targets J) (fmatrices DRGEP sol rops) s c ->
    is_importance names (j_targets J) (xmatrices DRGEP sol rops) s m -> (Qabs (b64_val c - m) <= e)%Q.
  Proof.
    intros Em Hs Hc Hm. destruct (fimp_unit s c Hs Hc) as (d & U & Hd & E).
    assert (names <> nil) as NN by (intros Z; rewrite Z in Hs; destruct Hs).
    rewrite E. pose proof (importance_close_Q names (j_targets J) _ _ (coefficient_error n) s d m NN
      (coefficient_error_nn n) (drgep_funit J sol rops TA) xgep_unit (gep_close_all Em) U Hd Hm) as X.
    rewrite len_names in X. rewrite Em. exact X.
  Qed.

  Lemma forall2_in {A B} (R : A -> B -> Prop) l m x : Forall2 R l m -> In x l -> exists y, In y m /\ R x y.
  Proof. induction 1; simpl; intros []; subst; eauto. destruct IHForall2 as (z & Z1 & Z2); eauto. Qed.
  Lemma forall2_in' {A B} (R : A -> B -> Prop) l m y : Forall2 R l m -> In y m -> exists x, In x l /\ R x y.
  Proof. induction 1; simpl; intros []; subst; eauto. destruct IHForall2 as (z & Z1 & Z2); eauto. Qed.

  Lemma exact_then_float t s : In s names -> (0 < b64_val t)%Q -> XK (b64_val t + e) s -> FK t s.
  Proof.
    intros Hs Ht. pose proof gbound_nn as E0.
    assert (me <> DRGEP -> (exists Mx tgt, In Mx (xmatrices me sol rops) /\ In tgt (j_targets J) /\
              reach names Mx (b64_val t + e) tgt s) ->
            exists F tgt, In F (fmatrices me sol rops) /\ In tgt (j_targets J) /\ freach names F t tgt s) as G.
    { intros Nm (Mx & tgt & H1 & H2 & H3).
      destruct (forall2_in' _ _ _ _ (graph_close Nm) H1) as (F & HF & CF).
      exists F, tgt. split; auto. split; auto. eapply exact_freach; eauto. }
    pose proof (fun c m Em => imp_dist s c m Em Hs) as ID.
    unfold fkept, xkept. intros [H|H]; [now left|right]. destruct me.
    - apply G; auto; discriminate.
    - apply G; auto; discriminate.
    - destruct H as (m & Hm & L). destruct (fimp_has s Hs) as (c & U & Hc). exists c. split; auto.
      pose proof (ID c m eq_refl Hc Hm) as D. apply Qabs_Qle_condition in D. lra.
  Qed.

  Lemma float_then_exact t s : In s names -> (e < b64_val t)%Q -> FK t s -> XK (b64_val t - e) s.
  Proof.
    intros Hs Ht.
    assert (me <> DRGEP -> (exists F tgt, In F (fmatrices me sol rops) /\ In tgt (j_targets J) /\ freach names F t tgt s) ->
            exists Mx tgt, In Mx (xmatrices me sol rops) /\ In tgt (j_targets J) /\
              reach names Mx (b64_val t - e) tgt s) as G.
    { intros Nm (F & tgt & H1 & H2 & H3).
      destruct (forall2_in _ _ _ _ (graph_close Nm) H1) as (Mx & HM & CM).
      exists Mx, tgt. split; auto. split; auto. eapply freach_exact; eauto. }
    pose proof (fun c m Em => imp_dist s c m Em Hs) as ID.
    unfold fkept, xkept. intros [H|H]; [now left|right]. destruct me.
    - apply G; auto; discriminate.
    - apply G; auto; discriminate.
    - destruct H as (c & Hc & L). destruct (ximp_has s Hs) as (m & Hm). exists m. split; auto.
      pose proof (ID c m eq_refl Hc Hm) as D. apply Qabs_Qle_condition in D. lra.
  Qed.

  Lemma xkept_antitone t t' s : (t <= t')%Q -> XK t' s -> XK t s.
  Proof.
    intros L. unfold xkept. destruct me.
    - apply gkept_antitone; auto.
    - apply gkept_antitone; auto.
    - intros [H|(m & H & H')]; [now left|right]. exists m. split; auto. lra.
  Qed.

  Lemma xkept_between a b : (a <= b)%Q ->
    (forall v, xcoefficient me J sol rops v -> (a <= v)%Q -> (b <= v)%Q) -> forall s, XK a s <-> XK b s.
  Proof.
    intros L H s. split; [|apply xkept_antitone; auto].
    assert (forall Ms, (forall Mx i j, In Mx Ms -> (a <= mget Mx i j)%Q -> (b <= mget Mx i j)%Q) ->
      gkept J sol Ms a s -> gkept J sol Ms b s) as G.
    { intros Ms HM [S|(Mx & tgt & H1 & H2 & H3)]; [now left|right]. exists Mx, tgt. split; auto. split; auto. clear H2.
      induction H3 as [|y z v R IH X Nz Le]; [now constructor|].
      econstructor; eauto. destruct X as (i & j & _ & _ & Ev). subst v. now apply HM. }
    unfold xcoefficient, xkept in *. destruct me.
    - apply G. intros Mx i j HF. apply H. eauto.
    - apply G. intros Mx i j HF. apply H. eauto.
    - intros [S|(m & Hm & Lm)]; [now left|right]. exists m. split; auto. apply H; eauto.
  Qed.

  Lemma fdriver_exact fuel dfuel r w' : frun me fuel dfuel J smp limit w = (Ok r, w') ->
    exists j k, (j < starts_f me)%nat /\ (forall i, (i < j)%nat -> exceed (start_f i)) /\
      (forall i, (i <= k)%nat -> pass (climb_f j i)) /\ exceed (climb_f j (S k)) /\
      let t := climb_v j k in let d := ((2 # 1) ^ (-49) * t + e)%Q in
      (d < t)%Q ->
      (forall s, In s names -> XK (t + d) s -> In s (species_names (r_model r))) /\
      (forall s, In s (species_names (r_model r)) -> XK (t - d) s) /\
      ((forall v, xcoefficient me J sol rops v -> (d < Qabs (v - t))%Q) -> cut_to J sol (XK t) (r_model r)).
  Proof.
    intros E. destruct (fdriver_scan me J smp w sol sampled rops w1 limit ST TA FA fuel dfuel r w' E)
      as (j & k & d0 & Hj & S1 & S2 & S3 & Ft & Rt & C).
    exists j, k. split; auto. split; auto. split; auto. split; auto. intros t d Hd. fold t in Rt.
    pose proof gbound_nn as E0.
    assert (forall s, In s names -> XK (t + d) s -> FK d0 s) as A1.
    { intros s Hs X. apply exact_then_float; auto; [unfold d in Hd; lra|].
      eapply xkept_antitone; [|exact X]. unfold d. lra. }
    assert (forall s, In s names -> FK d0 s -> XK (t - d) s) as A2.
    { intros s Hs X. apply float_then_exact in X; auto; [|unfold d in Hd; lra].
      eapply xkept_antitone; [|exact X]. unfold d. lra. }
    split; [intros s Hs X; apply (cut_has _ _ _ _ _ C); auto|]. split.
    - intros s Hs. destruct C as (rm & R & C). apply (cut_names J sol rm (r_model r) C) in Hs. destruct Hs as [Hs Ns].
      apply A2; auto. rewrite (R s Hs) in Ns.
      assert (FK d0 s \/ ~ FK d0 s) as [F|F]; [|exact F|contradiction].
      rewrite <- vkept_iff. destruct (in_dec string_dec s rm) as [I|I].
      + apply (R s Hs) in I. right. now rewrite vkept_iff.
      + left. rewrite vkept_iff. destruct (R s Hs) as [_ X]. tauto.
    - intros NC. eapply cut_to_ext; [|exact C]. intros s Hs.
      assert (forall a b, (t - d <= a)%Q -> (a <= b)%Q -> (b <= t + d)%Q -> (XK a s <-> XK b s)) as B.
      { intros a b H1 H2 H3. apply xkept_between; auto. intros v Hv Lv. specialize (NC v Hv).
        destruct (Qlt_le_dec v b) as [Lb|]; auto. exfalso.
        assert (Qabs (v - t) <= d)%Q as X by (apply Qabs_Qle_condition; split; lra). lra. }
      assert (0 <= d)%Q as D0 by (unfold d; destruct (Qlt_le_dec t 0) as [X|X]; lra).
      split; intros X.
      + apply (B (t - d) t)%Q; auto; lra || (apply A2; auto).
      + apply A1; auto. apply (B t (t + d))%Q; auto; lra.
  Qed.
End Keeps.
