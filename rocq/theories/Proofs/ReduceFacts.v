(** Reduction steps on their own. *)
From Coq Require Import String List QArith Bool Arith Lia Lqa.
From Verif.Base Require Import Py Num XNum Paths.
From Verif.Model Require Import Mech Matrices Graph World Metrics Drivers.
From Verif.Spec Require Import TrimSpec GraphSpec DriverSpec.
From Verif.Proofs Require Import PyFacts NumFacts TrimFacts MatrixFacts DfsFacts GraphMore ImportanceFacts
  StepFacts StepInst LoopFacts RunFacts.
Import ListNotations.
Local Open Scope string_scope.

Section Reduce.
  Variables (me : method) (dfuel : nat) (J : job) (sol : mech) (rops : list (list Q)) (sampled : list xnum).
  Hypothesis WF : wf_mech sol.
  Hypothesis JOB : job_ok J sol.
  Notation red := (reduce me dfuel J sol rops sampled).
  Notation K := (kept me J sol rops).

  Lemma reduce_search t prev w r w' : holds w (j_file J) (j_phase J) sol ->
    red t prev w = (Ok r, w') -> search_ends me dfuel J sol rops.
  Proof.
    intros _ E Em. subst me. unfold reduce, mbind, mlift in E.
    destruct (get_importance_coeffs _ _ _ _) as [imp| |]; try discriminate. eauto.
  Qed.

  Lemma search_imp : search_ends me dfuel J sol rops -> exists imp, me = DRGEP ->
    get_importance_coeffs dfuel (species_names sol) (j_targets J) (matrices DRGEP sol rops) = Ok imp.
  Proof.
    intros SE. destruct me; try (exists nil; discriminate). destruct (SE eq_refl) as [imp Hi]. exists imp. auto.
  Qed.

  Lemma reduce_fresh t w r w' : holds w (j_file J) (j_phase J) sol ->
    red t None w = (Ok r, w') ->
    cut_to J sol (K t) (r_model r) /\ error_of (j_conds J) sampled (r_model r) = Ok (r_error r) /\
    r_file r = out_file J (n_species (r_model r)) /\ limbo_spec me J sol rops (r_limbo r) /\
    wrote w (r_file r) (r_model r) w'.
  Proof.
    intros H E. pose proof (search_imp (reduce_search _ _ _ _ _ H E)) as I.
    destruct (reduce_is_step me dfuel J sol rops sampled WF (proj2 JOB) I) as (short & lb & S1 & _ & _ & _ & _ & S6).
    destruct (step_none J sol sampled _ _ _ _ S1 _ _ _ _ H E) as (C & Er & F & L & W).
    auto 10.
  Qed.

  Lemma reduce_species t w r w' s : holds w (j_file J) (j_phase J) sol ->
    red t None w = (Ok r, w') ->
    (In s (species_names (r_model r)) <-> In s (species_names sol) /\ K t s).
  Proof.
    intros H E. pose proof (search_imp (reduce_search _ _ _ _ _ H E)) as I.
    destruct (reduce_is_step me dfuel J sol rops sampled WF (proj2 JOB) I) as (short & lb & S1 & _).
    destruct (reduce_fresh t w r w' H E) as ((rm & R & C) & _).
    rewrite (cut_names J sol rm _ C s). destruct (S1 t) as (rm' & R' & _). split; intros [Hs X]; split; auto.
    - apply (R' s Hs). intros Y. apply X. apply (R s Hs). intros Ks. apply (R' s Hs) in Ks. auto.
    - rewrite (R s Hs). tauto.
  Qed.

  Lemma reduce_antitone t t' w wa r r' w1 w2 : (t <= t')%Q ->
    holds w (j_file J) (j_phase J) sol -> holds wa (j_file J) (j_phase J) sol ->
    red t None w = (Ok r, w1) -> red t' None wa = (Ok r', w2) ->
    incl (species_names (r_model r')) (species_names (r_model r)).
  Proof.
    intros L H Ha E E' s Hs. apply (reduce_species _ _ _ _ s Ha E') in Hs. destruct Hs as [Hs Ks].
    apply (reduce_species _ _ _ _ s H E). split; auto. eapply kept_antitone; eauto.
  Qed.

  Lemma target_kept t s : rops <> nil -> (me = DRGEP -> (t <= 1)%Q) -> In s (j_targets J) -> K t s.
  Proof.
    intros NE T1 Hs. pose proof (proj2 JOB s Hs) as Hn. right.
    assert (exists rop, In rop rops) as [rop Hr] by (destruct rops; [contradiction|eexists; left; reflexivity]).
    assert (forall Mx, In Mx (matrices me sol rops) -> exists Mx tgt, In Mx (matrices me sol rops) /\
      In tgt (j_targets J) /\ reach (species_names sol) Mx t tgt s) as G.
    { intros Mx H. exists Mx, s. split; auto. split; auto. now constructor. }
    destruct me eqn:Em.
    - eapply G. unfold matrices. apply in_map_iff. eauto.
    - eapply G. unfold matrices. apply in_map_iff. eauto.
    - destruct (drgep_search_total (species_names sol) (j_targets J) (map (kin_of sol) rops))
        as (imp & N & _ & Dk & B).
      + apply (proj1 WF).
      + apply (proj2 JOB).
      + intros Kk Hk. apply in_map_iff in Hk. destruct Hk as (rp & <- & _). simpl.
        unfold species_names. now rewrite map_length.
      + rewrite map_map in B. change (map (fun x => create_drgep_matrix (kin_of sol x)) rops) with (matrices DRGEP sol rops) in B.
        rewrite <- Dk in Hn. apply dget_some_key in Hn. destruct Hn as [v Hv]. exists v.
        pose proof (B _ _ Hv) as Bv. split; auto.
        destruct (importance_range_lemma _ _ _ _ _ (drgep_unit sol rops) Bv) as [_ E1].
        rewrite E1; auto.
        * unfold matrices. destruct rops; [contradiction|discriminate].
        * apply (proj2 JOB); auto.
  Qed.

  Lemma reduce_keeps_targets t w r w' s : holds w (j_file J) (j_phase J) sol ->
    red t None w = (Ok r, w') -> rops <> nil -> (me = DRGEP -> (t <= 1)%Q) ->
    In s (j_targets J) -> In s (species_names (r_model r)).
  Proof.
    intros H E NE T1 Hs. apply (reduce_species _ _ _ _ s H E). split.
    - now apply (proj2 JOB).
    - now apply target_kept.
  Qed.

  Lemma reduce_keeps_safe t w r w' s : holds w (j_file J) (j_phase J) sol ->
    red t None w = (Ok r, w') -> In s (j_safe J) -> In s (species_names sol) -> In s (species_names (r_model r)).
  Proof. intros H E Hs Hn. apply (reduce_species _ _ _ _ s H E). split; auto. now left. Qed.

  Lemma reduce_drops_target t w r w' s : holds w (j_file J) (j_phase J) sol ->
    red t None w = (Ok r, w') ->
    (me = DRGEP /\ (1 < t)%Q) \/ (me <> DRGEP /\ rops = nil) \/ (me = DRGEP /\ rops = nil /\ (0 < t)%Q) ->
    (In s (species_names (r_model r)) <-> In s (species_names sol) /\ In s (j_safe J)).
  Proof.
    intros H E D. rewrite (reduce_species _ _ _ _ s H E).
    assert (K t s <-> In s (j_safe J)) as ->; [|reflexivity].
    destruct D as [[-> T1]|[[Me Ro]|(-> & Ro & T0)]].
    - now apply high_drgep.
    - unfold kept, matrices. rewrite Ro. destruct me; [| |contradiction]; simpl; split; auto;
        intros [X|(Mx & tg & [] & _)]; auto.
    - unfold kept, matrices. rewrite Ro. simpl. split; auto. intros [X|(m & [_ [(Mx & tg & p & [] & _)|[_ Z]]] & L)]; auto. lra.
  Qed.

  Lemma reduce_reuse t t' p w r w' :
    search_ends me dfuel J sol rops ->
    history red (j_file J) (j_phase J) sol t p -> (t <= t')%Q ->
    holds w (j_file J) (j_phase J) sol -> red t' (Some p) w = (Ok r, w') ->
    (exists m, cut_to J sol (K t') m /\ same_content m (r_model r)) /\
    (forall r0 w0 wa, holds wa (j_file J) (j_phase J) sol -> red t' None wa = (Ok r0, w0) ->
      same_content (r_model r0) (r_model r)).
  Proof.
    intros SE Hi L H E.
    destruct (reduce_is_step me dfuel J sol rops sampled WF (proj2 JOB) (search_imp SE))
      as (short & lb & S1 & S2 & _).
    assert (m_species sol <> nil) as NE.
    { destruct JOB as [N I]. destruct (j_targets J) as [|t0 l]; [contradiction|].
      intros Z. specialize (I t0 (or_introl eq_refl)). unfold species_names in I. rewrite Z in I. destruct I. }
    assert (inv J sol K t' p) as I.
    { eapply inv_mono; [|exact L|].
      - intros; eapply kept_antitone; eauto.
      - eapply history_inv; eauto. intros; eapply kept_antitone; eauto. }
    destruct (step_content J sol sampled red K short lb S1 S2 WF t' p w r w' H I E) as [_ (m & C & S)].
    split; [eauto|]. intros r0 w0 wa Ha E0. destruct (reduce_fresh _ _ _ _ Ha E0) as (C0 & _).
    now rewrite (cut_to_unique _ _ _ _ _ WF C0 C).
  Qed.
End Reduce.

Lemma drg_limbo_targets dfuel J sol rops sampled t w r w' :
  wf_mech sol -> job_ok J sol -> holds w (j_file J) (j_phase J) sol ->
  reduce DRG dfuel J sol rops sampled t None w = (Ok r, w') ->
  truthy (j_upper J) = true -> rops <> nil ->
  incl (j_targets J) (limbo_of w' r).
Proof.
  intros WF Jo H E U NE s Hs.
  destruct (reduce_fresh DRG dfuel J sol rops sampled WF Jo t w r w' H E) as (_ & _ & _ & (ss & El & Sp) & _).
  unfold limbo_of. rewrite El. rewrite U in Sp. apply Sp.
  destruct rops as [|rop l]; [contradiction|]. exists (create_drg_matrix (kin_of sol rop)), s.
  split; [left; reflexivity|]. split; auto. constructor. now apply (proj2 Jo).
Qed.
