(** The threshold loop, for any reduction step of the common shape. *)
From Coq Require Import String List QArith Qround Bool Arith Lia Lqa.
From Verif.Base Require Import Py Num XNum Paths.
From Verif.Model Require Import Mech Matrices Graph World Metrics Drivers.
From Verif.Spec Require Import TrimSpec GraphSpec DriverSpec.
From Verif.Proofs Require Import PyFacts NumFacts TrimFacts StepFacts.
Import ListNotations.
Local Open Scope string_scope.

(** ** Trimming nothing *)

Lemma filter_all {A} (f : A -> bool) l : (forall x, In x l -> f x = true) -> filter f l = l.
Proof.
  induction l as [|x l IH]; intros H; simpl; auto. rewrite (H x) by (simpl; auto).
  rewrite IH; auto. intros; apply H; simpl; auto.
Qed.

Lemma trim_nothing sol f ph : wf_mech sol -> m_species sol <> nil ->
  exists m, trim_mech sol nil f ph = Ok m /\ same_content m sol.
Proof.
  intros [ND W] NE. unfold trim_mech.
  assert (trim_species sol nil = m_species sol) as E by (apply filter_all; reflexivity).
  rewrite E. fold (species_names sol).
  assert (forall rs, incl rs (m_reactions sol) -> trim_reactions nil (species_names sol) rs = rs) as G.
  { induction rs as [|r rs IH]; intros I; simpl; auto.
    assert (In r (m_reactions sol)) as Ir by (apply I; simpl; auto).
    destruct (W r Ir) as [W1 W2].
    assert (explicit_removed nil r = false) as ->.
    { unfold explicit_removed. destruct (rx_third r) as [tb|]; auto.
      destruct (negb _); auto. destruct (tb_effs tb) as [|[k v] [|]]; auto. }
    assert (all_kept (species_names sol) r = true) as ->.
    { apply all_kept_iff. intros s Hs. apply W1. exact Hs. }
    rewrite IH by (intros x Hx; apply I; simpl; auto). f_equal.
    unfold restrict_third. destruct (rx_third r) as [tb|] eqn:Et; auto.
    rewrite filter_all. { destruct r, tb; simpl in *; subst; reflexivity. }
    intros [k v] Hk. apply str_in_iff. apply W2. exists tb, v. auto. }
  rewrite G by (intros x Hx; auto).
  destruct (m_species sol) as [|s0 l] eqn:Es; [contradiction|]. eexists. split; [reflexivity|].
  unfold same_content. simpl. auto.
Qed.

Lemma same_content_refl m : same_content m m.
Proof. unfold same_content. auto. Qed.
Lemma same_content_sym m m' : same_content m m' -> same_content m' m.
Proof. unfold same_content. intuition. Qed.
Lemma same_content_trans m1 m2 m3 : same_content m1 m2 -> same_content m2 m3 -> same_content m1 m3.
Proof. unfold same_content. intuition congruence. Qed.
Lemma same_content_names m m' : same_content m m' -> species_names m = species_names m'.
Proof. intros (H & _). unfold species_names. now rewrite H. Qed.

Lemma error_blind cs sampled m m' : name_blind cs -> same_content m m' ->
  error_of cs sampled m = error_of cs sampled m'.
Proof.
  intros B S. unfold error_of, metrics_of. f_equal. f_equal. apply mapM_ext.
  intros c Hc. now apply B.
Qed.

(** ** Cuts *)

Lemma cut_names J sol removed m : cut_removing J sol removed = Ok m ->
  forall s, In s (species_names m) <-> In s (species_names sol) /\ ~ In s removed.
Proof.
  intros H s. unfold cut_removing in H. destruct (trim_species_spec _ _ _ _ _ H) as [_ S].
  unfold species_names. split.
  - intros I. apply in_map_iff in I. destruct I as (x & <- & I). apply S in I. destruct I as [I1 I2].
    split; auto. now apply in_map.
  - intros [I1 I2]. apply in_map_iff in I1. destruct I1 as (x & <- & I1). apply in_map. apply S. auto.
Qed.

Lemma cut_names_nodup J sol removed m : NoDup (species_names sol) -> cut_removing J sol removed = Ok m ->
  NoDup (species_names m).
Proof.
  intros ND H. destruct (trim_species_spec _ _ _ _ _ H) as [S _].
  eapply sublist_nodup; [|exact ND]. unfold species_names. now apply sublist_map.
Qed.

Lemma cut_to_unique J sol K m m' : wf_mech sol -> cut_to J sol K m -> cut_to J sol K m' -> m = m'.
Proof.
  intros W (r1 & H1 & E1) (r2 & H2 & E2).
  rewrite (trim_set_only sol r1 r2) in E1; auto; [congruence|].
  intros s Hs. rewrite (H1 s Hs), (H2 s Hs). tauto.
Qed.

Lemma cut_to_ext J sol K K' m : (forall s, In s (species_names sol) -> (K s <-> K' s)) ->
  cut_to J sol K m -> cut_to J sol K' m.
Proof.
  intros H (r & Hr & E). exists r. split; auto. intros s Hs. rewrite (Hr s Hs), (H s Hs). tauto.
Qed.

Lemma wrote_only J w m w' : wrote w (out_file J (n_species m)) m w' -> only_outputs J w w'.
Proof.
  intros [W S]. split; auto. intros g Hg. rewrite W.
  destruct (String.eqb_spec g (out_file J (n_species m))); auto. exfalso. eapply Hg; eauto.
Qed.

Lemma only_refl J w : only_outputs J w w.
Proof. split; auto. Qed.
Lemma only_trans J w1 w2 w3 : only_outputs J w1 w2 -> only_outputs J w2 w3 -> only_outputs J w1 w3.
Proof. intros [A B] [C D]. split; [|congruence]. intros g Hg. rewrite C, A; auto. Qed.

Lemma only_holds J w w' sol : input_apart J -> only_outputs J w w' ->
  holds w (j_file J) (j_phase J) sol -> holds w' (j_file J) (j_phase J) sol.
Proof.
  intros I [O _] (ph & E & P). exists ph. split; auto. rewrite O; [exact E|]. intros n C. apply (I n). auto.
Qed.

Lemma xle_gt a b : xle a b = true -> xgt a b = false.
Proof.
  unfold xgt. destruct a as [p| | |], b as [q| | |]; simpl; try reflexivity; try discriminate. intros H.
  apply Qlt_bool_false. now apply Qle_bool_iff in H.
Qed.

Section Loop.
  Variables (A : arith) (J : job) (sol : mech) (sampled : list xnum).
  Variables (red : Q -> option rmodel -> M rmodel) (K : Q -> string -> Prop).
  Variables (short : Q -> rmodel -> bool) (lb : res limbo) (limit : xnum).
  Hypothesis STEP : is_step J sol sampled red K short lb.
  Hypothesis SHORT : short_sound sol K short.
  Hypothesis MONO : forall t t' s, (t <= t')%Q -> K t' s -> K t s.
  Hypothesis WF : wf_mech sol.
  Hypothesis APART : input_apart J.

  Notation inp w := (holds w (j_file J) (j_phase J) sol).
  Notation err := (error_of (j_conds J) sampled).

  (** *** One step *)

  Lemma step_frame t prev w : inp w -> only_outputs J w (snd (red t prev w)).
  Proof.
    intros H. destruct (STEP t) as (rm & R & S). destruct (S prev w H) as [(p & -> & _ & E)|[_ E]].
    - rewrite E. apply only_refl.
    - destruct (cut_removing J sol rm) as [m|e|]; [|rewrite E; apply only_refl|destruct E].
      destruct E as (w' & W & E). rewrite E. simpl. eapply wrote_only; eauto.
  Qed.

  (** What a full step returns. *)
  Definition fresh (t : Q) (w : world) (r : rmodel) (w' : world) : Prop :=
    cut_to J sol (K t) (r_model r) /\ err (r_model r) = Ok (r_error r) /\
    r_file r = out_file J (n_species (r_model r)) /\ lb = Ok (r_limbo r) /\
    wrote w (r_file r) (r_model r) w'.

  Lemma cut_of_removed t rm m :
    (forall s, In s (species_names sol) -> (~ In s rm <-> K t s)) ->
    cut_removing J sol rm = Ok m -> cut_to J sol (K t) m.
  Proof.
    intros R E. exists rm. split; auto. intros s Hs. rewrite <- (R s Hs).
    destruct (in_dec string_dec s rm); tauto.
  Qed.

  Lemma step_ok t prev w r w' : inp w -> red t prev w = (Ok r, w') ->
    (prev = Some r /\ short t r = true /\ w' = w) \/ fresh t w r w'.
  Proof.
    intros H E. destruct (STEP t) as (rm & R & S). destruct (S prev w H) as [(p & -> & S1 & S2)|[_ S2]].
    - rewrite S2 in E. injection E as <- <-. auto.
    - right. destruct (cut_removing J sol rm) as [m|e|] eqn:C; [|rewrite S2 in E; discriminate|destruct S2].
      destruct S2 as (w1 & W & S2). rewrite S2 in E. injection E as E <-.
      destruct (err m) as [e| |] eqn:Ee; simpl in E; try discriminate.
      destruct lb as [l| |] eqn:El; simpl in E; try discriminate. injection E as <-.
      unfold fresh. simpl. rewrite El. repeat split; auto; try (apply W).
      eapply cut_of_removed; eauto.
  Qed.

  Lemma step_none t w r w' : inp w -> red t None w = (Ok r, w') -> fresh t w r w'.
  Proof. intros H E. destruct (step_ok _ _ _ _ _ H E) as [(C & _)|F]; [discriminate|auto]. Qed.

  Lemma step_raise t prev w e w' : inp w -> red t prev w = (Raise e, w') ->
    e = ValueError \/ lb = Raise e \/ exists m, cut_to J sol (K t) m /\ err m = Raise e.
  Proof.
    intros H E. destruct (STEP t) as (rm & R & S). destruct (S prev w H) as [(p & -> & S1 & S2)|[_ S2]].
    - rewrite S2 in E. discriminate.
    - destruct (cut_removing J sol rm) as [m|e'|] eqn:C; [| |destruct S2].
      + destruct S2 as (w1 & W & S2). rewrite S2 in E. injection E as E <-.
        destruct (err m) as [x| |] eqn:Ee; simpl in E; try discriminate.
        * destruct lb as [l| |] eqn:El; simpl in E; try discriminate. injection E as <-. auto.
        * injection E as <-. right. right. exists m. split; auto. eapply cut_of_removed; eauto.
      + rewrite S2 in E. injection E as <- <-. left. unfold cut_removing, trim_mech in C.
        destruct (trim_species sol rm); congruence.
  Qed.

  (** *** The models passed on from step to step *)

  Definition inv (t : Q) (p : rmodel) : Prop :=
    exists rm m, cut_removing J sol rm = Ok m /\ same_content m (r_model p) /\
      forall s, In s (species_names sol) -> K t s -> ~ In s rm.

  Lemma inv_start t f e l : m_species sol <> nil -> inv t (mkRM sol f e l).
  Proof.
    intros NE. destruct (trim_nothing sol ("reduced_" ++ j_file J) (j_phase J) WF NE) as (m & E & S).
    exists nil, m. split; auto.
  Qed.

  Lemma inv_mono t t' p : (t <= t')%Q -> inv t p -> inv t' p.
  Proof.
    intros L (rm & m & E & S & H). exists rm, m. split; auto. split; auto. intros s Hs Ks.
    apply H; auto. eapply MONO; eauto.
  Qed.

  Lemma step_content t p w r w' : inp w -> inv t p -> red t (Some p) w = (Ok r, w') ->
    inv t r /\ exists m, cut_to J sol (K t) m /\ same_content m (r_model r).
  Proof.
    intros H I E. destruct (step_ok _ _ _ _ _ H E) as [(Ep & S & _)|F].
    - injection Ep as ->. split; auto. destruct I as (rm & m & C & SC & IH).
      pose proof (same_content_names _ _ SC) as N. exists m. split; auto.
      exists rm. split; auto. intros s Hs. split.
      + intros I Ks. eapply IH; eauto.
      + intros NK. destruct (in_dec string_dec s rm) as [|n]; auto. exfalso. apply NK.
        apply (SHORT t r S).
        * rewrite <- N. eapply cut_names_nodup; eauto. apply WF.
        * intros x Hx. rewrite <- N in Hx. apply (cut_names J sol rm m C) in Hx. tauto.
        * intros x Hx Kx. rewrite <- N. apply (cut_names J sol rm m C). split; auto.
        * rewrite <- N. apply (cut_names J sol rm m C). auto.
    - destruct F as (C & _ & _ & _ & _). split; [|exists (r_model r); split; auto; apply same_content_refl].
      destruct C as (rm & R & C). exists rm, (r_model r). split; auto. split; [apply same_content_refl|].
      intros s Hs Ks I0. apply (R s Hs) in I0. auto.
  Qed.

  Lemma history_inv t p : m_species sol <> nil -> history red (j_file J) (j_phase J) sol t p -> inv t p.
  Proof.
    intros NE H. induction H as [t e l|t t' p w r w' H IH L Hw E].
    - now apply inv_start.
    - eapply step_content; eauto. eapply inv_mono; eauto.
  Qed.

  (** *** Files *)

  Lemma loop_frame floor : forall fuel s w, inp w ->
    only_outputs J w (snd (thr_loop A fuel red limit floor s w)).
  Proof.
    induction fuel as [|fuel IH]; intros s w H; simpl; destruct (xle (l_err s) limit);
      try apply only_refl.
    unfold mbind at 1. pose proof (step_frame (A_val A (l_thr s)) (Some (l_prev s)) w H) as F.
    destruct (red (A_val A (l_thr s)) (Some (l_prev s)) w) as [[r|e|] w1] eqn:E; simpl in F; auto.
    assert (inp w1) as H1 by (eapply only_holds; eauto).
    destruct (l_first s && xgt (r_error r) limit)%bool.
    - destruct (floor _); [auto|]. eapply only_trans; [exact F|]. now apply IH.
    - destruct (Nat.eqb_spec (n_species (r_model (l_prev s))) (n_species (r_model r))) as [En|En].
      + unfold mbind, mret. eapply only_trans; [exact F|]. now apply IH.
      + destruct (step_ok _ _ _ _ _ H E) as [(Ep & _ & _)|Fr].
        { injection Ep as Ep. rewrite Ep in En. contradiction. }
        destruct Fr as (_ & _ & Ff & _ & Fw).
        unfold mbind, remove_file.
        assert (w_fs w1 (r_file r) = Some (FMech [r_model r])) as ->.
        { destruct Fw as [Fw _]. now rewrite Fw, String.eqb_refl. }
        set (w2 := mkWorld (fs_set (r_file r) None (w_fs w1)) (w_shared w1)).
        assert (only_outputs J w1 w2) as O.
        { split; auto. intros g Hg. simpl. unfold fs_set. destruct (String.eqb_spec g (r_file r)); auto.
          exfalso. eapply Hg. rewrite e. exact Ff. }
        eapply only_trans; [exact F|]. eapply only_trans; [exact O|]. apply IH. eapply only_holds; eauto.
  Qed.

  Lemma finish_frame by_last s w : inp w ->
    (forall r, l_last s = Some r -> True) ->
    only_outputs J w (snd (thr_finish A (j_path J) red limit by_last s w)).
  Proof.
    intros H _.
    assert (forall o, only_outputs J w (snd (@write_wrong rmodel (j_path J) o w))) as WW.
    { intros [r|]; unfold write_wrong; [|apply only_refl]. cbv zeta. unfold mbind, is_file.
      destruct (w_fs w (path_join (j_path J) (reduced_name (n_species (r_model r))))) eqn:E; [|apply only_refl].
      unfold remove_file. rewrite E. cbn [snd mraise]. split; [|reflexivity]. intros g Hg. cbn [w_fs]. unfold fs_set.
      destruct (String.eqb_spec g (path_join (j_path J) (reduced_name (n_species (r_model r))))); auto.
      exfalso. eapply Hg. exact e. }
    unfold thr_finish. destruct by_last.
    - destruct (l_last s) as [r|]; [|apply only_refl].
      destruct (xgt (r_error r) limit); [now apply step_frame|apply WW].
    - destruct (xgt (l_err s) limit); [now apply step_frame|apply WW].
  Qed.

  Lemma run_frame floor fuel by_last w : inp w ->
    only_outputs J w (snd (thr_run A fuel J sol red limit floor by_last w)).
  Proof.
    intros H. unfold thr_run, mbind. pose proof (loop_frame floor fuel (thr_init A sol (j_file J)) w H) as F.
    destruct (thr_loop A fuel red limit floor (thr_init A sol (j_file J)) w) as [[s|e|] w1]; simpl in F; auto.
    eapply only_trans; [exact F|]. apply finish_frame; auto. eapply only_holds; eauto.
  Qed.

  (** A normal return comes from a full step without previous model. *)
  Lemma run_returns floor fuel by_last w r w' : inp w ->
    thr_run A fuel J sol red limit floor by_last w = (Ok r, w') ->
    exists s w1, thr_loop A fuel red limit floor (thr_init A sol (j_file J)) w = (Ok s, w1) /\
      inp w1 /\ fresh (A_val A (A_back A (l_thr s) (l_inc s))) w1 r w' /\
      (by_last = false -> xgt (l_err s) limit = true) /\
      (by_last = true -> exists q, l_last s = Some q /\ xgt (r_error q) limit = true).
  Proof.
    intros H E. unfold thr_run, mbind in E.
    pose proof (loop_frame floor fuel (thr_init A sol (j_file J)) w H) as F.
    destruct (thr_loop A fuel red limit floor (thr_init A sol (j_file J)) w) as [[s|e|] w1] eqn:L; simpl in F; try discriminate.
    assert (inp w1) as H1 by (eapply only_holds; eauto).
    exists s, w1. split; auto. split; auto.
    assert (forall o, @write_wrong rmodel (j_path J) o w1 = (Ok r, w') -> False) as WW.
    { intros [q|]; unfold write_wrong; [|discriminate]. cbv zeta. unfold mbind, is_file.
      destruct (w_fs w1 (path_join (j_path J) (reduced_name (n_species (r_model q))))) eqn:Ef; [|discriminate].
      unfold remove_file. rewrite Ef. discriminate. }
    unfold thr_finish in E. destruct by_last.
    - destruct (l_last s) as [q|] eqn:Lq; [|discriminate].
      destruct (xgt (r_error q) limit) eqn:G; [|exfalso; eapply WW; eauto].
      split; [now apply step_none|]. split; [discriminate|]. eauto.
    - destruct (xgt (l_err s) limit) eqn:G; [|exfalso; eapply WW; eauto].
      split; [now apply step_none|]. split; [auto|discriminate].
  Qed.

  (** *** Errors *)

  Hypothesis BLIND : name_blind (j_conds J).

  (** The model of [p] evaluates within the limit. *)
  Definition sc (p : rmodel) : Prop := exists e, err (r_model p) = Ok e /\ xle e limit = true.

  Notation pass t := (passes J sol sampled limit (K t)).
  Notation exceed t := (exceeds J sol sampled limit (K t)).

  Lemma K_eq t t' s : (t == t')%Q -> (K t s <-> K t' s).
  Proof. intros E. split; apply MONO; lra. Qed.

  Lemma pass_eq t t' : (t == t')%Q -> pass t -> pass t'.
  Proof.
    intros E (m & e & C & H). exists m, e. split; auto. eapply cut_to_ext; [|exact C].
    intros s _. now apply K_eq.
  Qed.

  Lemma exceed_eq t t' : (t == t')%Q -> exceed t -> exceed t'.
  Proof.
    intros E (m & e & C & H). exists m, e. split; auto. eapply cut_to_ext; [|exact C].
    intros s _. now apply K_eq.
  Qed.

  Lemma pass_not_exceed t : pass t -> exceed t -> False.
  Proof.
    intros (m & e & C & E & L) (m' & e' & C' & E' & G).
    rewrite (cut_to_unique _ _ _ _ _ WF C C') in E. rewrite E in E'. injection E' as <-.
    apply xle_gt in L. congruence.
  Qed.

  (** A step that reuses an acceptable model, or evaluates within the limit. *)
  Lemma step_pass t p w r w' : inp w -> inv t p -> sc p -> red t (Some p) w = (Ok r, w') ->
    inv t r /\
    ((r = p /\ pass t /\ sc r) \/
     (fresh t w r w' /\ (xle (r_error r) limit = true -> pass t /\ sc r) /\
      (xgt (r_error r) limit = true -> exceed t))).
  Proof.
    intros H I S E. destruct (step_content _ _ _ _ _ H I E) as [I' (m & C & SC)]. split; auto.
    destruct (step_ok _ _ _ _ _ H E) as [(Ep & _ & _)|F].
    - injection Ep as ->. left. split; auto. split; auto. destruct S as (e & Se & L).
      exists m, e. split; auto. rewrite (error_blind _ _ _ _ BLIND SC). auto.
    - right. split; auto. destruct F as (C' & Ee & _). split.
      + intros L. split; [exists (r_model r), (r_error r); auto|exists (r_error r); auto].
      + intros G. exists (r_model r), (r_error r). auto.
  Qed.

  Definition init := mkRM sol (j_file J) (Fin 0) Shared.

  Hypothesis NONEMPTY : m_species sol <> nil.
  (** The detailed model evaluates within the limit. *)
  Hypothesis SOLOK : sc init.
  Hypothesis NONNEG : xle (Fin 0) limit = true.

  Lemma init_inv t : inv t init.
  Proof. now apply inv_start. Qed.

  Section Exact.
    Hypothesis L_add : forall t i, (A_val A (A_add A t i) == A_val A t + A_val A i)%Q.
    Hypothesis L_back : forall t i, (A_val A (A_back A t i) == A_val A t - 2 * A_val A i)%Q.
    Hypothesis L_div : forall t, (A_val A (A_div10 A t) == A_val A t / 10)%Q.

    Definition linv (s : lstate A) : Prop :=
      (0 < A_val A (l_inc s))%Q /\
      if l_first s then l_prev s = init /\ l_err s = Fin 0
      else exists t0, (A_val A (l_thr s) == t0 + A_val A (l_inc s))%Q /\ inv t0 (l_prev s) /\
             l_err s = r_error (l_prev s) /\ l_last s = Some (l_prev s) /\
             (xle (l_err s) limit = true -> pass t0 /\ sc (l_prev s)) /\
             (xgt (l_err s) limit = true -> pass (t0 - A_val A (l_inc s))).

    (** One accepted pass of the loop keeps the invariant. *)
    Lemma linv_next s r w w' : inp w -> linv s -> xle (l_err s) limit = true ->
      red (A_val A (l_thr s)) (Some (l_prev s)) w = (Ok r, w') ->
      (l_first s && xgt (r_error r) limit)%bool = false ->
      linv (mkLS r false (r_error r) (A_add A (l_thr s) (l_inc s)) (l_inc s) (Some r)).
    Proof.
      intros H [P I] L E NF. set (t := A_val A (l_thr s)) in *.
      assert (inv t (l_prev s) /\ sc (l_prev s)) as [Ip Sp].
      { destruct (l_first s).
        - destruct I as [-> _]. split; [apply init_inv|exact SOLOK].
        - destruct I as (t0 & T & It & _ & _ & S & _). split; [|apply S; auto].
          apply inv_mono with t0; auto. lra. }
      destruct (step_pass t _ _ _ _ H Ip Sp E) as [Ir D].
      split; simpl; auto. exists t. rewrite L_add. fold t. split; [lra|]. split; auto. split; auto.
      split; auto. split.
      - intros Lr. destruct D as [(-> & D1 & D2)|(F & D1 & _)]; auto.
      - intros Gr. destruct (l_first s) eqn:Ef; [simpl in NF; congruence|].
        destruct I as (t0 & T & _ & _ & _ & S & _). destruct (S L) as [S1 _].
        apply pass_eq with t0; auto. lra.
    Qed.

    Lemma loop_inv floor : forall fuel s w s' w', inp w -> linv s ->
      thr_loop A fuel red limit floor s w = (Ok s', w') -> linv s' /\ xle (l_err s') limit = false.
    Proof.
      induction fuel as [|fuel IH]; intros s w s' w' H I E; simpl in E;
        destruct (xle (l_err s) limit) eqn:L; try (injection E as <- <-; auto; fail); [discriminate|].
      unfold mbind at 1 in E.
      pose proof (step_frame (A_val A (l_thr s)) (Some (l_prev s)) w H) as F.
      destruct (red (A_val A (l_thr s)) (Some (l_prev s)) w) as [[r|e|] w1] eqn:R; simpl in F; try discriminate.
      assert (inp w1) as H1 by (eapply only_holds; eauto).
      destruct (l_first s && xgt (r_error r) limit)%bool eqn:C.
      - destruct (floor _); [discriminate|]. eapply IH; [exact H1| |exact E].
        destruct I as [P I]. apply andb_true_iff in C. destruct C as [C _]. rewrite C in I.
        split; cbn [l_inc l_first l_prev l_err].
        + rewrite L_div. apply Qlt_shift_div_l; lra.
        + rewrite C. tauto.
      - pose proof (linv_next s r w w1 H I L R C) as I2.
        destruct (Nat.eqb (n_species (r_model (l_prev s))) (n_species (r_model r))) eqn:En.
        + unfold mbind, mret in E. eapply IH; eauto.
        + unfold mbind in E. destruct (remove_file (r_file r) w1) as [[[]|e|] w2] eqn:Rm; try discriminate.
          assert (inp w2) as H2.
          { pose proof (loop_frame floor 1 s w H) as O. cbn [thr_loop] in O. rewrite L in O.
            unfold mbind in O. rewrite R, C, En, Rm in O. cbn [thr_loop snd] in O.
            eapply only_holds; [exact APART| |exact H].
            match type of O with context [if ?b then _ else _] => destruct b end; exact O. }
          eapply IH; eauto.
    Qed.

    Lemma run_within floor fuel by_last w r w' : inp w ->
      (0 < A_val A (A_start A))%Q ->
      thr_run A fuel J sol red limit floor by_last w = (Ok r, w') ->
      xle (r_error r) limit = true /\ err (r_model r) = Ok (r_error r).
    Proof.
      intros H P E. destruct (run_returns floor fuel by_last w r w' H E) as (s & w1 & L & H1 & F & B1 & B2).
      assert (linv (thr_init A sol (j_file J))) as I0 by (split; simpl; auto).
      destruct (loop_inv floor _ _ _ _ _ H I0 L) as [[Pi I] X].
      destruct (l_first s).
      { destruct I as [_ I]. rewrite I in X. congruence. }
      destruct I as (t0 & T & _ & Ee & El & _ & G).
      assert (xgt (l_err s) limit = true) as Gt.
      { destruct by_last; [|auto]. destruct (B2 eq_refl) as (q & Q1 & Q2). rewrite El in Q1.
        injection Q1 as <-. congruence. }
      specialize (G Gt). destruct F as (C & Er & _). split; auto.
      assert (pass (A_val A (A_back A (l_thr s) (l_inc s)))) as (m & e & C' & E' & Le).
      { eapply pass_eq; [|exact G]. rewrite L_back. lra. }
      rewrite (cut_to_unique _ _ _ _ _ WF C C') in Er. rewrite Er in E'. now injection E' as ->.
    Qed.

    (** *** The thresholds that were tried *)

    Definition st (j : nat) : Q := Nat.iter j (fun t => t / 10)%Q (A_val A (A_start A)).

    Definition finv (s : lstate A) : Prop :=
      exists j, (A_val A (l_inc s) == st j)%Q /\ (forall i, (i < j)%nat -> exceed (st i)) /\
        if l_first s then (A_val A (l_thr s) == st j)%Q
        else exists n, (A_val A (l_thr s) == times (S (S n)) (st j))%Q /\
               (forall i, (1 <= i <= n)%nat -> pass (times i (st j))) /\
               (xle (l_err s) limit = true -> pass (times (S n) (st j))) /\
               (xgt (l_err s) limit = true -> (1 <= n)%nat /\ exceed (times (S n) (st j))).

    Lemma times_S n q : (times (S n) q == times n q + q)%Q.
    Proof.
      unfold times. rewrite Nat2Z.inj_succ. unfold Z.succ. rewrite inject_Z_plus.
      change (inject_Z 1) with 1%Q. ring.
    Qed.
    Lemma times_1 q : (times 1 q == q)%Q.
    Proof. unfold times. change (inject_Z (Z.of_nat 1)) with 1%Q. ring. Qed.

    Lemma finv_next s r w w' : inp w -> linv s -> finv s -> xle (l_err s) limit = true ->
      red (A_val A (l_thr s)) (Some (l_prev s)) w = (Ok r, w') ->
      if (l_first s && xgt (r_error r) limit)%bool
      then finv (mkLS (l_prev s) (l_first s) (Fin 0) (A_div10 A (l_thr s)) (A_div10 A (l_inc s)) (Some r))
      else finv (mkLS r false (r_error r) (A_add A (l_thr s) (l_inc s)) (l_inc s) (Some r)).
    Proof.
      intros H [P I] (j & Ij & Fj & FI) L E. set (t := A_val A (l_thr s)) in *.
      assert (inv t (l_prev s) /\ sc (l_prev s)) as [Ip Sp].
      { destruct (l_first s).
        - destruct I as [-> _]. split; [apply init_inv|exact SOLOK].
        - destruct I as (t0 & T & It & _ & _ & S & _). split; [|apply S; auto].
          apply inv_mono with t0; auto. lra. }
      destruct (step_pass t _ _ _ _ H Ip Sp E) as [Ir D].
      assert (xle (r_error r) limit = true -> pass t) as D1.
      { intros X. destruct D as [(-> & D & _)|(_ & D & _)]; auto. apply D; auto. }
      assert (xgt (r_error r) limit = true -> exceed t) as D2.
      { intros X. destruct D as [(-> & _ & _)|(_ & _ & D)]; auto. exfalso.
        destruct (l_first s).
        - destruct I as [I _]. rewrite I in X. pose proof (xle_gt _ _ NONNEG) as Y. unfold init in X. cbn [r_error] in X. congruence.
        - destruct I as (t0 & _ & _ & Ee & _). rewrite Ee in L. apply xle_gt in L. congruence. }
      clear D.
      destruct (l_first s) eqn:Ef; simpl andb; cbv iota.
      - destruct (xgt (r_error r) limit) eqn:G.
        + exists (S j). cbn [l_first l_inc l_thr l_err]. split; [|split].
          * rewrite L_div, Ij. reflexivity.
          * intros i Hi. destruct (Nat.eq_dec i j) as [->|]; [|apply Fj; lia].
            eapply exceed_eq; [exact FI|]. auto.
          * rewrite L_div. fold t. rewrite FI. reflexivity.
        + exists j. cbn [l_first l_inc l_thr l_err]. split; auto. split; auto. exists 0%nat.
          split; [|split; [|split]].
          * rewrite L_add. fold t. rewrite FI, Ij, (times_S 1), times_1. reflexivity.
          * intros i Hi. lia.
          * intros X. eapply pass_eq; [|apply D1, X]. rewrite times_1. auto.
          * congruence.
      - destruct FI as (n & Tn & Pn & Ps & _).
        exists j. cbn [l_first l_inc l_thr l_err]. split; auto. split; auto. exists (S n).
        split; [|split; [|split]].
        + rewrite L_add. fold t. rewrite Tn, Ij, (times_S (S (S n))). reflexivity.
        + intros i Hi. destruct (Nat.eq_dec i (S n)) as [->|]; [auto|]. apply Pn. lia.
        + intros X. eapply pass_eq; [exact Tn|]. auto.
        + intros X. split; [lia|]. eapply exceed_eq; [exact Tn|]. auto.
    Qed.

    Lemma loop_finv floor : forall fuel s w s' w', inp w -> linv s -> finv s ->
      thr_loop A fuel red limit floor s w = (Ok s', w') -> finv s'.
    Proof.
      induction fuel as [|fuel IH]; intros s w s' w' H I FI E; simpl in E;
        destruct (xle (l_err s) limit) eqn:L; try (injection E as <- <-; auto; fail); [discriminate|].
      unfold mbind at 1 in E.
      pose proof (step_frame (A_val A (l_thr s)) (Some (l_prev s)) w H) as F.
      destruct (red (A_val A (l_thr s)) (Some (l_prev s)) w) as [[r|e|] w1] eqn:R; simpl in F; try discriminate.
      assert (inp w1) as H1 by (eapply only_holds; eauto).
      pose proof (finv_next s r w w1 H I FI L R) as FN.
      destruct (l_first s && xgt (r_error r) limit)%bool eqn:C.
      - destruct (floor _); [discriminate|]. eapply IH; [exact H1| |exact FN|exact E].
        destruct I as [P I]. apply andb_true_iff in C. destruct C as [C _]. rewrite C in I.
        split; cbn [l_inc l_first l_prev l_err].
        + rewrite L_div. apply Qlt_shift_div_l; lra.
        + rewrite C. tauto.
      - pose proof (linv_next s r w w1 H I L R C) as I2.
        destruct (Nat.eqb (n_species (r_model (l_prev s))) (n_species (r_model r))) eqn:En.
        + unfold mbind, mret in E. eapply IH; eauto.
        + unfold mbind in E. destruct (remove_file (r_file r) w1) as [[[]|e|] w2] eqn:Rm; try discriminate.
          assert (inp w2) as H2.
          { pose proof (loop_frame floor 1 s w H) as O. cbn [thr_loop] in O. rewrite L in O.
            unfold mbind in O. rewrite R, C, En, Rm in O. cbn [thr_loop snd] in O.
            eapply only_holds; [exact APART| |exact H].
            match type of O with context [if ?b then _ else _] => destruct b end; exact O. }
          eapply IH; eauto.
    Qed.

    (** The result is the model of the last threshold before the first that
        exceeds the limit. *)
    Lemma run_scan floor fuel by_last w r w' : inp w ->
      (0 < A_val A (A_start A))%Q ->
      thr_run A fuel J sol red limit floor by_last w = (Ok r, w') ->
      exists j n, (forall i, (i < j)%nat -> exceed (st i)) /\ (1 <= n)%nat /\
        (forall i, (1 <= i <= n)%nat -> pass (times i (st j))) /\
        exceed (times (S n) (st j)) /\ cut_to J sol (K (times n (st j))) (r_model r).
    Proof.
      intros H P E. destruct (run_returns floor fuel by_last w r w' H E) as (s & w1 & L & H1 & F & B1 & B2).
      assert (linv (thr_init A sol (j_file J))) as I0 by (split; simpl; auto).
      assert (finv (thr_init A sol (j_file J))) as F0.
      { exists 0%nat. simpl. split; [reflexivity|]. split; [lia|reflexivity]. }
      destruct (loop_inv floor _ _ _ _ _ H I0 L) as [[Pi I] X].
      pose proof (loop_finv floor _ _ _ _ _ H I0 F0 L) as (j & Ij & Fj & FI).
      destruct (l_first s).
      { destruct I as [_ I]. rewrite I in X. congruence. }
      destruct I as (t0 & T & _ & Ee & El & _ & _).
      assert (xgt (l_err s) limit = true) as Gt.
      { destruct by_last; [|auto]. destruct (B2 eq_refl) as (q & Q1 & Q2). rewrite El in Q1.
        injection Q1 as <-. congruence. }
      destruct FI as (n & Tn & Pn & _ & Ex). destruct (Ex Gt) as [N Ex'].
      exists j, n. do 4 (split; auto). destruct F as (C & _).
      eapply cut_to_ext; [|exact C]. intros x _. apply K_eq.
      rewrite L_back, Tn, Ij, times_S, times_S. ring.
    Qed.

    (** *** Termination *)

    Hypothesis NF : forall m, err m <> NoFuel.
    Hypothesis LF : lb <> NoFuel.
    Variable T : Q.
    (** At high thresholds every model is unacceptable, or nothing is left. *)
    Hypothesis HIGH : forall t, (T <= t)%Q ->
      exceed t \/ (forall s, In s (species_names sol) -> ~ K t s).

    Lemma step_no_nofuel t prev w : inp w -> fst (red t prev w) <> NoFuel.
    Proof.
      intros H. destruct (STEP t) as (rm & R & S). destruct (S prev w H) as [(p & -> & _ & E)|[_ E]].
      - rewrite E. discriminate.
      - destruct (cut_removing J sol rm) as [m|e|]; [|rewrite E; discriminate|destruct E].
        destruct E as (w' & _ & E). rewrite E. simpl. pose proof (NF m).
        destruct (err m); simpl; try discriminate; [|contradiction].
        destruct lb; simpl; try discriminate. contradiction.
    Qed.

    Lemma cut_nonempty t m : cut_to J sol (K t) m ->
      exists s, In s (species_names sol) /\ K t s.
    Proof.
      intros (rm & R & C). unfold trim_mech in C.
      destruct (trim_species sol rm) as [|x l] eqn:Es; [discriminate|].
      assert (In x (trim_species sol rm)) as I by (rewrite Es; simpl; auto).
      apply trim_species_in in I. destruct I as [I1 I2]. exists (sp_name x).
      assert (In (sp_name x) (species_names sol)) as N by (now apply in_map). split; auto.
      destruct (STEP t) as (rm' & R' & _). apply (R' _ N). intros I'.
      apply I2. apply (R _ N). intros Kx. apply (R' _ N) in Kx. auto.
    Qed.

    Lemma tail_terminates floor : forall n fuel s w, inp w -> linv s -> l_first s = false ->
      (T <= A_val A (l_thr s) + inject_Z (Z.of_nat n) * A_val A (l_inc s))%Q ->
      (n + 1 <= fuel)%nat -> fst (thr_loop A fuel red limit floor s w) <> NoFuel.
    Proof.
      induction n as [|n IH]; intros fuel s w H I Fi Hn Lf;
        (destruct fuel as [|fuel]; [lia|]); simpl thr_loop; destruct (xle (l_err s) limit) eqn:L; try discriminate.
      - unfold mbind at 1.
        pose proof (step_no_nofuel (A_val A (l_thr s)) (Some (l_prev s)) w H) as N.
        destruct (red (A_val A (l_thr s)) (Some (l_prev s)) w) as [[r|e|] w1] eqn:R; simpl in N;
          [|discriminate|contradiction].
        rewrite Fi. cbn [andb]. cbv iota.
        assert (xle (r_error r) limit = false) as X.
        { pose proof I as [P I0]. rewrite Fi in I0. destruct I0 as (t0 & T0 & It & _ & _ & S & _).
          destruct (S L) as [_ Sp].
          assert (inv (A_val A (l_thr s)) (l_prev s)) as Ip by (apply inv_mono with t0; auto; lra).
          destruct (step_pass _ _ _ _ _ H Ip Sp R) as [_ D].
          destruct (HIGH (A_val A (l_thr s))) as [Ex|No].
          { simpl in Hn. change (inject_Z 0) with 0%Q in Hn. lra. }
          - destruct D as [(-> & D1 & _)|(F & D1 & _)]; [exfalso; eapply pass_not_exceed; eauto|].
            destruct (xle (r_error r) limit) eqn:Lr; auto. destruct (D1 eq_refl) as [Pt _].
            exfalso. eapply pass_not_exceed; eauto.
          - destruct (step_content _ _ _ _ _ H Ip R) as [_ (m & C & _)].
            destruct (cut_nonempty _ _ C) as (x & X1 & X2). exfalso. eapply No; eauto. }
        assert (forall t i l w2, fst (thr_loop A fuel red limit floor
          (mkLS r false (r_error r) t i l) w2) <> NoFuel) as Y.
        { intros. destruct fuel; simpl; rewrite X; discriminate. }
        destruct (Nat.eqb _ _); unfold mbind.
        + unfold mret at 1. apply Y.
        + destruct (remove_file (r_file r) w1) as [[[]|e|] w2] eqn:Rm; [apply Y|discriminate|].
          unfold remove_file in Rm. destruct (w_fs w1 (r_file r)); discriminate.
      - unfold mbind at 1.
        pose proof (step_no_nofuel (A_val A (l_thr s)) (Some (l_prev s)) w H) as N.
        pose proof (step_frame (A_val A (l_thr s)) (Some (l_prev s)) w H) as F.
        pose proof (loop_frame floor 1 s w H) as O.
        destruct (red (A_val A (l_thr s)) (Some (l_prev s)) w) as [[r|e|] w1] eqn:R; simpl in N, F;
          [|discriminate|contradiction].
        rewrite Fi. cbn [andb]. cbv iota.
        assert (inp w1) as H1 by (eapply only_holds; eauto).
        assert (linv (mkLS r false (r_error r) (A_add A (l_thr s) (l_inc s)) (l_inc s) (Some r))) as I2.
        { apply (linv_next s r w w1 H I L R). rewrite Fi. reflexivity. }
        assert (forall w2, inp w2 -> fst (thr_loop A fuel red limit floor
          (mkLS r false (r_error r) (A_add A (l_thr s) (l_inc s)) (l_inc s) (Some r)) w2) <> NoFuel) as Y.
        { intros w2 H2. apply IH; auto; [|lia]. cbn [l_thr l_inc]. rewrite L_add.
          rewrite Nat2Z.inj_succ in Hn. unfold Z.succ in Hn. rewrite inject_Z_plus in Hn.
          change (inject_Z 1) with 1%Q in Hn. lra. }
        destruct (Nat.eqb _ _) eqn:En; unfold mbind.
        + unfold mret at 1. now apply Y.
        + destruct (remove_file (r_file r) w1) as [[[]|e|] w2] eqn:Rm; [|discriminate|].
          * apply Y. cbn [thr_loop] in O. rewrite L in O. unfold mbind in O.
            rewrite R, Fi in O. cbn [andb] in O. cbv iota in O. rewrite En, Rm in O. cbn [thr_loop snd] in O.
            eapply only_holds; [exact APART| |exact H].
            match type of O with context [if ?b then _ else _] => destruct b end; exact O.
          * unfold remove_file in Rm. destruct (w_fs w1 (r_file r)); discriminate.
    Qed.
  End Exact.

  (** *** Giving up *)

  (** The starting thresholds, until the floor is reached. *)
  Fixpoint attempts (floor : A_t A -> bool) (t : A_t A) (l : list (A_t A)) : Prop :=
    match l with
    | nil => False
    | u :: l' => u = t /\
        match l' with
        | nil => floor (A_div10 A t) = true
        | _ => floor (A_div10 A t) = false /\ attempts floor (A_div10 A t) l'
        end
    end.

  Hypothesis NOEXIT : forall m, err m <> Raise SystemExit.
  Hypothesis LNOEXIT : lb <> Raise SystemExit.

  Lemma step_no_exit t prev w : inp w -> fst (red t prev w) <> Raise SystemExit.
  Proof.
    intros H E. destruct (red t prev w) as [r w'] eqn:R. simpl in E. subst r.
    destruct (step_raise _ _ _ _ _ H R) as [C|[C|(m & _ & C)]]; [discriminate|contradiction|].
    eapply NOEXIT; eauto.
  Qed.

  Lemma tail_no_exit floor : forall fuel s w, inp w -> l_first s = false ->
    fst (thr_loop A fuel red limit floor s w) <> Raise SystemExit.
  Proof.
    induction fuel as [|fuel IH]; intros s w H Fi; simpl; destruct (xle (l_err s) limit) eqn:L; try discriminate.
    unfold mbind at 1. pose proof (step_no_exit (A_val A (l_thr s)) (Some (l_prev s)) w H) as N.
    pose proof (loop_frame floor 1 s w H) as O.
    pose proof (step_frame (A_val A (l_thr s)) (Some (l_prev s)) w H) as F.
    destruct (red (A_val A (l_thr s)) (Some (l_prev s)) w) as [[r|e|] w1] eqn:R; simpl in N, F;
      [|intros C; injection C as ->; now apply N|discriminate].
    assert (inp w1) as H1 by (eapply only_holds; eauto).
    rewrite Fi. cbn [andb]. cbv iota.
    destruct (Nat.eqb _ _) eqn:En; unfold mbind.
    - unfold mret at 1. now apply IH.
    - destruct (remove_file (r_file r) w1) as [[[]|e|] w2] eqn:Rm; [| |discriminate].
      + apply IH; auto. cbn [thr_loop] in O. rewrite L in O. unfold mbind in O.
        rewrite R, Fi in O. cbn [andb] in O. cbv iota in O. rewrite En, Rm in O. cbn [thr_loop snd] in O.
        eapply only_holds; [exact APART| |exact H].
        match type of O with context [if ?b then _ else _] => destruct b end; exact O.
      + unfold remove_file in Rm. destruct (w_fs w1 (r_file r)); [discriminate|]. injection Rm as <- _. discriminate.
  Qed.

  Lemma finish_no_exit by_last s w : inp w ->
    fst (thr_finish A (j_path J) red limit by_last s w) <> Raise SystemExit.
  Proof.
    intros H.
    assert (forall o, fst (@write_wrong rmodel (j_path J) o w) <> Raise SystemExit) as WW.
    { intros [r|]; unfold write_wrong; [|discriminate]. cbv zeta. unfold mbind, is_file.
      destruct (w_fs w (path_join (j_path J) (reduced_name (n_species (r_model r))))) eqn:E; [|discriminate].
      unfold remove_file. rewrite E. discriminate. }
    unfold thr_finish. destruct by_last.
    - destruct (l_last s) as [r|]; [|discriminate].
      destruct (xgt (r_error r) limit); [now apply step_no_exit|apply WW].
    - destruct (xgt (l_err s) limit); [now apply step_no_exit|apply WW].
  Qed.

  Lemma first_exit_only floor : forall l t i fuel last w, attempts floor t l -> inp w ->
    fst (thr_loop A fuel red limit floor (mkLS init true (Fin 0) t i last) w) = Raise SystemExit ->
    Forall (fun u => exceed (A_val A u)) l.
  Proof.
    induction l as [|u l IH]; intros t i fuel last w At H E; [destruct At|].
    destruct At as [-> At].
    destruct fuel as [|fuel]; cbn [thr_loop l_err l_thr l_prev l_first l_inc] in E; rewrite NONNEG in E; [discriminate|].
    unfold mbind at 1 in E. pose proof (step_no_exit (A_val A t) (Some init) w H) as N.
    pose proof (step_frame (A_val A t) (Some init) w H) as F.
    pose proof (loop_frame floor 1 (mkLS init true (Fin 0) t i last) w H) as O.
    destruct (red (A_val A t) (Some init) w) as [[r|e|] w1] eqn:R; simpl in N, F; [|simpl in E; injection E as ->; exfalso; now apply N|discriminate].
    assert (inp w1) as H1 by (eapply only_holds; eauto).
    destruct (xgt (r_error r) limit) eqn:G; cbn [andb] in E; cbv iota in E.
    - assert (exceed (A_val A t)) as Ex.
      { destruct (step_pass _ _ _ _ _ H (init_inv _) SOLOK R) as [_ [(-> & _)|(_ & _ & X)]]; auto.
        simpl in G. apply xle_gt in NONNEG. congruence. }
      constructor; auto. destruct l as [|v l]; [constructor|]. destruct At as [Fl At]. rewrite Fl in E.
      eapply IH; [exact At|exact H1|]. exact E.
    - exfalso. destruct (Nat.eqb _ _) eqn:En; unfold mbind in E.
      + unfold mret at 1 in E. eapply tail_no_exit in E; auto.
      + destruct (remove_file (r_file r) w1) as [[[]|e|] w2] eqn:Rm; [| |discriminate].
        * eapply tail_no_exit in E; auto. cbn [thr_loop] in O. cbn [l_err] in O. rewrite NONNEG in O.
          unfold mbind in O. cbn [l_thr l_prev l_first] in O. rewrite R, G in O. cbn [andb] in O. cbv iota in O.
          rewrite En, Rm in O. cbn [thr_loop snd l_err] in O.
          eapply only_holds; [exact APART| |exact H].
          match type of O with context [if ?b then _ else _] => destruct b end; exact O.
        * unfold remove_file in Rm. destruct (w_fs w1 (r_file r)); [discriminate|].
          injection Rm as <- _. discriminate.
  Qed.

  Lemma exceed_step t w : inp w -> (exists l, lb = Ok l) -> exceed t ->
    exists r w', red t (Some init) w = (Ok r, w') /\ inp w' /\ xgt (r_error r) limit = true.
  Proof.
    intros H [l Hl] Ex. destruct (red t (Some init) w) as [[r|e|] w'] eqn:R.
    - pose proof (step_frame t (Some init) w H) as F. rewrite R in F. simpl in F.
      exists r, w'. split; auto. split; [eapply only_holds; eauto|].
      destruct (step_pass _ _ _ _ _ H (init_inv _) SOLOK R) as [_ [(-> & P & _)|(F' & _)]].
      { exfalso. eapply pass_not_exceed; eauto. }
      destruct F' as (C & E & _). destruct Ex as (m & x & C' & E' & G).
      rewrite (cut_to_unique _ _ _ _ _ WF C C') in E. rewrite E in E'. now injection E' as ->.
    - exfalso. destruct Ex as (m & x & C' & E' & G). destruct (STEP t) as (rm & Rr & S).
      destruct (S (Some init) w H) as [(p & _ & _ & Y)|[_ Y]]; [rewrite R in Y; discriminate|].
      destruct (cut_removing J sol rm) as [m'|e'|] eqn:C; [| |destruct Y].
      + destruct Y as (w2 & _ & Y). rewrite R in Y. injection Y as Y _.
        assert (m' = m) as ->. { eapply cut_to_unique; eauto. eapply cut_of_removed; eauto. }
        rewrite E' in Y. simpl in Y. rewrite Hl in Y. discriminate.
      + destruct C' as (rm' & R' & C'). unfold cut_removing in C.
        rewrite (trim_set_only sol rm rm') in C; auto; [congruence|].
        intros s Hs. rewrite (R' s Hs). rewrite <- (Rr s Hs). destruct (in_dec string_dec s rm); tauto.
    - exfalso. destruct Ex as (m & x & C' & E' & G). destruct (STEP t) as (rm & Rr & S).
      destruct (S (Some init) w H) as [(p & _ & _ & Y)|[_ Y]]; [rewrite R in Y; discriminate|].
      destruct (cut_removing J sol rm) as [m'|e'|] eqn:C; [|rewrite R in Y; discriminate|destruct Y].
      destruct Y as (w2 & _ & Y). rewrite R in Y. injection Y as Y _.
      assert (m' = m) as ->. { eapply cut_to_unique; eauto. eapply cut_of_removed; eauto. }
      rewrite E' in Y. simpl in Y. rewrite Hl in Y. discriminate.
  Qed.

  Lemma first_exit floor : (exists l, lb = Ok l) -> forall l t i fuel last w, attempts floor t l -> inp w ->
    (length l <= fuel)%nat -> Forall (fun u => exceed (A_val A u)) l ->
    fst (thr_loop A fuel red limit floor (mkLS init true (Fin 0) t i last) w) = Raise SystemExit.
  Proof.
    intros Hl. induction l as [|u l IH]; intros t i fuel last w At H Lf Ex; [destruct At|].
    destruct At as [-> At]. destruct fuel as [|fuel]; [simpl in Lf; lia|].
    inversion Ex as [|x y Ex1 Ex2]; subst x y.
    destruct (exceed_step _ w H Hl Ex1) as (r & w1 & R & H1 & G).
    cbn [thr_loop l_err l_thr l_prev l_first l_inc]. rewrite NONNEG. unfold mbind at 1. rewrite R, G. cbn [andb]. cbv iota.
    destruct l as [|v l].
    - rewrite At. reflexivity.
    - destruct At as [Fl At]. rewrite Fl. eapply IH; eauto. simpl in *. lia.
  Qed.

  Lemma run_exit_iff floor fuel by_last w l : attempts floor (A_start A) l -> inp w ->
    (length l <= fuel)%nat -> (exists x, lb = Ok x) ->
    fst (thr_run A fuel J sol red limit floor by_last w) = Raise SystemExit <->
    Forall (fun u => exceed (A_val A u)) l.
  Proof.
    intros At H Lf Hl. unfold thr_run, mbind. split.
    - intros E. apply (first_exit_only floor l (A_start A) (A_start A) fuel None w At H).
      fold init in E. unfold thr_init in E. fold init in E.
      pose proof (loop_frame floor fuel (mkLS init true (Fin 0) (A_start A) (A_start A) None) w H) as F.
      destruct (thr_loop A fuel red limit floor (mkLS init true (Fin 0) (A_start A) (A_start A) None) w) as [[s|e|] w1];
        [|simpl in *; injection E as ->; reflexivity|discriminate].
      exfalso. eapply finish_no_exit; [|exact E]. eapply only_holds; eauto.
    - intros Ex. pose proof (first_exit floor Hl l (A_start A) (A_start A) fuel None w At H Lf Ex) as E.
      unfold thr_init. fold init.
      destruct (thr_loop A fuel red limit floor (mkLS init true (Fin 0) (A_start A) (A_start A) None) w) as [[s|e|] w1];
        simpl in E; try discriminate. injection E as ->. reflexivity.
  Qed.

  (** *** Termination and divergence of the whole run *)

  Lemma run_terminates floor by_last l T :
    (forall t i, (A_val A (A_add A t i) == A_val A t + A_val A i)%Q) ->
    (forall t, (A_val A (A_div10 A t) == A_val A t / 10)%Q) ->
    (0 < A_val A (A_start A))%Q -> (forall m, err m <> NoFuel) -> lb <> NoFuel ->
    (forall t, (T <= t)%Q -> exceed t \/ (forall s, In s (species_names sol) -> ~ K t s)) ->
    attempts floor (A_start A) l ->
    exists N, forall fuel w, (N <= fuel)%nat -> inp w ->
      fst (thr_run A fuel J sol red limit floor by_last w) <> NoFuel.
  Proof.
    intros L_add L_div P NFm LF HIGH At.
    assert (forall l t i, attempts floor t l -> (0 < A_val A i)%Q ->
      exists N, forall fuel last w, (N <= fuel)%nat -> inp w ->
        fst (thr_loop A fuel red limit floor (mkLS init true (Fin 0) t i last) w) <> NoFuel) as G.
    { clear l At P. induction l as [|u l IH]; intros t i At P; [destruct At|]. destruct At as [-> At].
      assert (exists n, (T <= A_val A t + inject_Z (Z.of_nat (S n)) * A_val A i)%Q) as [n Hn].
      { destruct (Qlt_le_dec T (A_val A t)) as [Lt|Le].
        - exists 0%nat. simpl. change (inject_Z 1) with 1%Q. lra.
        - set (q := ((T - A_val A t) / A_val A i)%Q).
          exists (Z.to_nat (Qround.Qceiling q)).
          assert (0 <= q)%Q as Q0. { unfold q. apply Qle_shift_div_l; lra. }
          assert (q <= inject_Z (Z.of_nat (S (Z.to_nat (Qround.Qceiling q)))))%Q as Q1.
          { apply Qle_trans with (inject_Z (Qround.Qceiling q)); [apply Qround.Qle_ceiling|].
            rewrite <- Zle_Qle. lia. }
          apply (Qmult_le_compat_r _ _ (A_val A i)) in Q1; [|lra].
          assert (q * A_val A i == T - A_val A t)%Q as Q2. { unfold q. field. lra. }
          lra. }
      assert (exists N, forall fuel last w, (N <= fuel)%nat -> inp w ->
        floor (A_div10 A t) = false ->
        fst (thr_loop A fuel red limit floor (mkLS init true (Fin 0) (A_div10 A t) (A_div10 A i) last) w) <> NoFuel) as [N HN].
      { destruct l as [|v l]; [exists 0%nat; intros; congruence|]. destruct At as [Fl At].
        destruct (IH (A_div10 A t) (A_div10 A i) At) as [N HN].
        - rewrite L_div. apply Qlt_shift_div_l; lra.
        - exists N. intros. now apply HN. }
      exists (S (N + (n + 1)))%nat. intros fuel last w Lf H. destruct fuel as [|fuel]; [lia|].
      cbn [thr_loop l_err l_thr l_prev l_first l_inc]. rewrite NONNEG. unfold mbind at 1.
      pose proof (step_no_nofuel NFm LF (A_val A t) (Some init) w H) as NF0.
      pose proof (step_frame (A_val A t) (Some init) w H) as F.
      pose proof (loop_frame floor 1 (mkLS init true (Fin 0) t i last) w H) as O.
      destruct (red (A_val A t) (Some init) w) as [[r|e|] w1] eqn:R; simpl in NF0, F; [|discriminate|contradiction].
      assert (inp w1) as H1 by (eapply only_holds; eauto).
      destruct (xgt (r_error r) limit) eqn:Gr; cbn [andb]; cbv iota.
      - destruct (floor (A_div10 A t)) eqn:Fl; [discriminate|]. apply HN; auto. lia.
      - assert (linv (mkLS r false (r_error r) (A_add A t i) i (Some r))) as I2.
        { apply (linv_next L_add (mkLS init true (Fin 0) t i last) r w w1); auto.
          split; simpl; auto. }
        assert (forall w2, inp w2 -> fst (thr_loop A fuel red limit floor
          (mkLS r false (r_error r) (A_add A t i) i (Some r)) w2) <> NoFuel) as Y.
        { intros w2 H2. apply (tail_terminates L_add NFm LF T HIGH floor n); auto; [|lia].
          cbn [l_thr l_inc]. rewrite L_add. rewrite Nat2Z.inj_succ in Hn. unfold Z.succ in Hn.
          rewrite inject_Z_plus in Hn. change (inject_Z 1) with 1%Q in Hn. lra. }
        destruct (Nat.eqb _ _) eqn:En; unfold mbind.
        + unfold mret at 1. now apply Y.
        + destruct (remove_file (r_file r) w1) as [[[]|e|] w2] eqn:Rm; [|discriminate|].
          * apply Y. cbn [thr_loop] in O. cbn [l_err] in O. rewrite NONNEG in O. unfold mbind in O.
            cbn [l_thr l_prev l_first] in O. rewrite R, Gr in O. cbn [andb] in O. cbv iota in O.
            rewrite En, Rm in O. cbn [thr_loop snd l_err] in O.
            eapply only_holds; [exact APART| |exact H].
            match type of O with context [if ?b then _ else _] => destruct b end; exact O.
          * unfold remove_file in Rm. destruct (w_fs w1 (r_file r)); discriminate. }
    destruct (G l (A_start A) (A_start A) At P) as [N HN]. exists N. intros fuel w Lf H.
    unfold thr_run, mbind, thr_init. fold init. specialize (HN fuel None w Lf H).
    pose proof (loop_frame floor fuel (mkLS init true (Fin 0) (A_start A) (A_start A) None) w H) as F.
    destruct (thr_loop A fuel red limit floor (mkLS init true (Fin 0) (A_start A) (A_start A) None) w) as [[s|e|] w1];
      simpl in HN; [|discriminate|contradiction]. simpl in F.
    assert (inp w1) as H1 by (eapply only_holds; eauto).
    assert (forall o, fst (@write_wrong rmodel (j_path J) o w1) <> NoFuel) as WW.
    { intros [r|]; unfold write_wrong; [|discriminate]. cbv zeta. unfold mbind, is_file.
      destruct (w_fs w1 (path_join (j_path J) (reduced_name (n_species (r_model r))))) eqn:E; [|discriminate].
      unfold remove_file. rewrite E. discriminate. }
    unfold thr_finish. destruct by_last.
    - destruct (l_last s) as [r|]; [|discriminate].
      destruct (xgt (r_error r) limit); [now apply step_no_nofuel|apply WW].
    - destruct (xgt (l_err s) limit); [now apply step_no_nofuel|apply WW].
  Qed.

  Definition climb (n : nat) : A_t A := Nat.iter n (fun t => A_add A t (A_start A)) (A_start A).

  Lemma loop_diverges floor : (exists l, lb = Ok l) -> (forall n, pass (A_val A (climb n))) ->
    forall fuel n s w, inp w -> xle (l_err s) limit = true -> xle (r_error (l_prev s)) limit = true ->
    l_thr s = climb n -> l_inc s = A_start A ->
    fst (thr_loop A fuel red limit floor s w) = NoFuel.
  Proof.
    intros [l Hl] P. induction fuel as [|fuel IH]; intros n s w H L Lp Tn In; simpl; rewrite L; [reflexivity|].
    unfold mbind at 1. pose proof (step_frame (A_val A (l_thr s)) (Some (l_prev s)) w H) as F.
    pose proof (loop_frame floor 1 s w H) as O.
    assert (exists r w1, red (A_val A (l_thr s)) (Some (l_prev s)) w = (Ok r, w1) /\
              xle (r_error r) limit = true) as (r & w1 & R & Lr).
    { destruct (P n) as (m & e & C & E & Le). rewrite <- Tn in C.
      destruct (STEP (A_val A (l_thr s))) as (rm & Rr & S).
      destruct (S (Some (l_prev s)) w H) as [(p & Ep & _ & Y)|[_ Y]].
      - injection Ep as <-. eauto.
      - assert (cut_removing J sol rm = Ok m) as C'.
        { destruct C as (rm' & R' & C'). unfold cut_removing.
          rewrite (trim_set_only sol rm rm'); auto.
          intros x Hx. rewrite (R' x Hx). rewrite <- (Rr x Hx). destruct (in_dec string_dec x rm); tauto. }
        rewrite C' in Y. destruct Y as (w2 & _ & Y). rewrite E in Y. simpl in Y. rewrite Hl in Y. simpl in Y.
        do 2 eexists. split; [exact Y|]. auto. }
    rewrite R in F |- *. simpl in F. assert (inp w1) as H1 by (eapply only_holds; eauto).
    rewrite (xle_gt _ _ Lr). rewrite andb_false_r.
    destruct (Nat.eqb_spec (n_species (r_model (l_prev s))) (n_species (r_model r))) as [En|En]; unfold mbind.
    - unfold mret at 1. apply IH with (S n); auto. cbn [l_thr]. now rewrite Tn, In.
    - destruct (step_ok _ _ _ _ _ H R) as [(Ep & _ & _)|Fr].
      { injection Ep as Ep. rewrite Ep in En. contradiction. }
      destruct Fr as (_ & _ & Ff & _ & Fw).
      assert (w_fs w1 (r_file r) = Some (FMech [r_model r])) as Ex.
      { destruct Fw as [Fw _]. now rewrite Fw, String.eqb_refl. }
      unfold remove_file. rewrite Ex. apply IH with (S n); auto.
      2: { cbn [l_thr]. now rewrite Tn, In. }
      apply only_holds with w1; auto. split; auto. intros g Hg. simpl. unfold fs_set.
      destruct (String.eqb_spec g (r_file r)); auto. exfalso. eapply Hg. rewrite e. exact Ff.
  Qed.

  Lemma run_diverges floor by_last : (exists l, lb = Ok l) -> (forall n, pass (A_val A (climb n))) ->
    forall fuel w, inp w -> fst (thr_run A fuel J sol red limit floor by_last w) = NoFuel.
  Proof.
    intros Hl P fuel w H. unfold thr_run, mbind.
    pose proof (loop_diverges floor Hl P fuel 0 (thr_init A sol (j_file J)) w H NONNEG NONNEG eq_refl eq_refl) as E.
    destruct (thr_loop A fuel red limit floor (thr_init A sol (j_file J)) w) as [[s|e|] w1]; simpl in E; try discriminate.
    reflexivity.
  Qed.
End Loop.
