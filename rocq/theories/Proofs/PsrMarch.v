(** The march along the curve: what every state of the loop satisfies. *)
From Coq Require Import List QArith Qabs Bool Arith Lia Lqa Sorted.
From Verif.Base Require Import Py Num XNum.
From Verif.Model Require Import Simulation Sensitivity Psr.
From Verif.Spec Require Import PsrSpec.
From Verif.Proofs Require Import NumFacts PsrFacts PsrNum.
Import ListNotations.
Local Open Scope Q_scope.

Ltac conj := repeat match goal with |- _ /\ _ => split end.

Definition eps : Q := 1 # 10000000.

(** ** Small residuals *)

Lemma below_penalty c n : c <= 1000 -> Forall (below c) (repeat PENALTY (n + 1)) -> False.
Proof.
  intros C F. rewrite Nat.add_comm in F. simpl in F. inversion F as [|? ? B]; subst.
  destruct B as (q & E & B). injection E as <-. unfold Qabs in B. simpl in B. lra.
Qed.

Lemma residual_steady G c Y T tau : consistent G -> c <= 1000 -> length Y = g_n G ->
  Forall (below c) (core_residual G Y T tau) -> steady G c (mkPP tau T Y).
Proof.
  intros (LI & LW & LE & LS & FT) C LY F. unfold core_residual in F.
  destruct (xle T (Fin 0) || negb (forallb finite Y)) eqn:E.
  { destruct (below_penalty _ _ C F). }
  apply orb_false_iff in E. destruct E as (ET & EY). apply negb_false_iff in EY.
  destruct (g_state G Y T) as [[w rho]|] eqn:S; [|destruct (below_penalty _ _ C F)].
  apply Forall_app in F. destruct F as (F & FH). inversion FH as [|? ? B _]; subst. clear FH.
  specialize (LS _ _ _ _ S).
  unfold steady. simpl. split; [|split; [assumption|split]].
  - destruct B as (q & B & _). apply xdiv_fin in B. destruct B as (x & B).
    apply xsub_fin in B. destruct B as (h & ? & B & _). apply FT in B. destruct B as (t & ->).
    exists t. split; auto. simpl in ET. apply Qle_bool_false in ET. assumption.
  - rewrite Forall_forall. rewrite forallb_forall in EY. intros y I. apply EY in I.
    destruct y; try discriminate. eauto.
  - exists w, rho. split; [assumption|]. split; [|exact B].
    intros k K.
    destruct (nth_error_some Y k ltac:(lia)) as (y & NY).
    destruct (nth_error_some (g_Yin G) k ltac:(lia)) as (yin & NI).
    destruct (nth_error_some w k ltac:(lia)) as (wk & NW).
    destruct (nth_error_some (g_W G) k ltac:(lia)) as (Wk & NK).
    exists y, yin, wk, Wk. repeat split; auto.
    rewrite Forall_forall in F. apply F. apply (nth_error_In _ k).
    unfold vsub. apply map2_nth; [apply map2_nth; assumption|].
    unfold vdiv. apply (map_nth_error (fun x => xdiv x rho)).
    unfold vmul. apply map2_nth; [|assumption].
    unfold vscale. apply (map_nth_error (xmul tau)). assumption.
Qed.

Section March.
Variable norm : vec -> xnum.
Variables xexp xlog xsqrt : xnum -> xnum.
Variable solve : list vec -> vec -> option vec.
Variable root : (vec -> vec) -> vec -> res (bool * vec * vec).
Variable G : gas.
Variable A : psr_args.

Hypothesis NB : norm_bounds norm.
Hypothesis NP : norm_positive norm.
Hypothesis HR : honest root.
Hypothesis HS : one_per_column solve.
Hypothesis EL : exp_and_log xexp xlog.
Hypothesis GC : consistent G.
Hypothesis AS : sensible A.

Notation n := (g_n G).
Notation sigma := (g_n G + 1)%nat.

(** The unknowns of an accepted point. *)
Record good_u (u : vec) : Prop := {
  gu_len : length u = (n + 2)%nat;
  gu_fin : finite_vec u
}.

Definition positive (x : xnum) : Prop := exists t, x = Fin t /\ 0 < t.

Record good (st : march) : Prop := {
  g_pp : good_u (m_pp st);
  g_prev : good_u (m_prev st);
  g_temps : length (m_temps st) = length (m_taus st);
  g_states : length (m_states st) = length (m_taus st);
  g_steady : forall i, (i < length (m_taus st))%nat -> steady G eps (point_at st i);
  g_pos : Forall positive (m_taus st);
  g_last : exists l a b, m_taus st = l ++ [a; b] /\
             xeq a (xexp (vget (m_pp st) sigma)) = true /\ xeq b (xexp (vget (m_prev st) sigma)) = true;
  g_moved : exists q, In (Fin q) (vsub (m_prev st) (m_pp st)) /\ ~ q == 0;
  g_ds : a_ds_min A <= m_ds st;
  g_cap : a_ds_min A <= m_cap st
}.

(** *** One step *)

Lemma tangent_length st : good st -> length (tangent norm st) = (n + 2)%nat.
Proof.
  intros H. unfold tangent, vdiv. rewrite map_length. unfold vsub.
  rewrite map2_length; destruct (g_pp _ H), (g_prev _ H); lia.
Qed.

(** A point that the corrector accepts. *)
Lemma accepted st u : good st ->
  correct norm solve root (augmented_res xexp G (tangent norm st) (m_prev st) (m_ds st))
          (vadd (m_prev st) (vscale (Fin (m_ds st)) (tangent norm st))) = Ok (u, true) ->
  good_u u /\ steady G eps (mkPP (un_tau xexp G u) (un_T G u) (take_Y G u)) /\
  exists q, In (Fin q) (vsub u (m_prev st)) /\ ~ q == 0.
Proof.
  intros H C. apply corrected in C; auto. destruct C as (B & L).
  assert (length u = (n + 2)%nat) as LU.
  { rewrite L. unfold vadd. rewrite map2_length; unfold vscale; rewrite map_length, tangent_length; auto.
    apply (gu_len _ (g_prev _ H)). }
  apply NB in B. unfold augmented_res in B. apply Forall_app in B. destruct B as (B & BT).
  inversion BT as [|? ? (q & E & Q) _]; subst. clear BT.
  apply xsub_fin in E. destruct E as (p & ds & D & E & ->). injection E as <-.
  pose proof (gu_len _ (g_prev _ H)) as LP.
  assert (length (vsub u (m_prev st)) = (n + 2)%nat) as LV by (unfold vsub; rewrite map2_length; lia).
  pose proof (dot_fin _ _ _ (eq_trans (tangent_length _ H) (eq_sym LV)) D) as F.
  assert (finite_vec u) as FU.
  { intros x I. apply (In_nth _ _ NaN) in I. destruct I as (i & Hi & E). fold (vget u i) in E.
    destruct (finite_vget (vsub u (m_prev st)) i F ltac:(lia)) as (z & Z).
    rewrite vget_vsub in Z by lia. apply xsub_fin in Z. destruct Z as (a & ? & Z & _).
    rewrite E in Z. eauto. }
  split; [constructor; assumption|]. split.
  - apply residual_steady; auto; [unfold eps; lra|]. unfold take_Y. rewrite firstn_length. lia.
  - assert (~ p == 0) as NZ.
    { intros Z. destruct AS as (_ & _ & _ & A1 & _). pose proof (g_ds _ H) as A2.
      pose proof (Qle_Qabs (-(p - m_ds st))) as A3. rewrite Qabs_opp in A3. lra. }
    destruct (Forall_Exists_dec (fun x => match x with Fin z => z == 0 | _ => True end)
                (fun x => match x with Fin z => Qeq_dec z 0 | _ => left I end) (vsub u (m_prev st))) as [Z|X].
    + exfalso. apply NZ. apply (dot_zero _ _ _ D). intros z I. rewrite Forall_forall in Z. apply (Z _ I).
    + apply Exists_exists in X. destruct X as (x & I & X).
      destruct (F _ I) as (z & ->). eauto.
Qed.

Lemma pos_tau u : good_u u -> positive (un_tau xexp G u).
Proof.
  intros (L & F). unfold un_tau. destruct (finite_vget u sigma F ltac:(lia)) as (q & ->).
  destruct EL as (E & _). apply E.
Qed.

Lemma xeq_refl_pos x : positive x -> xeq x x = true.
Proof. intros (t & -> & _). apply xeq_fin. lra. Qed.

Lemma good_accept st u : good st -> good_u u ->
  steady G eps (mkPP (un_tau xexp G u) (un_T G u) (take_Y G u)) ->
  (exists q, In (Fin q) (vsub u (m_prev st)) /\ ~ q == 0) ->
  good (accept xexp G st u).
Proof.
  intros H U S M. constructor; simpl; auto.
  - apply (g_prev _ H).
  - rewrite !app_length, (g_temps _ H). reflexivity.
  - rewrite !app_length, (g_states _ H). reflexivity.
  - intros i Hi. rewrite app_length in Hi. simpl in Hi.
    unfold point_at. simpl. destruct (Nat.eq_dec i (length (m_taus st))) as [->|].
    + rewrite !app_nth2; rewrite ?(g_temps _ H), ?(g_states _ H); try lia.
      rewrite Nat.sub_diag. exact S.
    + rewrite !app_nth1; rewrite ?(g_temps _ H), ?(g_states _ H); try lia.
      apply (g_steady _ H). lia.
  - apply Forall_app. split; [apply (g_pos _ H)|]. constructor; [|constructor]. apply pos_tau. assumption.
  - destruct (g_last _ H) as (l & a & b & E & EA & EB).
    exists (l ++ [a]), b, (un_tau xexp G u). rewrite E. rewrite <- !app_assoc. simpl. repeat split; auto.
    apply xeq_refl_pos. apply (pos_tau u U).
  - apply qmin2_le; [|apply (g_cap _ H)].
    pose proof (g_ds _ H) as D. destruct AS as (_ & _ & _ & A1 & _). lra.
  - apply (g_cap _ H).
Qed.

Lemma good_halve st : good st -> a_ds_min A <= m_ds (halve st) -> good (halve st).
Proof. intros [] D. constructor; simpl; auto. Qed.

(** *** The check for a turning point *)

(** Without the bounds on the step, which the last halving leaves. *)
Lemma fold_sign st : good st ->
  exists s s', vget (m_pp st) sigma = Fin s /\ vget (m_prev st) sigma = Fin s' /\
    ((s < s' /\ xsign (vget (tangent norm st) sigma) = Fin 1) \/
     (s' < s /\ xsign (vget (tangent norm st) sigma) = Fin (-1)) \/
     (s' == s /\ xsign (vget (tangent norm st) sigma) = Fin 0)).
Proof.
  intros H. destruct (g_pp _ H) as (LP & FP). destruct (g_prev _ H) as (LV & FV).
  destruct (finite_vget _ sigma FP ltac:(lia)) as (s & S).
  destruct (finite_vget _ sigma FV ltac:(lia)) as (s' & S').
  exists s, s'. repeat split; auto.
  assert (length (vsub (m_prev st) (m_pp st)) = (n + 2)%nat) as L by (unfold vsub; rewrite map2_length; lia).
  destruct (NP (vsub (m_prev st) (m_pp st))) as (r & N & R).
  { apply finite_vsub; auto. lia. }
  { apply (g_moved _ H). }
  unfold tangent. rewrite vget_vdiv by lia. rewrite vget_vsub by lia. rewrite S, S', N.
  change (xsub (Fin s') (Fin s)) with (Fin (s' + - s)). cbn [xdiv].
  assert (Qeq_bool r 0 = false) as ->.
  { apply not_true_is_false. intros E. apply Qeq_bool_iff in E. lra. }
  assert (0 < / r) as I by (apply Qinv_lt_0_compat; assumption).
  unfold Qdiv. destruct (xsign_fin ((s' + - s) * / r)) as [(C & ->)|[(C & ->)|(C & ->)]].
  - left. split; auto. destruct (Qlt_le_dec s s'); auto. exfalso.
    assert ((s' + - s) * / r <= 0 * / r) by (apply Qmult_le_compat_r; lra). lra.
  - right. left. split; auto. destruct (Qlt_le_dec s' s); auto. exfalso.
    assert (0 * / r <= (s' + - s) * / r) by (apply Qmult_le_compat_r; lra). lra.
  - right. right. split; auto. apply Qmult_integral in C. destruct C; lra.
Qed.

(** The same in terms of the last two residence times. *)
Lemma tau_sign st l a b : good st -> m_taus st = l ++ [a; b] ->
  (xlt a b = true /\ xsign (vget (tangent norm st) sigma) = Fin 1) \/
  (xlt b a = true /\ xsign (vget (tangent norm st) sigma) = Fin (-1)) \/
  (xle b a = true /\ xle a b = true /\ xsign (vget (tangent norm st) sigma) = Fin 0).
Proof.
  intros H E. destruct (g_last _ H) as (l' & a' & b' & E' & XA & XB). rewrite E in E'.
  assert (l = l' /\ a = a' /\ b = b') as (-> & -> & ->).
  { change (l ++ [a; b]) with (l ++ [a] ++ [b]) in E'. change (l' ++ [a'; b']) with (l' ++ [a'] ++ [b']) in E'.
    rewrite !app_assoc in E'. apply app_inj_tail in E'. destruct E' as (E' & ->).
    apply app_inj_tail in E'. destruct E' as (-> & ->). auto. }
  destruct EL as (_ & EM & ES & _).
  destruct (fold_sign _ H) as (s & s' & S & S' & C). rewrite S in XA. rewrite S' in XB.
  apply xeq_le in XA. apply xeq_le in XB. destruct XA as (A1 & A2). destruct XB as (B1 & B2).
  destruct C as [(C & ->)|[(C & ->)|(C & ->)]].
  - left. split; auto. apply ES in C. eapply xle_lt_trans; [eassumption|]. eapply xlt_le_trans; eassumption.
  - right. left. split; auto. apply ES in C. eapply xle_lt_trans; [eassumption|]. eapply xlt_le_trans; eassumption.
  - right. right. repeat split; auto; (eapply xle_trans; [eassumption|]; eapply xle_trans; [|eassumption]; apply EM; lra).
Qed.

(** Leaving out the first point after the minimum, the residence times go
    down to a minimum, then up, and at most the last one is beyond. *)
Definition turned (taus : list xnum) (i : nat) (rest last : list xnum) : Prop :=
  exists front tm tl,
    taus = front ++ [tm; tl] ++ rest ++ last /\
    descending (front ++ [tm]) /\ xlt tm tl = true /\ ascending (tl :: rest) /\
    first_smallest (front ++ [tm; tl]) i.

Definition phase0 (st : march) : Prop :=
  m_folds st = O /\ m_ext st = None /\ m_sign st = Fin (-1) /\
  descending (removelast (m_taus st)).

Definition phase1 (st : march) : Prop :=
  m_folds st = 1%nat /\ m_sign st = Fin 1 /\
  exists i rest last, m_ext st = Some i /\ (length last <= 1)%nat /\ turned (m_taus st) i rest last.

Lemma removelast_two (l : list xnum) a b : removelast (l ++ [a; b]) = l ++ [a].
Proof. rewrite removelast_app by discriminate. reflexivity. Qed.

Lemma not_nan x : positive x -> is_nan x = false.
Proof. intros (t & -> & _). reflexivity. Qed.

Lemma check0 st : good st -> phase0 st ->
  (check_fold norm G A st = (st, false) /\ descending (m_taus st)) \/
  exists st1, check_fold norm G A st = (st1, a_stop A) /\ good st1 /\ m_taus st1 = m_taus st /\
    m_pp st1 = m_pp st /\ m_prev st1 = m_prev st /\
    m_folds st1 = 1%nat /\ m_sign st1 = Fin 1 /\
    exists i, m_ext st1 = Some i /\ turned (m_taus st1) i [] [].
Proof.
  intros H (P1 & P2 & P3 & P4).
  destruct (g_last _ H) as (l & a & b & E & _ & _).
  rewrite E, removelast_two in P4.
  unfold check_fold. rewrite P1, P3.
  destruct (tau_sign _ l a b H E) as [(C & ->)|[(C & ->)|(C & C' & ->)]].
  - right. change (negb (xeq (Fin 1) (Fin 0)) && negb (xeq (Fin 1) (Fin (-1)))) with true. cbv iota.
    assert (turned (m_taus st) (argmin (m_taus st)) [] []) as TU.
    { exists l, a, b. rewrite !app_nil_r.
      split; [exact E|split; [exact P4|split; [exact C|split; [repeat constructor|]]]].
      rewrite <- E. apply argmin_spec; [rewrite E; destruct l; discriminate|].
      eapply Forall_impl; [|apply (g_pos _ H)]. intros x. apply not_nan. }
    destruct (a_stop A).
    + eexists. split; [reflexivity|]. split; [destruct H; constructor; simpl; auto|].
      simpl. repeat split; auto. eexists. split; [reflexivity|]. exact TU.
    + eexists. split; [reflexivity|].
      destruct AS as (_ & _ & _ & A1 & A2 & A3 & A4).
      split; [destruct H; constructor; simpl; auto|].
      * apply qmin2_le; [assumption|]. apply qmin2_le; [assumption|]. unfold DS_MAX_MIDDLE. assumption.
      * apply qmin2_le; [assumption|]. unfold DS_MAX_MIDDLE. assumption.
      * simpl. repeat split; auto. eexists. split; [reflexivity|]. exact TU.
  - left. change (negb (xeq (Fin (-1)) (Fin 0)) && negb (xeq (Fin (-1)) (Fin (-1)))) with false. cbv iota.
    split; [reflexivity|]. rewrite E.
    apply (sorted_snoc (fun x y => xle y x)); [intros; eapply xle_trans; eassumption|exact P4|apply xlt_le; assumption].
  - left. change (negb (xeq (Fin 0) (Fin 0)) && negb (xeq (Fin 0) (Fin (-1)))) with false. cbv iota.
    split; [reflexivity|]. rewrite E.
    apply (sorted_snoc (fun x y => xle y x)); [intros; eapply xle_trans; eassumption|exact P4|exact C].
Qed.

Lemma last_two (front rest : list xnum) tm tl x :
  exists l a, front ++ [tm; tl] ++ rest ++ [x] = l ++ [a; x] /\ tl :: rest = tl :: rest /\
              exists pre, tl :: rest = pre ++ [a].
Proof.
  destruct (exists_last (l := tl :: rest) ltac:(discriminate)) as (pre & a & E).
  exists (front ++ [tm] ++ pre), a. split; [|split; eauto].
  change ([tm; tl] ++ rest ++ [x]) with ([tm] ++ (tl :: rest) ++ [x]). rewrite E.
  rewrite <- !app_assoc. reflexivity.
Qed.

Lemma check1 st : good st -> phase1 st ->
  (check_fold norm G A st = (st, false) /\
     exists i rest, m_ext st = Some i /\ turned (m_taus st) i rest []) \/
  exists st1, check_fold norm G A st = (st1, true) /\ good st1 /\ m_taus st1 = m_taus st /\
    m_ext st1 = m_ext st.
Proof.
  intros H (P1 & P2 & i & rest & last & P3 & P4 & P5).
  unfold check_fold. rewrite P1, P2.
  set (c := negb (xeq _ (Fin 0)) && negb _). destruct c eqn:C; unfold c in C; clear c.
  - right. eexists. split; [reflexivity|]. split; [destruct H; constructor; simpl; auto|].
    simpl. auto.
  - left. split; [reflexivity|]. exists i.
    destruct last as [|x [|? ?]]; [exists rest; auto| |simpl in P4; lia].
    destruct P5 as (front & tm & tl & E & D & T & AS' & F).
    destruct (last_two front rest tm tl x) as (l & a & E1 & _ & pre & E2).
    exists (rest ++ [x]). split; auto. exists front, tm, tl.
    rewrite app_nil_r.
    split; [exact E|split; [exact D|split; [exact T|split; [|exact F]]]].
    rewrite E1 in E. destruct (tau_sign _ l a x H E) as [(K & _)|[(K & S)|(_ & K & _)]].
    + change (tl :: rest ++ [x]) with ((tl :: rest) ++ [x]). unfold ascending. rewrite E2.
      rewrite <- app_assoc. simpl. apply (sorted_snoc xle); [exact xle_trans|rewrite <- E2; exact AS'|].
      apply xlt_le. assumption.
    + rewrite S in C. vm_compute in C. discriminate.
    + change (tl :: rest ++ [x]) with ((tl :: rest) ++ [x]). unfold ascending. rewrite E2.
      rewrite <- app_assoc. simpl. apply (sorted_snoc xle); [exact xle_trans|rewrite <- E2; exact AS'|assumption].
Qed.

Lemma sorted_prefix (R : xnum -> xnum -> Prop) l r : StronglySorted R (l ++ r) -> StronglySorted R l.
Proof.
  induction l as [|x l IH]; simpl; intros S; [constructor|]. inversion S as [|? ? S' F]; subst.
  constructor; [apply IH; assumption|]. apply Forall_app in F. apply F.
Qed.

(** ** The loop *)

(** What holds after it; the bounds on the step are lost. *)
Record result (st : march) (k : nat) : Prop := {
  r_temps : length (m_temps st) = length (m_taus st);
  r_states : length (m_states st) = length (m_taus st);
  r_steady : forall i, (i < length (m_taus st))%nat -> steady G eps (point_at st i);
  r_pos : Forall positive (m_taus st);
  r_ext : m_ext st = None \/
          exists i rest last, m_ext st = Some i /\ turned (m_taus st) i rest last /\ (length last <= 1)%nat /\
            (a_stop A = true -> rest = [] /\ last = [] /\ (length (m_taus st) <= k + 1)%nat);
  r_len : (length (m_taus st) <= k + 2)%nat
}.

Lemma result_of st k e : good st -> m_ext st = e ->
  (length (m_taus st) <= k + 2)%nat ->
  (e = None \/
   exists i rest last, e = Some i /\ turned (m_taus st) i rest last /\ (length last <= 1)%nat /\
            (a_stop A = true -> rest = [] /\ last = [] /\ (length (m_taus st) <= k + 1)%nat)) ->
  result st k.
Proof. intros [] E L R. constructor; auto. rewrite E. assumption. Qed.

Lemma turned_snoc taus i rest x : turned taus i rest [] -> turned (taus ++ [x]) i rest [x].
Proof.
  intros (front & tm & tl & E & D & T & S & F). exists front, tm, tl.
  rewrite E, app_nil_r. rewrite <- !app_assoc. auto.
Qed.

Lemma marching_result : forall k st st' total,
  good st -> phase0 st \/ phase1 st /\ a_stop A = false ->
  (length (m_taus st) + k <= total + 2)%nat ->
  marching norm xexp solve root G A k st = Ok st' -> result st' total.
Proof.
  induction k; intros st st' total H P L R.
  - simpl in R. injection R as <-. eapply result_of; eauto; [lia|].
    destruct P as [(_ & -> & _)|((_ & _ & i & rest & last & E & LL & T) & ST)]; [auto|].
    right. exists i, rest, last. conj; auto; intros; congruence.
  - cbn [marching] in R.
    assert (exists st1, check_fold norm G A st = (st1, true) /\ result st1 total \/
             check_fold norm G A st = (st1, false) /\ good st1 /\ m_taus st1 = m_taus st /\
             tangent norm st1 = tangent norm st /\
             (m_folds st1 = O /\ m_ext st1 = None /\ m_sign st1 = Fin (-1) /\ descending (m_taus st1) \/
              m_folds st1 = 1%nat /\ m_sign st1 = Fin 1 /\ a_stop A = false /\
              exists i rest, m_ext st1 = Some i /\ turned (m_taus st1) i rest [])) as (st1 & C).
    { destruct P as [P|(P & ST)].
      - destruct (check0 _ H P) as [(-> & D)|(st1 & -> & H1 & T1 & T2 & T3 & F1 & S1 & i & E1 & TU)].
        + exists st. right. destruct P as (? & ? & ? & ?). conj; auto 10.
        + exists st1. destruct (a_stop A) eqn:ST.
          * left. split; auto. eapply result_of; eauto; [rewrite T1; lia|].
            right. exists i, [], []. conj; auto; intros; conj; auto; rewrite T1; lia.
          * right. conj; auto; [unfold tangent; congruence|]. right. conj; auto. exists i, []. auto.
      - destruct (check1 _ H P) as [(-> & i & rest & E & TU)|(st1 & -> & H1 & T1 & E1)].
        + exists st. right. destruct P as (P1 & P2 & _). conj; auto. right. conj; auto. eauto.
        + exists st1. left. split; auto. eapply result_of; eauto; [rewrite T1; lia|].
          destruct P as (_ & _ & i & rest & last & E & LL & T). right. exists i, rest, last.
          rewrite T1. conj; auto; intros; congruence. }
    destruct C as [(C & RS)|(C & H1 & T1 & TG & PH)]; rewrite C in R.
    + injection R as <-. assumption.
    + rewrite <- TG in R.
      destruct (correct norm solve root _ _) as [[u ok]|e|] eqn:CO; cbn [bind] in R; try discriminate.
      destruct ok.
      * destruct (accepted _ _ H1 CO) as (GU & SU & MU).
        pose proof (good_accept _ _ H1 GU SU MU) as H2.
        apply (IHk (accept xexp G st1 u) st' total); auto.
        -- destruct PH as [(F1 & E1 & S1 & D)|(F1 & S1 & ST & i & rest & E1 & TU)].
           ++ left. unfold phase0. simpl. conj; auto. rewrite removelast_last. assumption.
           ++ right. split; auto. unfold phase1. simpl. conj; auto.
              exists i, rest, [un_tau xexp G u]. conj; auto.
              apply turned_snoc. assumption.
        -- simpl. rewrite app_length, T1. simpl. lia.
      * destruct (Qlt_bool (m_ds (halve st1)) (a_ds_min A)) eqn:Q.
        -- injection R as <-. destruct H1. constructor; simpl; auto; [|rewrite T1; lia].
           destruct PH as [(F1 & E1 & S1 & D)|(F1 & S1 & ST & i & rest & E1 & TU)]; [left; auto|].
           right. exists i, rest, []. conj; auto; intros; congruence.
        -- apply Qlt_bool_false in Q. pose proof (good_halve _ H1 Q) as H2.
           apply (IHk (halve st1) st' total); auto.
           ++ destruct PH as [(F1 & E1 & S1 & D)|(F1 & S1 & ST & i & rest & E1 & TU)].
              ** left. unfold phase0. simpl. conj; auto.
                 destruct (g_last _ H1) as (l & a & b & E & _). rewrite E in *. rewrite removelast_two.
                 apply (sorted_prefix _ (l ++ [a]) [b]). rewrite <- app_assoc. assumption.
              ** right. split; auto. unfold phase1. simpl. conj; auto. exists i, rest, []. auto.
           ++ simpl. rewrite T1. lia.
Qed.
End March.
