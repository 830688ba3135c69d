(** The march that goes on past the turning point, and exceptions. *)
From Coq Require Import List QArith Qabs Bool Arith Lia Lqa Sorted.
From Verif.Base Require Import Py Num XNum.
From Verif.Model Require Import Simulation Sensitivity Psr.
From Verif.Spec Require Import PsrSpec.
From Verif.Proofs Require Import NumFacts PsrFacts PsrNum PsrMarch PsrTop.
Import ListNotations.
Local Open Scope nat_scope.

Section More.
Variable norm : vec -> xnum.
Variables xexp xlog xsqrt : xnum -> xnum.
Variable solve : list vec -> vec -> option vec.
Variable root : (vec -> vec) -> vec -> res (bool * vec * vec).
Variable G : gas.

Notation marchN A := (marching norm xexp solve root G A).
Notation trace := (trace_extinction_curve norm xexp xlog xsqrt solve root G).

(** The lists of points of [st'] continue those of [st]. *)
Definition extends (st st' : march) : Prop :=
  (exists r, m_taus st' = m_taus st ++ r) /\ (exists r, m_temps st' = m_temps st ++ r) /\
  (exists r, m_states st' = m_states st ++ r).

Definition even_lengths (st : march) : Prop :=
  length (m_temps st) = length (m_taus st) /\ length (m_states st) = length (m_taus st) /\ m_taus st <> [].

Lemma extends_refl st : extends st st.
Proof. unfold extends. conj; exists []; rewrite app_nil_r; reflexivity. Qed.

Lemma extends_trans a b c : extends a b -> extends b c -> extends a c.
Proof.
  intros ((r1 & A1) & (r2 & A2) & (r3 & A3)) ((s1 & B1) & (s2 & B2) & (s3 & B3)).
  unfold extends. rewrite B1, B2, B3, A1, A2, A3, <- !app_assoc. conj; eauto.
Qed.

Lemma extends_accept st u : extends st (accept xexp G st u).
Proof. unfold extends. simpl. conj; eauto. Qed.

Lemma extends_same st st' : m_taus st' = m_taus st -> m_temps st' = m_temps st -> m_states st' = m_states st ->
  extends st st'.
Proof. intros A B C. unfold extends. rewrite A, B, C. conj; exists []; rewrite app_nil_r; reflexivity. Qed.

Lemma even_accept st u : even_lengths st -> even_lengths (accept xexp G st u).
Proof.
  intros (A & B & C). unfold even_lengths. simpl. rewrite !app_length, A, B. conj; auto.
  destruct (m_taus st); discriminate.
Qed.

Lemma even_same st st' : m_taus st' = m_taus st -> m_temps st' = m_temps st -> m_states st' = m_states st ->
  even_lengths st -> even_lengths st'.
Proof. unfold even_lengths. intros -> -> ->. auto. Qed.

Lemma check_later A st k : m_folds st = S k ->
  exists k', m_folds (fst (check_fold norm G A st)) = S k' /\ m_ext (fst (check_fold norm G A st)) = m_ext st.
Proof.
  intros F. unfold check_fold. rewrite F. destruct (negb _ && negb _)%bool; simpl; eauto.
Qed.

(** After the first turning point the index stays. *)
Lemma marching_later A : forall k st st' f, m_folds st = S f -> even_lengths st -> marchN A k st = Ok st' ->
  m_ext st' = m_ext st /\ extends st st' /\ even_lengths st'.
Proof.
  induction k; intros st st' f F E H; cbn [marching] in H.
  - apply ok_inj in H. subst st'. split; [reflexivity|]. split; [apply extends_refl|assumption].
  - destruct (check_taus norm G A st) as (T1 & T2 & T3). destruct (check_later A _ _ F) as (f' & F' & X).
    destruct (check_fold norm G A st) as [st1 lv]. cbn [fst] in *.
    pose proof (even_same _ _ T1 T2 T3 E) as E1. pose proof (extends_same _ _ T1 T2 T3) as X1.
    destruct lv.
    + apply ok_inj in H. subst st'. auto.
    + apply bind_ok in H. destruct H as ([u ok] & C & H). destruct ok.
      * apply (IHk _ _ f') in H; [|assumption|apply even_accept; assumption].
        destruct H as (H1 & H2 & H3). split; [simpl in H1; congruence|]. split; [|assumption].
        eapply extends_trans; [exact X1|]. eapply extends_trans; [apply (extends_accept st1 u)|exact H2].
      * destruct (Qlt_bool _ _).
        -- apply ok_inj in H. subst st'. simpl. auto.
        -- apply (IHk _ _ f') in H; [|assumption|exact E1].
           destruct H as (H1 & H2 & H3). split; [simpl in H1; congruence|]. split; [|assumption].
           eapply extends_trans; [exact X1|exact H2].
Qed.

(** The two marches agree up to the turning point. *)
Lemma marching_both A : forall k st stF i,
  m_folds st = O -> m_ext st = None -> even_lengths st ->
  marchN (with_stop false A) k st = Ok stF -> m_ext stF = Some i ->
  exists stT, marchN (with_stop true A) k st = Ok stT /\ m_ext stT = Some i /\ extends stT stF /\
              even_lengths stT /\ even_lengths stF /\ i < length (m_taus stT).
Proof.
  induction k; intros st stF i F N E H X; cbn [marching] in H |- *.
  - apply ok_inj in H. subst stF. congruence.
  - unfold check_fold in *. rewrite F in *.
    destruct (negb _ && negb _)%bool.
    + cbn [a_stop with_stop] in *.
      eexists. split; [reflexivity|].
      apply bind_ok in H. destruct H as ([u ok] & C & H).
      set (st1 := mkMarch _ _ _ _ _ _ _ _ _ _) in H.
      assert (even_lengths st1) as E1 by exact E.
      assert (m_ext stF = m_ext st1 /\ extends st1 stF /\ even_lengths stF) as (Q1 & Q2 & Q3).
      { destruct ok.
        - apply (marching_later _ _ _ _ 0%nat) in H; [|reflexivity|apply even_accept; assumption].
          destruct H as (H1 & H2 & H3). split; [exact H1|]. split; [|exact H3].
          eapply extends_trans; [apply (extends_accept st1 u)|exact H2].
        - destruct (Qlt_bool _ _).
          + apply ok_inj in H. subst stF. split; [reflexivity|]. split; [apply (extends_refl st1)|exact E1].
          + apply (marching_later _ _ _ _ 0%nat) in H; [|reflexivity|exact E1]. exact H. }
      split; [simpl in *; congruence|]. split; [exact Q2|]. split; [exact E|]. split; [exact Q3|].
      rewrite X in Q1. simpl in Q1. injection Q1 as ->. simpl. apply argmin_lt. apply E.
    + apply bind_ok in H. destruct H as ([u ok] & C & H). rewrite C. cbn [bind].
      destruct ok.
      * apply IHk with (i := i) in H; auto. apply even_accept. assumption.
      * cbn [a_ds_min with_stop] in *. destruct (Qlt_bool _ _).
        -- apply ok_inj in H. subst stF. simpl in X. congruence.
        -- apply IHk with (i := i) in H; auto.
Qed.

Lemma nth_extends {X} (l r : list X) i d : i < length l -> nth i (l ++ r) d = nth i l d.
Proof. intros. apply app_nth1. assumption. Qed.

Lemma combine_extends (a r b s : list xnum) : length b = length a ->
  exists t, combine (a ++ r) (b ++ s) = combine a b ++ t.
Proof.
  revert b. induction a as [|x a IH]; intros [|y b] L; simpl in *; try discriminate.
  - eauto.
  - destruct (IH b ltac:(lia)) as (t & ->). eauto.
Qed.

Lemma finish_extends st stF i b c : m_ext st = Some i -> m_ext stF = Some i -> extends st stF ->
  even_lengths st -> i < length (m_taus st) ->
  finish xsqrt stF = Ok (b, c) ->
  exists b' r, finish xsqrt st = Ok (b', c) /\ b = b' ++ r.
Proof.
  intros E1 E2 ((r1 & X1) & (r2 & X2) & (r3 & X3)) (L1 & L2 & L3) I H.
  unfold finish in *. rewrite E1. rewrite E2 in H. apply ok_inj in H. injection H as HB HC.
  assert (firstn (i + 1) (m_taus stF) = firstn (i + 1) (m_taus st)) as FT.
  { rewrite X1. rewrite firstn_app. replace (i + 1 - length (m_taus st)) with 0 by lia.
    simpl. apply app_nil_r. }
  assert (forall j, j < length (m_taus st) -> point_at stF j = point_at st j) as PT.
  { intros j J. unfold point_at. rewrite X1, X2, X3. rewrite !app_nth1 by lia. reflexivity. }
  assert (forall t, argmin (map (fun x => xabs (xsub x t)) (firstn (i + 1) (m_taus st))) < length (m_taus st)) as AL.
  { intros t. eapply Nat.lt_le_trans; [apply argmin_lt|].
    - destruct (m_taus st); [congruence|]. rewrite Nat.add_1_r. discriminate.
    - rewrite map_length, firstn_length. lia. }
  rewrite FT in HC. rewrite X1 in HC. rewrite !app_nth1 in HC by auto. rewrite !PT in HC by auto.
  destruct (combine_extends (m_taus st) r1 (m_temps st) r2 L1) as (t & TE).
  exists (combine (m_taus st) (m_temps st)), t. split.
  - rewrite HC. reflexivity.
  - rewrite <- HB, X1, X2. exact TE.
Qed.

Lemma full_prefix A b c : trace (with_stop false A) = Ok (b, c) ->
  exists b' r, trace (with_stop true A) = Ok (b', c) /\ b = b' ++ r.
Proof.
  intros H. unfold trace_extinction_curve in *.
  apply bind_ok in H. destruct H as (e & E & H). rewrite E. cbn [bind] in *. cbv zeta in *.
  cbn [a_tau_start a_tau_second a_max_steps with_stop] in *.
  apply bind_ok in H. destruct H as ([x0 ok0] & S0 & H). rewrite S0. cbn [bind].
  apply bind_ok in H. destruct H as ([x1 ok1] & S1 & H). rewrite S1. cbn [bind].
  destruct (ok0 && ok1)%bool; [|discriminate].
  apply bind_ok in H. destruct H as (stF & M & F).
  destruct (m_ext stF) as [i|] eqn:X; [|unfold finish in F; rewrite X in F; discriminate].
  apply marching_both with (i := i) in M; auto; [|unfold even_lengths; simpl; conj; auto; discriminate].
  destruct M as (stT & M & XT & EX & ET & EF & LI).
  change (start xlog G (with_stop true A) x0 x1) with (start xlog G (with_stop false A) x0 x1).
  rewrite M. cbn [bind]. eapply finish_extends; eauto.
Qed.

(** ** Exceptions *)

Lemma correct_raises f x e : correct norm solve root f x = Raise e -> root f x = Raise e.
Proof.
  unfold correct. destruct (root f x) as [[[s y] fy]|e'|]; cbn [bind]; intros H; try discriminate.
  - destruct (s && _)%bool; discriminate.
  - congruence.
Qed.

Lemma marching_raises A : forall k st e, marchN A k st = Raise e -> exists f x, root f x = Raise e.
Proof.
  induction k; intros st e H; cbn [marching] in H; [discriminate|].
  destruct (check_fold norm G A st) as [st1 []]; [discriminate|].
  destruct (correct norm solve root _ _) as [[u ok]|e'|] eqn:C; cbn [bind] in H; try discriminate.
  - destruct ok; [apply (IHk _ _ H)|]. destruct (Qlt_bool _ _); [discriminate|apply (IHk _ _ H)].
  - injection H as ->. apply correct_raises in C. eauto.
Qed.

Lemma trace_raises A e : trace A = Raise e -> e = RuntimeError \/ from_outside root G e.
Proof.
  intros H. unfold trace_extinction_curve, from_outside, solve_fixed_tau in *.
  destruct (g_equil G) as [p|e'|] eqn:E; cbn [bind] in H; try discriminate.
  2: { injection H as ->. auto. }
  cbv zeta in H.
  destruct (correct norm solve root _ (fst p ++ _)) as [[x0 ok0]|e'|] eqn:C0; cbn [bind] in H; try discriminate.
  2: { injection H as ->. apply correct_raises in C0. eauto. }
  destruct (correct norm solve root _ x0) as [[x1 ok1]|e'|] eqn:C1; cbn [bind] in H; try discriminate.
  2: { injection H as ->. apply correct_raises in C1. eauto. }
  destruct (ok0 && ok1)%bool; [|injection H as <-; auto].
  destruct (marching norm xexp solve root G A _ _) as [st|e'|] eqn:M; cbn [bind] in H; try discriminate.
  - unfold finish in H. destruct (m_ext st); [discriminate|]. injection H as <-. auto.
  - injection H as ->. apply marching_raises in M. auto.
Qed.
End More.
