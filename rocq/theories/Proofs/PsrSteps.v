(** The distance between consecutive points of the curve. *)
From Coq Require Import List QArith Qabs Bool Arith ZArith Lia Lqa Sorted.
From Verif.Base Require Import Py Num XNum.
From Verif.Model Require Import Simulation Sensitivity Psr.
From Verif.Spec Require Import PsrSpec.
From Verif.Proofs Require Import NumFacts PsrFacts PsrNum PsrMarch PsrTop PsrMore.
Import ListNotations.
Local Open Scope nat_scope.

Section Steps.
Variable norm : vec -> xnum.
Variables xexp xlog xsqrt : xnum -> xnum.
Variable solve : list vec -> vec -> option vec.
Variable root : (vec -> vec) -> vec -> res (bool * vec * vec).
Variable G : gas.
Variable A : psr_args.
Hypothesis NB : norm_bounds norm.
Hypothesis NP : norm_positive norm.
Hypothesis HR : honest root.
Hypothesis HS : one_per_column solve.
Hypothesis EL : exp_and_log xexp xlog.
Hypothesis SQ : square_root xsqrt.
Hypothesis GC : consistent G.
Hypothesis AS : sensible A.

Notation n := (g_n G).
Notation stands := (stands_for xexp n).

Record inv (st : march) (us : list vec) (dss : list Q) : Prop := {
  i_us : exists pre, us = pre ++ [m_pp st; m_prev st];
  i_temps : length (m_temps st) = length (m_taus st);
  i_states : length (m_states st) = length (m_taus st);
  i_len : length us = length (m_taus st);
  i_dss : length dss + 2 = length us;
  i_stands : forall i, i < length us -> stands (nth i us []) (point_at st i);
  i_spaced : spaced norm (1 # 10000000) us dss;
  i_sizes : step_sizes A dss;
  i_next : match rev dss with [] => (m_ds st <= a_ds0 A)%Q | d :: _ => (m_ds st <= d * (6 # 5))%Q end;
  i_top : (m_ds st <= a_ds0 A \/ m_ds st <= a_ds_max A)%Q;
  i_cap : (a_ds_min A <= m_cap st <= a_ds_max A)%Q;
  i_slow : a_stop A = false -> m_folds st <> O -> (m_ds st <= 1 # 20 /\ m_cap st <= 1 # 20)%Q;
  i_late : forall i j a b ds, nth_error (m_taus st) i = Some a -> nth_error (m_taus st) (S i) = Some b ->
             xlt a b = true -> i <= j -> nth_error dss j = Some ds -> (ds <= 1 # 20)%Q
}.

Lemma qmin2_l a b : (qmin2 a b <= a)%Q.
Proof. unfold qmin2. destruct (Qlt_bool b a) eqn:E; [apply Qlt_bool_iff in E|]; lra. Qed.
Lemma qmin2_r a b : (qmin2 a b <= b)%Q.
Proof. unfold qmin2. destruct (Qlt_bool b a) eqn:E; [|apply Qlt_bool_false in E]; lra. Qed.

Lemma inv_smaller st st1 us dss : inv st us dss ->
  m_pp st1 = m_pp st -> m_prev st1 = m_prev st -> m_taus st1 = m_taus st -> m_temps st1 = m_temps st ->
  m_states st1 = m_states st -> (m_ds st1 <= m_ds st)%Q -> (a_ds_min A <= m_cap st1 <= a_ds_max A)%Q ->
  (a_stop A = false -> m_folds st1 <> O -> (m_ds st1 <= 1 # 20 /\ m_cap st1 <= 1 # 20)%Q) -> inv st1 us dss.
Proof.
  intros [] E1 E2 E3 E4 E5 L C SL. constructor; rewrite ?E1, ?E2, ?E3, ?E4, ?E5; auto.
  - intros i Hi. unfold point_at. rewrite E3, E4, E5. apply i_stands0. exact Hi.
  - destruct (rev dss); lra.
  - lra.
Qed.

Lemma check_inv st us dss : inv st us dss -> (a_ds_min A <= m_ds st)%Q ->
  let st1 := fst (check_fold norm G A st) in
  inv st1 us dss /\ (a_ds_min A <= m_ds st1)%Q /\ m_pp st1 = m_pp st /\ m_prev st1 = m_prev st.
Proof.
  intros H M. pose proof (i_cap _ _ _ H) as C. unfold check_fold.
  destruct AS as (_ & _ & _ & _ & _ & A2 & A3).
  destruct (negb _ && negb _)%bool; [|cbn; auto].
  destruct (m_folds st) as [|k] eqn:F; [destruct (a_stop A) eqn:ST|]; cbn.
  - split; [|auto]. apply (inv_smaller st _ us dss); auto; cbn; [lra|congruence].
  - assert (a_ds_min A <= qmin2 (a_ds_max A) DS_MAX_MIDDLE)%Q as Q1 by (apply qmin2_le; [lra|unfold DS_MAX_MIDDLE; lra]).
    pose proof (qmin2_l (a_ds_max A) DS_MAX_MIDDLE). pose proof (qmin2_l (m_ds st) (qmin2 (a_ds_max A) DS_MAX_MIDDLE)).
    pose proof (qmin2_r (a_ds_max A) DS_MAX_MIDDLE). pose proof (qmin2_r (m_ds st) (qmin2 (a_ds_max A) DS_MAX_MIDDLE)).
    unfold DS_MAX_MIDDLE in *.
    split; [|split; [apply qmin2_le; assumption|auto]]. apply (inv_smaller st _ us dss); auto; cbn; [lra..|].
    intros _ _. split; lra.
  - split; [|auto]. apply (inv_smaller st _ us dss); auto; cbn; [lra|].
    intros ST _. apply (i_slow _ _ _ H ST). congruence.
Qed.

Lemma descending_pair l i a b : descending l -> nth_error l i = Some a -> nth_error l (S i) = Some b -> xlt a b = true -> False.
Proof.
  revert i. induction l as [|x l IH]; intros i D H1 H2 X; [destruct i; discriminate|].
  inversion D as [|? ? D' F]; subst. destruct i as [|i].
  - injection H1 as <-. change (nth_error l 0 = Some b) in H2. apply nth_error_In in H2. rewrite Forall_forall in F. specialize (F _ H2).
    pose proof (xle_lt_trans _ _ _ F X) as Y. destruct b as [q| | |]; try discriminate.
    apply xlt_fin in Y. lra.
  - exact (IH i D' H1 H2 X).
Qed.

Lemma nth_error_snoc {X} (l : list X) x i y : nth_error (l ++ [x]) i = Some y ->
  (i < length l /\ nth_error l i = Some y) \/ (i = length l /\ y = x).
Proof.
  intros H. destruct (lt_dec i (length l)) as [L|L].
  - rewrite nth_error_app1 in H by auto. auto.
  - right. rewrite nth_error_app2 in H by lia. destruct (i - length l) as [|d] eqn:E.
    + injection H as <-. split; auto. lia.
    + destruct d; discriminate.
Qed.

Lemma sizes_snoc dss ds : step_sizes A dss -> (a_ds_min A <= ds)%Q -> (ds <= a_ds0 A \/ ds <= a_ds_max A)%Q ->
  match rev dss with [] => (ds <= a_ds0 A)%Q | d :: _ => (ds <= d * (6 # 5))%Q end ->
  step_sizes A (dss ++ [ds]).
Proof.
  intros (B & F & S) M T N. repeat split.
  - apply in_app_or in H. destruct H as [H|[<-|[]]]; [apply B; assumption|assumption].
  - apply in_app_or in H. destruct H as [H|[<-|[]]]; [apply B; assumption|assumption].
  - intros d H. apply nth_error_snoc in H. destruct H as [(_ & H)|(L & ->)]; auto.
    destruct dss; [exact N|discriminate].
  - intros i d d' H1 H2. apply nth_error_snoc in H2. destruct H2 as [(L & H2)|(L & ->)].
    + rewrite nth_error_app1 in H1 by lia. eapply S; eauto.
    + rewrite nth_error_app1 in H1 by lia. clear - H1 L N.
      destruct (exists_last (l := dss) ltac:(intros ->; discriminate)) as (pre & z & E). rewrite E in *.
      rewrite rev_unit in N. rewrite app_length in L. simpl in L. rewrite nth_error_app2 in H1 by lia.
      replace (i - length pre) with 0 in H1 by lia. injection H1 as <-. exact N.
Qed.

Lemma finite_left a b : length a = length b -> finite_vec (vsub a b) -> finite_vec a.
Proof.
  revert b. induction a as [|x a IH]; intros [|y b] L F z I; simpl in *; try discriminate; [contradiction|].
  destruct I as [<-|I].
  - destruct (F (xsub x y)) as (q & E); [left; reflexivity|]. apply xsub_fin in E. destruct E as (p & _ & -> & _). eauto.
  - apply (IH b ltac:(lia)); auto. intros w W. apply F. right. exact W.
Qed.

Lemma accept_inv st us dss u : inv st us dss -> (a_ds_min A <= m_ds st)%Q ->
  descending (m_taus st) \/ (a_stop A = false /\ m_folds st <> O) ->
  correct norm solve root (augmented_res xexp G (tangent norm st) (m_prev st) (m_ds st))
          (vadd (m_prev st) (vscale (Fin (m_ds st)) (tangent norm st))) = Ok (u, true) ->
  inv (accept xexp G st u) (us ++ [u]) (dss ++ [m_ds st]) /\ (a_ds_min A <= m_ds (accept xexp G st u))%Q.
Proof.
  intros H M PH C. apply corrected in C; auto. destruct C as (B & L). apply NB in B.
  unfold augmented_res in B. apply Forall_app in B. destruct B as (_ & B). inversion B as [|? ? B' _]; subst.
  destruct H as [(pre & EU) I2 I3 I4 I5 I6 I7 I8 I9 I10 I11 I12 I13].
  assert (length (m_pp st) = n + 2) as LP.
  { destruct (I6 (length pre)) as (X & _); [rewrite EU, app_length; simpl; lia|].
    rewrite EU, app_nth2, Nat.sub_diag in X by lia. exact X. }
  assert (length (m_prev st) = n + 2) as LV.
  { destruct (I6 (S (length pre))) as (X & _); [rewrite EU, app_length; simpl; lia|].
    rewrite EU, app_nth2 in X by lia. replace (S (length pre) - length pre) with 1 in X by lia. exact X. }
  assert (length (tangent norm st) = n + 2) as LT.
  { unfold tangent, vdiv. rewrite map_length. unfold vsub. rewrite map2_length; lia. }
  assert (length u = n + 2) as LU.
  { rewrite L. unfold vadd, vscale. rewrite map2_length; rewrite map_length; lia. }
  assert (finite_vec u) as FU.
  { destruct B' as (q & E & _). apply xsub_fin in E. destruct E as (x & _ & E & _).
    apply dot_fin in E; [|unfold vsub; rewrite map2_length; lia]. apply finite_left in E; [exact E|lia]. }
  assert (a_ds_min A > 0)%Q as MP by (destruct AS; lra).
  assert (a_ds_min A <= m_ds (accept xexp G st u))%Q as M'.
  { cbn. apply qmin2_le; [lra|]. lra. }
  split; [|exact M']. constructor; cbn [accept m_pp m_prev m_taus m_temps m_states m_ds m_cap m_folds].
  - exists (pre ++ [m_pp st]). rewrite EU, <- !app_assoc. reflexivity.
  - rewrite !app_length. simpl. lia.
  - rewrite !app_length. simpl. lia.
  - rewrite !app_length. simpl. lia.
  - rewrite !app_length. simpl. lia.
  - intros i Hi. rewrite app_length in Hi. simpl in Hi. destruct (Nat.eq_dec i (length us)) as [->|NE].
    + rewrite app_nth2, Nat.sub_diag by lia. unfold point_at. cbn.
      rewrite !app_nth2 by lia. rewrite I4, I2, I3, Nat.sub_diag. cbn.
      split; [exact LU|]. split; [reflexivity|].
      destruct (finite_vget u n FU ltac:(lia)) as (t & ET). destruct (finite_vget u (n + 1) FU ltac:(lia)) as (s & ES).
      unfold un_T, un_tau, TREF. unfold vget in *. cbn. rewrite ET, ES. destruct EL as (E1 & _). destruct (E1 s) as (e & -> & _).
      split; apply xeq_fin; reflexivity.
    + rewrite app_nth1 by lia. replace (point_at (accept xexp G st u) i) with (point_at st i); [apply I6; lia|].
      unfold point_at. cbn. rewrite !app_nth1 by lia. reflexivity.
  - intros i u0 u1 u2 ds H0 H1 H2 HD. apply nth_error_snoc in H2. destruct H2 as [(L2 & H2)|(L2 & ->)].
    + rewrite nth_error_app1 in H0, H1 by lia. rewrite nth_error_app1 in HD by lia. eapply I7; eauto.
    + rewrite nth_error_app2 in HD by lia. replace (i - length dss) with 0 in HD by lia. injection HD as <-.
      rewrite EU in L2, H0, H1. rewrite app_length in L2. simpl in L2.
      rewrite <- app_assoc in H0, H1. rewrite nth_error_app2 in H0, H1 by lia.
      replace (i - length pre) with 0 in H0 by lia. replace (S i - length pre) with 1 in H1 by lia.
      injection H0 as <-. injection H1 as <-. exact B'.
  - apply sizes_snoc; auto.
  - rewrite rev_unit. apply qmin2_l.
  - right. pose proof (qmin2_r (m_ds st * (6 # 5)) (m_cap st)). lra.
  - exact I11.
  - intros ST F. destruct (I12 ST F) as (_ & I). split; [|exact I].
    pose proof (qmin2_r (m_ds st * (6 # 5)) (m_cap st)). lra.
  - intros i j a b d B1 B2 X IJ D.
    assert (j <= length dss) as LJ by (assert (j < length (dss ++ [m_ds st])) by (apply nth_error_Some; congruence);
      rewrite app_length in *; simpl in *; lia).
    rewrite nth_error_app1 in B1, B2 by lia.
    apply nth_error_snoc in D. destruct D as [(_ & D)|(_ & ->)]; [exact (I13 i j a b d B1 B2 X IJ D)|].
    destruct PH as [PH|(ST & F)]; [exfalso; exact (descending_pair _ _ _ _ PH B1 B2 X)|]. apply (I12 ST F).
Qed.

Notation good := (good xexp G A).

Lemma check_phase st st1 : good st -> phase0 st \/ phase1 st /\ a_stop A = false ->
  check_fold norm G A st = (st1, false) ->
  good st1 /\
  (m_folds st1 = O /\ m_ext st1 = None /\ m_sign st1 = Fin (-1) /\ descending (m_taus st1) \/
   m_folds st1 = 1 /\ m_sign st1 = Fin 1 /\ a_stop A = false /\
   exists i rest, m_ext st1 = Some i /\ turned (m_taus st1) i rest []).
Proof.
  intros H [P|(P & ST)] C.
  - destruct (check0 norm xexp xlog G A NP EL AS st H P) as [(E & D)|(st2 & E & H1 & T1 & T2 & T3 & F1 & S1 & i & E1 & TU)];
      rewrite C in E; injection E as ->.
    + destruct P as (? & ? & ? & ?). auto 10.
    + split; [exact H1|]. right. repeat split; auto. exists i, []. auto.
  - destruct (check1 norm xexp xlog G A NP EL st H P) as [(E & i & rest & E1 & TU)|(st2 & E & _)];
      rewrite C in E; [injection E as ->|discriminate].
    destruct P as (? & ? & _). split; [exact H|]. right. repeat split; auto. eauto.
Qed.

Lemma marching_inv : forall k st us dss st', inv st us dss -> good st ->
  phase0 st \/ phase1 st /\ a_stop A = false ->
  marching norm xexp solve root G A k st = Ok st' -> exists us' dss', inv st' us' dss'.
Proof.
  induction k; intros st us dss st' H GD PH R; cbn [marching] in R.
  - apply ok_inj in R. subst st'. eauto.
  - destruct (check_inv st us dss H (g_ds _ _ _ _ GD)) as (H1 & M1 & E1 & E2).
    destruct (check_fold norm G A st) as [st1 lv] eqn:CF. cbn [fst] in *. destruct lv.
    + apply ok_inj in R. subst st'. eauto.
    + destruct (check_phase _ _ GD PH CF) as (G1 & P1).
      apply bind_ok in R. destruct R as ([u ok] & C & R).
      assert (tangent norm st = tangent norm st1) as ET by (unfold tangent; rewrite E1, E2; reflexivity).
      rewrite ET in C. destruct ok.
      * destruct (accept_inv st1 us dss u H1 M1) as (H2 & M2); [|exact C|].
        { destruct P1 as [(_ & _ & _ & D)|(F & _ & ST & _)]; [left; exact D|right; split; [exact ST|congruence]]. }
        destruct (accepted norm xexp solve root G A NB HR HS GC AS st1 u G1 C) as (GU & SU & MU).
        pose proof (good_accept xexp xlog G A EL AS st1 u G1 GU SU MU) as G2.
        apply (IHk _ _ _ _ H2 G2); [|exact R].
        destruct P1 as [(F1 & X1 & S1 & D)|(F1 & S1 & ST & i & rest & X1 & TU)].
        -- left. unfold phase0. cbn. repeat split; auto. rewrite removelast_last. exact D.
        -- right. split; auto. unfold phase1. cbn. split; [auto|]. split; [auto|].
           exists i, rest, [un_tau xexp G u]. split; [auto|]. split; [cbn; lia|]. apply turned_snoc. exact TU.
      * assert (0 < a_ds_min A)%Q as MP by (destruct AS; lra).
        assert (inv (halve st1) us dss) as H2.
        { apply (inv_smaller st1 _ us dss); auto; cbn; [lra|apply (i_cap _ _ _ H1)|].
          intros ST F. destruct (i_slow _ _ _ H1 ST F). split; [lra|assumption]. }
        destruct (Qlt_bool (m_ds (halve st1)) (a_ds_min A)) eqn:Q.
        -- apply ok_inj in R. subst st'. eauto.
        -- apply Qlt_bool_false in Q. apply (IHk _ _ _ _ H2 (good_halve xexp G A st1 G1 Q)); [|exact R].
           destruct P1 as [(F1 & X1 & S1 & D)|(F1 & S1 & ST & i & rest & X1 & TU)].
           ++ left. unfold phase0. cbn. repeat split; auto.
              destruct (g_last _ _ _ _ G1) as (l & a & b & E & _). rewrite E in *. rewrite removelast_two.
              apply (sorted_prefix _ (l ++ [a]) [b]). rewrite <- app_assoc. exact D.
           ++ right. split; auto. unfold phase1. cbn. split; [auto|]. split; [auto|]. exists i, rest, []. auto.
Qed.

Lemma seed_stands tau x : (0 < tau)%Q -> length x = n + 1 ->
  steady G eps (mkPP (Fin tau) (vget x n) (take_Y G x)) ->
  stands (seed_u xlog G tau x) (mkPP (Fin tau) (vget x n) (take_Y G x)).
Proof.
  intros T L ((t & ET & _) & _). cbn in ET. destruct EL as (_ & _ & _ & LG). destruct (LG tau T) as (l & LE & X).
  assert (length (take_Y G x) = n) as LY by (unfold take_Y; rewrite firstn_length; lia).
  unfold stands_for, seed_u. cbn. split; [rewrite app_length, LY; simpl; lia|].
  split; [rewrite firstn_app, LY, Nat.sub_diag; simpl; rewrite app_nil_r; apply firstn_all2; lia|].
  rewrite !app_nth2 by lia. rewrite LY, Nat.sub_diag. replace (n + 1 - n) with 1 by lia. cbn [nth].
  rewrite ET, LE. split.
  - unfold TREF. apply xeq_fin. field.
  - unfold xeq in *. rewrite andb_comm. exact X.
Qed.

Lemma start_inv x0 x1 :
  length x0 = n + 1 -> length x1 = n + 1 ->
  steady G eps (mkPP (Fin (a_tau_start A)) (vget x0 n) (take_Y G x0)) ->
  steady G eps (mkPP (Fin (a_tau_second A)) (vget x1 n) (take_Y G x1)) ->
  inv (start xlog G A x0 x1) [seed_u xlog G (a_tau_start A) x0; seed_u xlog G (a_tau_second A) x1] [].
Proof.
  intros L0 L1 S0 S1. destruct AS as (T0 & T1 & NE & A1 & A2 & A3 & A4).
  constructor; cbn [start m_pp m_prev m_taus m_temps m_states m_ds m_cap]; auto.
  - exists []. reflexivity.
  - intros [|[|i]] Hi; simpl in Hi; try lia; cbn [nth]; apply seed_stands; auto.
  - intros i u0 u1 u2 ds _ _ _ D. destruct i; discriminate.
  - repeat split; try contradiction; intros i; intros; destruct i; discriminate.
  - cbn. lra.
  - left. lra.
  - lra.
  - intros _ F. exfalso. apply F. reflexivity.
  - intros i j a b ds _ _ _ _ D. destruct j; discriminate.
Qed.

Lemma steps_top branch c : 
  trace_extinction_curve norm xexp xlog xsqrt solve root G A = Ok (branch, c) ->
  exists Ys us dss,
    length Ys = length branch /\ length us = length branch /\ length dss + 2 = length branch /\
    (forall i tau T Y u, nth_error branch i = Some (tau, T) -> nth_error Ys i = Some Y -> nth_error us i = Some u ->
       stands u (mkPP tau T Y) /\ steady G (1 # 10000000) (mkPP tau T Y)) /\
    (forall p, In p [pc_ext c; pc_mid c; pc_near c] ->
       exists i, nth_error branch i = Some (pp_tau p, pp_T p) /\ nth_error Ys i = Some (pp_Y p)) /\
    spaced norm (1 # 10000000) us dss /\ step_sizes A dss /\ slow_after_turn branch dss.
Proof.
  intros H.
  destruct (trace_inv_start norm xexp xlog xsqrt solve root G A NB NP HR HS EL GC AS _ _ SQ H)
    as (x0 & x1 & st & i & j & k & rest & last & (L0 & S0 & L1 & S1) & M & R & -> & _ & EC & TU & _ & _ & (LJ & _) & (LK & _)).
  assert (i < length (m_taus st)) as LI.
  { destruct TU as (front & tm & tl & -> & _ & _ & _ & (B & _)). rewrite app_length in B. simpl in B.
    rewrite app_length. simpl. lia. }
  rewrite firstn_length in LJ, LK.
  destruct (marching_inv _ _ _ _ _ (start_inv x0 x1 L0 L1 S0 S1)
    (start_good xexp xlog G A EL AS x0 x1 L0 L1 S0 S1) (or_introl (start_phase xlog G A x0 x1)) M)
    as (us & dss & [_ I2 I3 I4 I5 I6 I7 I8 _ _ _ _ I13]).
  assert (length (combine (m_taus st) (m_temps st)) = length (m_taus st)) as LC by (rewrite combine_length; lia).
  assert (forall q, q < length (m_taus st) -> nth_error (combine (m_taus st) (m_temps st)) q
            = Some (pp_tau (point_at st q), pp_T (point_at st q))) as NC.
  { intros q Q. rewrite (nth_error_nth' _ (NaN, NaN)) by lia. rewrite combine_nth by lia. reflexivity. }
  exists (m_states st), us, dss. rewrite LC. split; [exact I3|]. split; [exact I4|]. split; [rewrite <- I4; exact I5|]. split; [|split; [|split; [exact I7|split; [exact I8|]]]].
  - intros q tau T Y u B1 B2 B3. assert (q < length us) as Q by (apply nth_error_Some; congruence).
    rewrite NC in B1 by lia. injection B1 as <- <-.
    specialize (I6 q Q). apply (nth_error_nth _ _ []) in B2. apply (nth_error_nth _ _ []) in B3.
    assert (mkPP (nth q (m_taus st) NaN) (nth q (m_temps st) NaN) Y = point_at st q) as EP
      by (unfold point_at; cbn; f_equal; symmetry; exact B2).
    rewrite EP, <- B3. split; [exact I6|]. apply (r_steady _ _ _ _ R). lia.
  - assert (forall q, q < length (m_taus st) -> exists z,
        nth_error (combine (m_taus st) (m_temps st)) z = Some (pp_tau (point_at st q), pp_T (point_at st q)) /\
        nth_error (m_states st) z = Some (pp_Y (point_at st q))) as P.
    { intros q Q. exists q. split; [auto|]. unfold point_at. cbn. apply nth_error_nth'. lia. }
    rewrite EC. cbn. intros p [<-|[<-|[<-|[]]]]; apply P; lia.
  - intros a b c0 T e T2 ds B1 B2 X J D.
    assert (a < length (m_taus st)) by (rewrite <- LC; apply nth_error_Some; congruence).
    assert (S a < length (m_taus st)) by (rewrite <- LC; apply nth_error_Some; congruence).
    rewrite NC in B1, B2 by assumption. injection B1 as B1 _. injection B2 as B2 _.
    apply (I13 a b c0 e ds); auto; [rewrite <- B1|rewrite <- B2]; apply nth_error_nth'; assumption.
Qed.
End Steps.
