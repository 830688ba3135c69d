(** The whole of [trace_extinction_curve]. *)
From Coq Require Import List QArith Qabs Bool Arith Lia Lqa Sorted.
From Verif.Base Require Import Py Num XNum.
From Verif.Model Require Import Simulation Sensitivity Psr.
From Verif.Spec Require Import PsrSpec.
From Verif.Proofs Require Import NumFacts PsrFacts PsrNum PsrMarch.
Import ListNotations.
Local Open Scope Q_scope.

Lemma bind_ok {X Y} (r : res X) (k : X -> res Y) y : bind r k = Ok y -> exists x, r = Ok x /\ k x = Ok y.
Proof. destruct r; simpl; intros H; try discriminate. eauto. Qed.

Section Top.
Variable norm : vec -> xnum.
Variables xexp xlog xsqrt : xnum -> xnum.
Variable solve : list vec -> vec -> option vec.
Variable root : (vec -> vec) -> vec -> res (bool * vec * vec).
Variable G : gas.
Variable A : psr_args.

Notation n := (g_n G).
Notation sigma := (g_n G + 1)%nat.
Notation trace := (trace_extinction_curve norm xexp xlog xsqrt solve root G).

(** ** Nothing is taken back *)

Lemma check_taus st : m_taus (fst (check_fold norm G A st)) = m_taus st /\
  m_temps (fst (check_fold norm G A st)) = m_temps st /\ m_states (fst (check_fold norm G A st)) = m_states st.
Proof.
  unfold check_fold. destruct (negb _ && negb _)%bool; [|auto].
  destruct (m_folds st); [|auto]. destruct (a_stop A); auto.
Qed.

Lemma marching_grows : forall k st st', marching norm xexp solve root G A k st = Ok st' ->
  exists r, m_taus st' = m_taus st ++ r.
Proof.
  induction k; intros st st' H; cbn [marching] in H.
  - injection H as <-. exists []. rewrite app_nil_r. reflexivity.
  - destruct (check_taus st) as (T & _). destruct (check_fold norm G A st) as [st1 []]; simpl in T.
    + injection H as <-. exists []. rewrite app_nil_r. assumption.
    + apply bind_ok in H. destruct H as ([u ok] & C & H). destruct ok.
      * apply IHk in H. destruct H as (r & H). simpl in H. rewrite T, <- app_assoc in H. eauto.
      * destruct (Qlt_bool _ _).
        -- injection H as <-. exists []. rewrite app_nil_r. assumption.
        -- apply IHk in H. destruct H as (r & H). simpl in H. rewrite T in H. eauto.
Qed.

(** ** The seeds *)

Section Sound.
Hypothesis NB : norm_bounds norm.
Hypothesis NP : norm_positive norm.
Hypothesis HR : honest root.
Hypothesis HS : one_per_column solve.
Hypothesis EL : exp_and_log xexp xlog.
Hypothesis GC : consistent G.
Hypothesis AS : sensible A.

Lemma seeded tau guess x : length guess = (n + 1)%nat ->
  solve_fixed_tau norm solve root G tau guess = Ok (x, true) ->
  length x = (n + 1)%nat /\ steady G eps (mkPP (Fin tau) (vget x n) (take_Y G x)).
Proof.
  intros L H. unfold solve_fixed_tau in H. apply corrected in H; auto. destruct H as (B & LX).
  rewrite L in LX. split; auto. apply NB in B. apply residual_steady; auto; [unfold eps; lra|].
  unfold take_Y. rewrite firstn_length. lia.
Qed.

Lemma seed_good tau x : 0 < tau -> length x = (n + 1)%nat ->
  steady G eps (mkPP (Fin tau) (vget x n) (take_Y G x)) -> good_u G (seed_u xlog G tau x).
Proof.
  intros T L (ST & _ & SY & _). simpl in ST, SY. destruct ST as (t & ST & _).
  destruct EL as (_ & _ & _ & LG). destruct (LG tau T) as (l & LE & _).
  constructor.
  - unfold seed_u. rewrite app_length. unfold take_Y. rewrite firstn_length. simpl. lia.
  - intros z I. unfold seed_u in I. apply in_app_or in I. destruct I as [I|[<-|[<-|[]]]].
    + rewrite Forall_forall in SY. apply SY. assumption.
    + rewrite ST. simpl. eauto.
    + eauto.
Qed.

Lemma seed_sigma tau x : length x = (n + 1)%nat -> vget (seed_u xlog G tau x) sigma = xlog (Fin tau).
Proof.
  intros L. unfold seed_u, vget. rewrite app_nth2; unfold take_Y; rewrite firstn_length; [|lia].
  replace (n + 1 - Nat.min n (length x))%nat with 1%nat by lia. reflexivity.
Qed.

Lemma start_good x0 x1 :
  length x0 = (n + 1)%nat -> length x1 = (n + 1)%nat ->
  steady G eps (mkPP (Fin (a_tau_start A)) (vget x0 n) (take_Y G x0)) ->
  steady G eps (mkPP (Fin (a_tau_second A)) (vget x1 n) (take_Y G x1)) ->
  good xexp G A (start xlog G A x0 x1).
Proof.
  intros L0 L1 S0 S1. destruct AS as (T0 & T1 & NE & A1 & A2 & A3 & A4).
  destruct EL as (EP & EM & ES & LG).
  destruct (LG _ T0) as (l0 & E0 & X0). destruct (LG _ T1) as (l1 & E1 & X1).
  pose proof (seed_good _ _ T0 L0 S0) as U0. pose proof (seed_good _ _ T1 L1 S1) as U1.
  constructor; cbn [start m_pp m_prev m_taus m_temps m_states m_ds m_cap]; auto.
  - intros [|[|i]] Hi; simpl in Hi; try lia; assumption.
  - constructor; [|constructor; [|constructor]]; eexists; eauto.
  - exists [], (Fin (a_tau_start A)), (Fin (a_tau_second A)). split; [reflexivity|].
    rewrite !seed_sigma, E0, E1 by assumption. unfold xeq in *. rewrite andb_comm in X0, X1. auto.
  - exists (l1 + - l0). split.
    + replace (Fin (l1 + - l0)) with (vget (vsub (seed_u xlog G (a_tau_second A) x1) (seed_u xlog G (a_tau_start A) x0)) sigma).
      * unfold vget. apply nth_In. unfold vsub. rewrite map2_length; destruct U0, U1; lia.
      * destruct U0, U1. rewrite vget_vsub by lia. rewrite !seed_sigma, E0, E1 by assumption. reflexivity.
    + intros Z. apply NE.
      destruct (EP l0) as (e0 & P0 & _). destruct (EP l1) as (e1 & P1 & _).
      pose proof (EM l0 l1 ltac:(lra)) as M1. pose proof (EM l1 l0 ltac:(lra)) as M2.
      rewrite P0, P1 in *. apply xle_fin in M1. apply xle_fin in M2. apply xeq_fin in X0. apply xeq_fin in X1. lra.
Qed.

Lemma start_phase x0 x1 : phase0 (start xlog G A x0 x1).
Proof. unfold phase0. simpl. conj; auto. repeat constructor. Qed.

Lemma first_nearest_argmin l t : l <> [] -> Forall positive l -> (exists q, t = Fin q) ->
  first_nearest l t (argmin (map (fun x => xabs (xsub x t)) l)).
Proof.
  intros N F (q & ->).
  destruct (argmin_spec (map (fun x => xabs (xsub x (Fin q))) l)) as (B & H).
  - destruct l; [congruence|discriminate].
  - apply Forall_forall. intros y I. apply in_map_iff in I. destruct I as (x & <- & I).
    rewrite Forall_forall in F. destruct (F _ I) as (t & -> & _). reflexivity.
  - rewrite map_length in *. split; [assumption|]. intros j J. specialize (H j J). cbv zeta.
    rewrite !(nth_indep _ NaN (xabs (xsub NaN (Fin q)))) in H by (rewrite map_length; assumption).
    rewrite !(map_nth (fun x => xabs (xsub x (Fin q))) l NaN) in H. exact H.
Qed.

(** ** What a result is made of *)

Lemma trace_inv_start branch c : square_root xsqrt -> trace A = Ok (branch, c) ->
  exists x0 x1 st i j k rest last,
    (length x0 = g_n G + 1 /\ steady G eps (mkPP (Fin (a_tau_start A)) (vget x0 (g_n G)) (take_Y G x0)) /\
     length x1 = g_n G + 1 /\ steady G eps (mkPP (Fin (a_tau_second A)) (vget x1 (g_n G)) (take_Y G x1)))%nat /\
    marching norm xexp solve root G A (a_max_steps A) (start xlog G A x0 x1) = Ok st /\
    result G A st (a_max_steps A) /\ branch = combine (m_taus st) (m_temps st) /\
    (exists r, m_taus st = [Fin (a_tau_start A); Fin (a_tau_second A)] ++ r) /\
    c = mkCurve (point_at st i) (point_at st k) (point_at st j) /\
    turned (m_taus st) i rest last /\ (length last <= 1)%nat /\
    (a_stop A = true -> rest = [] /\ last = [] /\ (length (m_taus st) <= a_max_steps A + 1)%nat) /\
    first_nearest (firstn (i + 1) (m_taus st)) (Fin (1 # 10)) j /\
    first_nearest (firstn (i + 1) (m_taus st)) (xsqrt (xmul (pp_tau (pc_ext c)) (pp_tau (pc_near c)))) k.
Proof.
  intros SQ H. unfold trace_extinction_curve in H.
  apply bind_ok in H. destruct H as ([Ye Te] & EQ & H). cbv zeta in H.
  apply bind_ok in H. destruct H as ([x0 ok0] & S0 & H).
  apply bind_ok in H. destruct H as ([x1 ok1] & S1 & H).
  destruct (ok0 && ok1) eqn:OK; [|discriminate]. apply andb_true_iff in OK. destruct OK as (-> & ->).
  apply bind_ok in H. destruct H as (st & M & F).
  pose proof GC as (_ & _ & LE & _). apply LE in EQ.
  apply seeded in S0; [|rewrite app_length; cbn [fst snd length]; rewrite EQ; reflexivity]. destruct S0 as (L0 & S0).
  apply seeded in S1; [|assumption]. destruct S1 as (L1 & S1).
  pose proof (start_good _ _ L0 L1 S0 S1) as GS.
  pose proof M as M0.
  pose proof (marching_grows _ _ _ M) as GR.
  apply (marching_result norm xexp xlog solve root G A NB NP HR HS EL GC AS (a_max_steps A) _ _ (a_max_steps A) GS
           (or_introl (start_phase x0 x1)) ltac:(cbn [start m_taus length]; lia)) in M.
  unfold finish in F.
  destruct (r_ext _ _ _ _ M) as [E|(i & rest & last & E & T & LL & ST)]; rewrite E in F; [discriminate|].
  assert (i < length (m_taus st))%nat as LI.
  { destruct T as (front & tm & tl & -> & _ & _ & _ & (B & _)). rewrite app_length in B. simpl in B.
    rewrite app_length. simpl. lia. }
  assert (firstn (i + 1) (m_taus st) <> []) as NE.
  { rewrite Nat.add_1_r. destruct (m_taus st); [simpl in LI; lia|discriminate]. }
  assert (Forall positive (firstn (i + 1) (m_taus st))) as FP.
  { pose proof (r_pos _ _ _ _ M) as P. rewrite <- (firstn_skipn (i + 1)) in P. apply Forall_app in P. apply P. }
  pose proof (first_nearest_argmin _ (Fin (1 # 10)) NE FP ltac:(eauto)) as FN.
  set (j := argmin (map (fun x => xabs (xsub x (Fin (1 # 10)))) (firstn (i + 1) (m_taus st)))) in *.
  assert (exists q, xsqrt (xmul (nth i (m_taus st) NaN) (nth j (m_taus st) NaN)) = Fin q) as SQF.
  { destruct FN as (LJ & _). rewrite firstn_length in LJ.
    pose proof (r_pos _ _ _ _ M) as P. rewrite Forall_forall in P.
    destruct (P (nth i (m_taus st) NaN)) as (p & -> & PP); [apply nth_In; lia|].
    destruct (P (nth j (m_taus st) NaN)) as (q & -> & PQ); [apply nth_In; lia|].
    simpl. apply SQ. apply Qmult_lt_0_compat; assumption. }
  pose proof (first_nearest_argmin _ _ NE FP SQF) as FK.
  set (k := argmin (map _ _)) in FK.
  apply ok_inj in F. injection F as FB FC.
  exists x0, x1, st, i, j, k, rest, last. split; [auto|]. split; [exact M0|].
  split; [exact M|]. split; [auto|]. split; [exact GR|]. split; [auto|]. rewrite <- FC. auto 10.
Qed.

Lemma trace_inv branch c : square_root xsqrt -> trace A = Ok (branch, c) ->
  exists st i j k rest last,
    result G A st (a_max_steps A) /\ branch = combine (m_taus st) (m_temps st) /\
    (exists r, m_taus st = [Fin (a_tau_start A); Fin (a_tau_second A)] ++ r) /\
    c = mkCurve (point_at st i) (point_at st k) (point_at st j) /\
    turned (m_taus st) i rest last /\ (length last <= 1)%nat /\
    (a_stop A = true -> rest = [] /\ last = [] /\ (length (m_taus st) <= a_max_steps A + 1)%nat) /\
    first_nearest (firstn (i + 1) (m_taus st)) (Fin (1 # 10)) j /\
    first_nearest (firstn (i + 1) (m_taus st)) (xsqrt (xmul (pp_tau (pc_ext c)) (pp_tau (pc_near c)))) k.
Proof.
  intros SQ H. destruct (trace_inv_start _ _ SQ H) as (x0 & x1 & st & i & j & k & rest & last & _ & _ & R).
  exists st, i, j, k, rest, last. exact R.
Qed.

Lemma map_fst_combine (l : list xnum) (m : list xnum) : length m = length l -> map fst (combine l m) = l.
Proof.
  revert m. induction l as [|x l IH]; intros [|y m] L; simpl in *; try discriminate; auto.
  f_equal. apply IH. lia.
Qed.

Lemma point_on_branch st k i : result G A st k -> (i < length (m_taus st))%nat ->
  on_branch (combine (m_taus st) (m_temps st)) (point_at st i) i.
Proof.
  intros R I. unfold on_branch, point_at. simpl.
  assert (forall (l m : list xnum) i, length m = length l -> (i < length l)%nat ->
            nth_error (combine l m) i = Some (nth i l NaN, nth i m NaN)) as P.
  { induction l as [|x l IH]; intros [|y m] [|a] L B; simpl in *; try discriminate; try lia; auto.
    apply IH; lia. }
  apply P; auto. apply (r_temps _ _ _ _ R).
Qed.

(** The minimum of a curve that goes down and then up. *)
Lemma turned_min front tm tl i : descending (front ++ [tm]) -> xlt tm tl = true ->
  first_smallest (front ++ [tm; tl]) i ->
  (i <= length front)%nat /\ xeq (nth i (front ++ [tm; tl]) NaN) tm = true.
Proof.
  intros D T (B & F). rewrite app_length in *. simpl in *.
  destruct (F (length front) ltac:(lia)) as (F1 & F2).
  rewrite (app_nth2 _ _ _ (Nat.le_refl _)), Nat.sub_diag in F1, F2. simpl in F1, F2.
  assert (i <= length front)%nat as I.
  { destruct (le_lt_dec i (length front)); auto. exfalso.
    assert (i = S (length front)) as -> by lia.
    rewrite app_nth2 in F1 by lia. replace (S (length front) - length front)%nat with 1%nat in F1 by lia.
    simpl in F1. pose proof (xlt_le_trans _ _ _ T F1) as X.
    destruct tm; simpl in X; try discriminate. apply Qlt_bool_iff in X. lra. }
  split; auto. unfold xeq. rewrite F1. simpl.
  destruct (Nat.eq_dec i (length front)) as [->|].
  - rewrite app_nth2 by lia. rewrite Nat.sub_diag. simpl.
    destruct tm; simpl in *; try discriminate; auto. apply Qle_bool_iff. lra.
  - apply (sorted_snoc_last (fun x y => xle y x) front tm D).
    rewrite app_nth1 by lia. apply nth_In. lia.
Qed.

Lemma turned_bound taus i rest last : turned taus i rest last -> (i < length taus)%nat.
Proof.
  intros (front & tm & tl & -> & _ & _ & _ & (B & _)). rewrite app_length in *. simpl in *. lia.
Qed.

(** ** The statements *)

Lemma extinction_top branch c : square_root xsqrt -> a_stop A = true -> trace A = Ok (branch, c) ->
  exists front tm tl i,
    map fst branch = front ++ [tm; tl] /\ descending (front ++ [tm]) /\ xlt tm tl = true /\
    first_smallest (map fst branch) i /\ on_branch branch (pc_ext c) i /\
    xeq (pp_tau (pc_ext c)) tm = true.
Proof.
  intros SQ ST H. apply trace_inv in H; auto.
  destruct H as (st & i & j & k & rest & last & R & -> & GR & -> & T & LL & SS & _ & _).
  destruct (SS ST) as (-> & -> & LN).
  pose proof (turned_bound _ _ _ _ T) as TB.
  destruct T as (front & tm & tl & E & D & X & _ & F). rewrite !app_nil_r in E.
  rewrite map_fst_combine by apply (r_temps _ _ _ _ R).
  exists front, tm, tl, i. split; [assumption|]. split; [assumption|]. split; [assumption|].
  split; [rewrite E; assumption|]. split; [eapply point_on_branch; eauto|].
  simpl. rewrite E. apply (turned_min _ _ _ _ D X F).
Qed.

Lemma full_march_top branch c : square_root xsqrt -> trace A = Ok (branch, c) ->
  exists front tm tl rest last i,
    map fst branch = front ++ [tm; tl] ++ rest ++ last /\ descending (front ++ [tm]) /\ xlt tm tl = true /\
    ascending (tl :: rest) /\ (length last <= 1)%nat /\
    first_smallest (front ++ [tm; tl] ++ rest) i /\ on_branch branch (pc_ext c) i /\
    xeq (pp_tau (pc_ext c)) tm = true.
Proof.
  intros SQ H. apply trace_inv in H; auto.
  destruct H as (st & i & j & k & rest & last & R & -> & GR & -> & T & LL & SS & _ & _).
  pose proof (turned_bound _ _ _ _ T) as TB.
  destruct T as (front & tm & tl & E & D & X & AC & F).
  rewrite map_fst_combine by apply (r_temps _ _ _ _ R).
  destruct (turned_min _ _ _ _ D X F) as (I & XE).
  assert (forall j, (j <= S (length front))%nat ->
            nth j (front ++ [tm; tl] ++ rest) NaN = nth j (front ++ [tm; tl]) NaN) as N1.
  { intros j' J. rewrite app_assoc. apply app_nth1. rewrite app_length. simpl. lia. }
  assert (nth i (m_taus st) NaN = nth i (front ++ [tm; tl]) NaN) as NI.
  { rewrite E. rewrite app_assoc. apply app_nth1. rewrite app_length. simpl. lia. }
  exists front, tm, tl, rest, last, i.
  split; [assumption|]. split; [assumption|]. split; [assumption|]. split; [assumption|]. split; [assumption|].
  split; [|split; [eapply point_on_branch; eauto|simpl; rewrite NI; assumption]].
  split; [rewrite app_length; simpl; lia|].
  intros j' J. rewrite !app_length in J. simpl in J. rewrite (N1 i) by lia.
  destruct (le_lt_dec j' (S (length front))) as [Q|Q].
  - rewrite N1 by assumption. apply F. rewrite app_length. simpl. lia.
  - split; [|lia].
    assert (In (nth j' (front ++ [tm; tl] ++ rest) NaN) rest) as IN.
    { rewrite app_nth2 by lia. rewrite app_nth2 by (simpl; lia). simpl. apply nth_In. lia. }
    inversion AC as [|? ? _ FA]; subst. rewrite Forall_forall in FA. apply FA in IN.
    apply xeq_le in XE. eapply xle_trans; [apply XE|]. eapply xle_trans; [|exact IN]. apply xlt_le. assumption.
Qed.

Lemma sampled_top branch c : square_root xsqrt -> trace A = Ok (branch, c) ->
  exists i j k,
    on_branch branch (pc_ext c) i /\ on_branch branch (pc_near c) j /\ on_branch branch (pc_mid c) k /\
    (j <= i)%nat /\ (k <= i)%nat /\
    first_nearest (firstn (S i) (map fst branch)) (Fin (1 # 10)) j /\
    first_nearest (firstn (S i) (map fst branch)) (xsqrt (xmul (pp_tau (pc_ext c)) (pp_tau (pc_near c)))) k.
Proof.
  intros SQ H. apply trace_inv in H; auto.
  destruct H as (st & i & j & k & rest & last & R & -> & GR & -> & T & LL & SS & FJ & FK).
  rewrite Nat.add_1_r in *.
  pose proof (turned_bound _ _ _ _ T) as B.
  rewrite map_fst_combine by apply (r_temps _ _ _ _ R).
  assert (j <= i)%nat as J by (destruct FJ as (Q & _); rewrite firstn_length in Q; lia).
  assert (k <= i)%nat as K by (destruct FK as (Q & _); rewrite firstn_length in Q; lia).
  exists i, j, k. conj; auto; eapply point_on_branch; eauto; lia.
Qed.

Lemma steady_top branch c : square_root xsqrt -> trace A = Ok (branch, c) ->
  (forall tau T, In (tau, T) branch -> exists Y, steady G (1 # 10000000) (mkPP tau T Y)) /\
  steady G (1 # 10000000) (pc_ext c) /\ steady G (1 # 10000000) (pc_near c) /\
  steady G (1 # 10000000) (pc_mid c).
Proof.
  intros SQ H. apply trace_inv in H; auto.
  destruct H as (st & i & j & k & rest & last & R & -> & GR & -> & T & LL & SS & FJ & FK).
  pose proof (turned_bound _ _ _ _ T) as B.
  assert (j <= i)%nat as J by (destruct FJ as (Q & _); rewrite firstn_length in Q; lia).
  assert (k <= i)%nat as K by (destruct FK as (Q & _); rewrite firstn_length in Q; lia).
  split; [|simpl; conj; apply (r_steady _ _ _ _ R); lia].
  intros tau Tm I. apply (In_nth_error) in I. destruct I as (a & I).
  assert (a < length (m_taus st))%nat as L.
  { assert (a < length (combine (m_taus st) (m_temps st)))%nat as X by (apply nth_error_Some; congruence).
    rewrite combine_length in X. lia. }
  pose proof (point_on_branch _ _ _ R L) as P. unfold on_branch in P. rewrite I in P. injection P as -> ->.
  exists (nth a (m_states st) []). apply (r_steady _ _ _ _ R a L).
Qed.

Lemma length_top branch c : square_root xsqrt -> trace A = Ok (branch, c) ->
  (length branch <= a_max_steps A + 2)%nat /\
  (a_stop A = true -> (length branch <= a_max_steps A + 1)%nat) /\
  exists r, map fst branch = Fin (a_tau_start A) :: Fin (a_tau_second A) :: r.
Proof.
  intros SQ H. apply trace_inv in H; auto.
  destruct H as (st & i & j & k & rest & last & R & -> & GR & -> & T & LL & SS & FJ & FK).
  assert (length (combine (m_taus st) (m_temps st)) = length (m_taus st)) as ->.
  { rewrite combine_length, (r_temps _ _ _ _ R). lia. }
  rewrite map_fst_combine by apply (r_temps _ _ _ _ R).
  split; [apply (r_len _ _ _ _ R)|]. split; [intros ST; apply (SS ST)|]. exact GR.
Qed.

(** Seeds in ascending order. *)
Lemma wrong_order_top branch c : square_root xsqrt -> a_stop A = true -> a_tau_start A < a_tau_second A ->
  trace A = Ok (branch, c) ->
  map fst branch = [Fin (a_tau_start A); Fin (a_tau_second A)] /\ pp_tau (pc_ext c) = Fin (a_tau_start A).
Proof.
  intros SQ ST O H. destruct (length_top _ _ SQ H) as (_ & _ & r & E).
  destruct (extinction_top _ _ SQ ST H) as (front & tm & tl & i & E1 & D & X & F & B & XE).
  assert (front = []) as ->.
  { destruct front as [|a [|b front]]; auto; exfalso.
    - simpl in E1. rewrite E in E1. injection E1 as <- <- _.
      simpl in D. inversion D as [|? ? _ FA]; subst. inversion FA as [|? ? Y _]; subst. apply xle_fin in Y. lra.
    - simpl in E1. rewrite E in E1. injection E1 as <- <- _.
      simpl in D. inversion D as [|? ? _ FA]; subst. inversion FA as [|? ? Y _]; subst. apply xle_fin in Y. lra. }
  simpl in E1. rewrite E in E1. injection E1 as <- <- ->. split; [assumption|].
  unfold on_branch in B. rewrite E in F. destruct F as (LI & F). simpl in LI.
  destruct i as [|[|i]]; [| |lia].
  - destruct branch as [|[t0 T0] br]; [discriminate|]. simpl in B, E. injection B as -> _. injection E as E _. congruence.
  - exfalso. destruct (F 0%nat ltac:(simpl; lia)) as (F0 & _). simpl in F0. apply Qle_bool_iff in F0. lra.
Qed.

(** Extinction above 0.1 s. *)
Lemma xabs_fin q : xabs (Fin q) = Fin (Qabs q).
Proof. reflexivity. Qed.

Lemma late_top branch c : square_root xsqrt -> trace A = Ok (branch, c) ->
  xle (Fin (1 # 10)) (pp_tau (pc_ext c)) = true ->
  pc_near c = pc_ext c /\ pc_mid c = pc_ext c.
Proof.
  intros SQ H X. apply trace_inv in H; auto.
  destruct H as (st & i & j & k & rest & last & R & -> & GR & -> & T & LL & SS & FJ & FK).
  rewrite Nat.add_1_r in *. pose proof (turned_bound _ _ _ _ T) as B. cbn [pc_ext pc_near pp_tau point_at] in X, FK.
  pose proof (r_pos _ _ _ _ R) as P. rewrite Forall_forall in P.
  assert (forall a, (a <= i)%nat -> nth a (firstn (Datatypes.S i) (m_taus st)) NaN = nth a (m_taus st) NaN) as FI.
  { intros a LA. transitivity (nth a (firstn (Datatypes.S i) (m_taus st) ++ skipn (Datatypes.S i) (m_taus st)) NaN).
    - rewrite app_nth1; auto. rewrite firstn_length. lia.
    - rewrite firstn_skipn. reflexivity. }
  assert (forall a, (a < i)%nat -> xlt (nth i (m_taus st) NaN) (nth a (m_taus st) NaN) = true) as FS.
  { destruct T as (front & tm & tl & E & _ & _ & _ & (LI & F)). intros a LA.
    destruct (F a ltac:(lia)) as (_ & Q). specialize (Q LA).
    rewrite E. rewrite app_assoc. rewrite !(app_nth1 (front ++ [tm; tl])) by lia. assumption. }
  destruct (P (nth i (m_taus st) NaN)) as (ti & EI & PI); [apply nth_In; lia|].
  rewrite EI in X. apply xle_fin in X.
  assert (j = i) as ->.
  { destruct FJ as (LJ & FJ). rewrite firstn_length in LJ.
    destruct (FJ i) as (Q & _); [rewrite firstn_length; lia|]. cbv zeta in Q.
    rewrite !FI in Q by lia.
    destruct (Nat.eq_dec j i) as [|NE]; [assumption|]. exfalso.
    specialize (FS j ltac:(lia)).
    destruct (P (nth j (m_taus st) NaN)) as (tj & EJ & PJ); [apply nth_In; lia|].
    rewrite EI, EJ in *. apply xlt_fin in FS.
    change (Qle_bool (Qabs (tj + - (1 # 10))) (Qabs (ti + - (1 # 10))) = true) in Q.
    apply Qle_bool_iff in Q. rewrite !Qabs_pos in Q by lra. lra. }
  split; [reflexivity|]. simpl.
  assert (k = i) as ->; [|reflexivity].
  rewrite EI in FK. change (xmul (Fin ti) (Fin ti)) with (Fin (ti * ti)) in FK.
  destruct SQ as (_ & SQ). pose proof (SQ ti (ti * ti) PI ltac:(reflexivity)) as XS.
  destruct (xsqrt (Fin (ti * ti))) as [s| | |]; simpl in XS; try discriminate.
  apply (proj1 (xeq_fin s ti)) in XS.
  destruct FK as (LK & FK). rewrite firstn_length in LK.
  destruct (FK i) as (Q & _); [rewrite firstn_length; lia|]. cbv zeta in Q.
  rewrite !FI in Q by lia.
  destruct (Nat.eq_dec k i) as [|NE]; [assumption|]. exfalso.
  specialize (FS k ltac:(lia)).
  destruct (P (nth k (m_taus st) NaN)) as (tk & EK & PK); [apply nth_In; lia|].
  rewrite EI, EK in *. apply xlt_fin in FS.
  change (Qle_bool (Qabs (tk + - s)) (Qabs (ti + - s)) = true) in Q.
  apply Qle_bool_iff in Q. rewrite (Qabs_pos (tk + - s)) in Q by lra.
  rewrite (Qabs_wd (ti + - s) 0) in Q by lra. simpl in Q. lra.
Qed.

End Sound.
End Top.
