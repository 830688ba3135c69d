(** Doubles and exact numbers: coefficients, importance, trimming. *)
From Coq Require Import String List ZArith QArith Qabs Qminmax Qreals Reals Bool Arith Lia Lra Psatz.
From Flocq Require Import Core.
From Verif.Base Require Import Py Num B64.
From Verif.Model Require Import Matrices FloatDrivers FloatMatrix Graph.
From Verif.Spec Require Import MatrixSpec GraphSpec FloatMatrixSpec.
From Verif.Proofs Require Import PyFacts NumFacts MatrixFacts DfsFacts DijkstraFacts ImportanceFacts GraphMore.
From Verif.Proofs Require Import FloatFacts FloatArith FloatSums FloatMatrixFacts FloatMatrixTop FloatDijkstra FloatImportance.
Import ListNotations.
Local Open Scope R_scope.

Lemma coefficients_unit K : moderate K ->
  unit_fmatrix (fk_nsp K) (f_drg_matrix K) /\ unit_fmatrix (fk_nsp K) (f_drgep_matrix K).
Proof. intros HM. split; intros a b Ha Hb; [now apply drg_unit|now apply gep_unit]. Qed.

Lemma coefficients_diagonal K a : (a < fk_nsp K)%nat ->
  fget (f_drg_matrix K) a a = fzero /\ fget (f_drgep_matrix K) a a = fzero.
Proof.
  intros Ha. unfold f_drg_matrix, f_drgep_matrix. rewrite !fget_ftab0 by auto. now rewrite Nat.eqb_refl.
Qed.

Lemma roundoff_u : Q2R roundoff = u.
Proof. rewrite u_val. unfold roundoff, Q2R. simpl. lra. Qed.

Lemma coefficient_error_R n : Q2R (coefficient_error n) = (9 * INR n + 20) * u.
Proof.
  unfold coefficient_error. rewrite Q2R_mult, roundoff_u, Q2R_plus, Q2R_mult.
  rewrite INR_IZR_INZ. unfold Q2R, inject_Z. simpl. f_equal. lra.
Qed.

Lemma Rabs_Qabs x y e : Rabs (rv x - Q2R y) <= Q2R e -> (Qabs (b64_val x - y) <= e)%Q.
Proof.
  intros H. apply Rabs_le_inv in H. apply Qabs_Qle_condition. split; apply Rle_Qle; rewrite ?Q2R_opp, Q2R_minus;
    fold (rv x); lra.
Qed.

Lemma not_tiny_R x : not_tiny x -> Q2R x = 0 \/ bpow radix2 (-900) <= Q2R x.
Proof.
  intros [H|H].
  - left. apply Qeq_eqR in H. rewrite H. unfold Q2R. simpl. lra.
  - right. apply Qle_Rle in H. now rewrite Q2R_pow2 in H.
Qed.

Lemma is_ratio_num r num num' den : (num == num')%Q -> is_ratio r num den -> is_ratio r num' den.
Proof. intros E [A B]. split; auto. intros N. rewrite <- E. auto. Qed.

Lemma gep_accuracy K d r a b : moderate K -> indicator (exact K) d -> is_drgep (exact K) d r ->
  (a < fk_nsp K)%nat -> (b < fk_nsp K)%nat -> a <> b -> not_tiny (drgep_total (exact K) a) ->
  (Qabs (b64_val (fget (f_drgep_matrix K) a b) - r a b) <= coefficient_error (nrx (exact K)))%Q.
Proof.
  intros HM HI HR Ha Hb Hab NT. apply Rabs_Qabs. rewrite coefficient_error_R.
  apply gep_err; auto.
  - pose proof (HR a b Ha Hb Hab) as X. eapply is_ratio_num; [|exact X].
    apply Qabs_wd. apply Qsum_ext. intros i _. rewrite (indicator_flag (exact K) d b i HI).
    destruct (flag (exact K) b i); ring.
  - now apply not_tiny_R.
Qed.

Lemma drg_accuracy K d r a b : moderate K -> indicator (exact K) d -> is_drg (exact K) d r ->
  (a < fk_nsp K)%nat -> (b < fk_nsp K)%nat -> a <> b -> not_tiny (drg_total (exact K) a) ->
  (Qabs (b64_val (fget (f_drg_matrix K) a b) - r a b) <= coefficient_error (nrx (exact K)))%Q.
Proof.
  intros HM HI HR Ha Hb Hab NT. apply Rabs_Qabs. rewrite coefficient_error_R.
  apply drg_err; auto.
  - pose proof (HR a b Ha Hb Hab) as X. eapply is_ratio_num; [|exact X].
    apply Qsum_ext. intros i _. rewrite (indicator_flag (exact K) d b i HI).
    destruct (flag (exact K) b i); ring.
  - now apply not_tiny_R.
Qed.

(** ** Importance *)

Lemma flag_indicator K : indicator K (fun b i => if flag K b i then 1%Q else 0%Q).
Proof.
  intros b i. rewrite <- flag_iff. destruct (flag K b i); split; intros H; try reflexivity; congruence.
Qed.

Lemma coefficient_error_nn n : (0 <= coefficient_error n)%Q.
Proof.
  apply Rle_Qle. rewrite coefficient_error_R. pose proof (pos_INR n). pose proof u_pos.
  replace (Q2R 0) with 0 by (unfold Q2R; simpl; lra). apply Rmult_le_pos; lra.
Qed.

Lemma error_mono n m : (n <= m)%nat -> (coefficient_error n <= coefficient_error m)%Q.
Proof.
  intros H. apply Rle_Qle. rewrite !coefficient_error_R. pose proof u_pos. apply le_INR in H.
  apply Rmult_le_compat_r; lra.
Qed.

Lemma gep_close K n : moderate K -> fk_nsp K = n ->
  (forall a, (a < n)%nat -> not_tiny (drgep_total (exact K) a)) ->
  close_to n (coefficient_error (length (fk_rop K))) (f_drgep_matrix K) (create_drgep_matrix (exact K)).
Proof.
  intros HM <- NT a b Ha Hb. destruct (Nat.eq_dec a b) as [->|N].
  - rewrite (proj2 (coefficients_diagonal K b Hb)).
    destruct (drgep_shape (exact K)) as [_ Z]. simpl in Z. rewrite (Z b Hb).
    assert (b64_val fzero - 0 == 0)%Q as -> by reflexivity. simpl Qabs. apply coefficient_error_nn.
  - assert (length (fk_rop K) = nrx (exact K)) as -> by (unfold nrx; simpl; now rewrite map_length).
    eapply gep_accuracy; eauto; [apply flag_indicator|]. apply drgep_correct. apply flag_indicator.
Qed.

Lemma drg_close K n : moderate K -> fk_nsp K = n ->
  (forall a, (a < n)%nat -> not_tiny (drg_total (exact K) a)) ->
  close_to n (coefficient_error (length (fk_rop K))) (f_drg_matrix K) (create_drg_matrix (exact K)).
Proof.
  intros HM <- NT a b Ha Hb. destruct (Nat.eq_dec a b) as [->|N].
  - rewrite (proj1 (coefficients_diagonal K b Hb)).
    destruct (drg_shape (exact K)) as [_ Z]. simpl in Z. rewrite (Z b Hb).
    assert (b64_val fzero - 0 == 0)%Q as -> by reflexivity. simpl Qabs. apply coefficient_error_nn.
  - assert (length (fk_rop K) = nrx (exact K)) as -> by (unfold nrx; simpl; now rewrite map_length).
    eapply drg_accuracy; eauto; [apply flag_indicator|]. apply drg_correct. apply flag_indicator.
Qed.

Lemma importance_close_Q names targets Fs Ms eps k c m :
  names <> nil -> (0 <= eps)%Q ->
  (forall F, In F Fs -> unit_fmatrix (length names) F) ->
  (forall M, In M Ms -> unit_matrix (length names) M) ->
  Forall2 (close_to (length names) eps) Fs Ms ->
  unit_b64 c -> is_fimportance names targets Fs k c -> is_importance names targets Ms k m ->
  (Qabs (b64_val c - m) <= inject_Z (Z.of_nat (length names - 1)) * (eps + roundoff))%Q.
Proof.
  intros. apply Rabs_Qabs. rewrite Q2R_mult, Q2R_plus, roundoff_u.
  replace (Q2R (inject_Z (Z.of_nat (length names - 1)))) with (INR (length names - 1)).
  - eapply importance_close; eauto.
  - rewrite INR_IZR_INZ. unfold Q2R, inject_Z. simpl. lra.
Qed.

Lemma importance_all names targets Ks n :
  NoDup names -> names <> nil -> incl targets names ->
  (forall K, In K Ks -> moderate K /\ fk_nsp K = length names /\ (length (fk_rop K) <= n)%nat /\
     forall a, (a < length names)%nat -> not_tiny (drgep_total (exact K) a)) ->
  exists r N,
    (forall fuel, (N <= fuel)%nat -> f_importance_coeffs fuel names targets (map f_drgep_matrix Ks) = Ok r) /\
    dkeys r = names /\
    forall k c, dget k r = Some c -> unit_b64 c /\
      (Ks <> nil -> In k targets -> b64_val c == 1)%Q /\
      forall m, is_importance names targets (map (fun K => create_drgep_matrix (exact K)) Ks) k m ->
        (Qabs (b64_val c - m) <= inject_Z (Z.of_nat (length names - 1)) * (coefficient_error n + roundoff))%Q.
Proof.
  intros ND NN IT HK.
  assert (forall F, In F (map f_drgep_matrix Ks) -> unit_fmatrix (length names) F) as UF.
  { intros F HF. apply in_map_iff in HF. destruct HF as (K & <- & H). destruct (HK K H) as (A & <- & _).
    now apply coefficients_unit. }
  destruct (fimportance_spec names targets (map f_drgep_matrix Ks) IT UF) as (r & N & R & Dk & B).
  exists r, N. split; auto. split; auto. intros k c Hc. destruct (B k c Hc) as [Uc Ic]. split; auto. split.
  - intros NK Hk. eapply fimportance_target; eauto. destruct Ks; [contradiction|discriminate].
  - intros m Hm. eapply importance_close_Q; eauto.
    + apply coefficient_error_nn.
    + intros M HMx. apply in_map_iff in HMx. destruct HMx as (K & <- & H). destruct (HK K H) as (A & E & _).
      intros i j Hi Hj. apply drgep_bounds; simpl; rewrite E; auto.
    + clear - HK. induction Ks as [|K Ks IH]; simpl; constructor.
      * destruct (HK K (or_introl eq_refl)) as (A & E & L & NT).
        pose proof (gep_close K (length names) A E NT) as C. intros i j Hi Hj.
        eapply Qle_trans; [apply C; auto|]. now apply error_mono.
      * apply IH. intros; apply HK; simpl; auto.
Qed.

Lemma below_spec coeffs safe thr names r : f_below coeffs safe thr names = Ok r ->
  forall x, In x r <-> In x names /\ ~ In x safe /\ exists c, dget x coeffs = Some c /\ b64_lt c thr = true.
Proof.
  revert r. induction names as [|a names IH]; intros r; cbn [f_below].
  - intros H. inversion H; subst. intros x. simpl. tauto.
  - destruct (dget a coeffs) as [c|] eqn:D; [|discriminate].
    destruct (f_below coeffs safe thr names) as [r'| |] eqn:R; try discriminate. cbn [bind].
    intros H. inversion H; subst; clear H. intros x. specialize (IH r' eq_refl).
    destruct (b64_lt c thr) eqn:L; cbn [andb].
    + destruct (str_in a safe) eqn:S; cbn [negb].
      * rewrite IH. apply str_in_iff in S. simpl. split; [intuition|].
        intros ([<-|A] & B & C); [contradiction|auto].
      * apply str_in_false in S. cbn [In]. rewrite IH. split.
        -- intros [<-|(A & B & C)]; [split; auto; split; auto; eauto|auto].
        -- intros ([<-|A] & B & C); auto.
    + rewrite IH. simpl. split; [intuition|].
      intros ([<-|A] & B & (c' & C1 & C2)); [congruence|]. eauto.
Qed.

Lemma below_ok coeffs safe thr names : incl names (dkeys coeffs) -> exists r, f_below coeffs safe thr names = Ok r.
Proof.
  induction names as [|a names IH]; intros I; cbn [f_below]; [eauto|].
  destruct (dget a coeffs) as [c|] eqn:D.
  - destruct IH as (r & ->); [intros x Hx; apply I; simpl; auto|]. simpl. eauto.
  - apply dget_none in D. exfalso. apply D. apply I. simpl; auto.
Qed.

Lemma lt_val x y : b64_finite x -> b64_finite y -> (b64_lt x y = true <-> (b64_val x < b64_val y)%Q).
Proof.
  intros Fx Fy. rewrite lt_iff by auto. unfold rv. split; [apply Rlt_Qlt|apply Qlt_Rlt].
Qed.

Lemma removal_decision names targets Ks n safe thr :
  NoDup names -> names <> nil -> incl targets names -> b64_finite thr ->
  (forall K, In K Ks -> moderate K /\ fk_nsp K = length names /\ (length (fk_rop K) <= n)%nat /\
     forall a, (a < length names)%nat -> not_tiny (drgep_total (exact K) a)) ->
  exists coeffs removed N,
    (forall fuel, (N <= fuel)%nat -> f_importance_coeffs fuel names targets (map f_drgep_matrix Ks) = Ok coeffs) /\
    f_below coeffs safe thr names = Ok removed /\
    (forall x, In x removed -> In x names /\ ~ In x safe) /\
    forall x m, In x names -> ~ In x safe ->
      is_importance names targets (map (fun K => create_drgep_matrix (exact K)) Ks) x m ->
      let e := (inject_Z (Z.of_nat (length names - 1)) * (coefficient_error n + roundoff))%Q in
      (m + e < b64_val thr -> In x removed)%Q /\ (b64_val thr + e <= m -> ~ In x removed)%Q.
Proof.
  intros ND NN IT FT HK. destruct (importance_all names targets Ks n ND NN IT HK) as (r & N & R & Dk & B).
  destruct (below_ok r safe thr names) as (rm & Rm). { rewrite Dk. apply incl_refl. }
  pose proof (below_spec r safe thr names rm Rm) as S.
  exists r, rm, N. split; auto. split; auto. split.
  - intros x Hx. apply S in Hx. tauto.
  - intros x m Hx Hs Hm e. pose proof Hx as Hk. rewrite <- Dk in Hk. apply dget_some_key in Hk. destruct Hk as [c Hc].
    destruct (B x c Hc) as ([Fc Uc] & _ & Hd). specialize (Hd m Hm). fold e in Hd.
    apply Qabs_Qle_condition in Hd. destruct Hd as [D1 D2]. split.
    + intros L. apply S. split; auto. split; auto. exists c. split; auto. apply lt_val; auto. lra.
    + intros L Hr. apply S in Hr. destruct Hr as (_ & _ & c' & C1 & C2). rewrite Hc in C1. inversion C1; subst.
      apply lt_val in C2; auto. lra.
Qed.

(** ** Trimming by DRG *)

Lemma fget_where M thr i j : fget (fwhere_ge M thr) i j = (if b64_le thr (fget M i j) then fget M i j else fzero) \/
  (fget M i j = fzero /\ fget (fwhere_ge M thr) i j = fzero).
Proof.
  unfold fget, fwhere_ge. set (f := fun w => if b64_le thr w then w else fzero).
  assert (nth i (map (map f) M) nil = map f (nth i M nil)) as -> by (change (@nil b64) with (map f nil) at 1; apply map_nth).
  destruct (Nat.lt_ge_cases j (length (nth i M nil))) as [L|L].
  - left. rewrite nth_indep with (d' := f fzero) by (rewrite map_length; auto). rewrite map_nth. reflexivity.
  - right. split; apply nth_overflow; auto. now rewrite map_length.
Qed.

Lemma where_fin n M thr : fin_fmatrix n M -> fin_fmatrix n (fwhere_ge M thr).
Proof.
  intros U i j Hi Hj. destruct (fget_where M thr i j) as [->|[_ ->]]; [|exact I].
  destruct (b64_le thr (fget M i j)); [auto|exact I].
Qed.

Lemma fgraph_of_edges_fin names M a b w : fin_fmatrix (length names) M ->
  In (a, b, w) (fg_edges (fgraph_of names M)) <-> fdepends names M a b w /\ ~ (b64_val w == 0)%Q.
Proof.
  intros UM.
  assert (forall i j x y, nth_error names i = Some x -> nth_error names j = Some y -> b64_finite (fget M i j)) as FD.
  { intros i j x y H1 H2. apply UM; apply nth_error_Some; congruence. }
  unfold fgraph_of; simpl. rewrite in_flat_map. split.
  - intros ([i a'] & H1 & H2). apply in_flat_map in H2. destruct H2 as ([j b'] & H2 & H3).
    cbn [fst snd] in H3. apply fenum_in in H1. apply fenum_in in H2.
    destruct (b64_nz (fget M i j)) eqn:Ez; [|destruct H3].
    destruct H3 as [H3|[]]. injection H3 as <- <- <-.
    split; [exists i, j; auto|]. rewrite val_zero. apply nz_iff in Ez; auto. eapply FD; eauto.
  - intros [(i & j & H1 & H2 & H3) N].
    exists (i, a). split; [now apply fenum_in|].
    apply in_flat_map. exists (j, b). split; [now apply fenum_in|]. cbn [fst snd].
    rewrite H3. rewrite val_zero in N. apply nz_iff in N; [rewrite N; simpl; auto|]. rewrite <- H3. eapply FD; eauto.
Qed.

Lemma fdepends_where names M thr a b w : fin_fmatrix (length names) M -> b64_finite thr -> ~ (b64_val w == 0)%Q ->
  fdepends names (fwhere_ge M thr) a b w <-> fdepends names M a b w /\ (b64_val thr <= b64_val w)%Q.
Proof.
  intros UM FT NZ.
  assert (~ (b64_val fzero == 0)%Q -> False) as ZZ by (intros H; apply H; reflexivity).
  split.
  - intros (i & j & H1 & H2 & H3). destruct (fget_where M thr i j) as [E|[E1 E2]].
    + rewrite E in H3. destruct (b64_le thr (fget M i j)) eqn:L; [|subst w; tauto].
      split; [exists i, j; auto|]. apply val_le. subst w. apply le_iff; auto.
      apply UM; apply nth_error_Some; congruence.
    + rewrite E2 in H3. subst w. tauto.
  - intros [(i & j & H1 & H2 & H3) L]. exists i, j. split; auto. split; auto.
    destruct (fget_where M thr i j) as [E|[E1 E2]].
    + rewrite E. apply val_le in L. subst w. apply le_iff in L; auto; [now rewrite L|].
      apply UM; apply nth_error_Some; congruence.
    + rewrite E1 in H3. subst w. tauto.
Qed.

Lemma f_trim_spec M names targets thr : fin_fmatrix (length names) M -> b64_finite thr -> incl targets names ->
  exists r, f_trim_drg M names targets thr = Ok r /\ NoDup r /\
    forall x, In x r <-> exists t, In t targets /\ freach names M thr t x.
Proof.
  intros UM FT IT. unfold f_trim_drg.
  set (E := fg_edges (fgraph_of names (fwhere_ge M thr))).
  pose proof (where_fin (length names) M thr UM) as UW.
  destruct (graph_search_spec (mkGraph names (map (fun e => (fst e, b64_val (snd e))) E)) targets) as (r & H1 & H2 & H3); auto.
  exists r. split; auto. split; auto. intros x. rewrite H3. simpl.
  assert (forall a b w, In (a, b, w) (map (fun e : string * string * b64 => (fst e, b64_val (snd e))) E) ->
            exists y, fdepends names M a b y /\ ~ (b64_val y == 0)%Q /\ (b64_val thr <= b64_val y)%Q) as E1.
  { intros a b w H. apply in_map_iff in H. destruct H as ([[a' b'] y] & He & H). simpl in He. inversion He; subst.
    apply (fgraph_of_edges_fin names _ _ _ _ UW) in H. destruct H as [D N]. apply fdepends_where in D; auto. destruct D. eauto. }
  assert (forall a b y, fdepends names M a b y -> ~ (b64_val y == 0)%Q -> (b64_val thr <= b64_val y)%Q ->
            In (a, b, b64_val y) (map (fun e : string * string * b64 => (fst e, b64_val (snd e))) E)) as E2.
  { intros a b y D N L. apply in_map_iff. exists (a, b, y). split; auto.
    apply (fgraph_of_edges_fin names _ _ _ _ UW). split; auto. apply fdepends_where; auto. }
  split.
  - intros (t & p & Ht & W). exists t. split; auto. induction W; [constructor; auto|].
    destruct (E1 _ _ _ H) as (y & D & N & L). econstructor; eauto.
  - intros (t & Ht & W). exists t. assert (exists p, walk (map (fun e : string * string * b64 => (fst e, b64_val (snd e))) E) t x p) as (p & P).
    { induction W; [exists 1%Q; constructor|]. destruct IHW as (p & P). exists (p * b64_val w)%Q. econstructor; eauto. }
    eauto.
Qed.

Lemma freach_exact names F M eps thr t x : close_to (length names) eps F M ->
  (eps < b64_val thr)%Q -> freach names F thr t x -> reach names M (b64_val thr - eps) t x.
Proof.
  intros C L. induction 1; [now constructor|]. destruct H0 as (i & j & H3 & H4 & <-).
  pose proof (C i j ltac:(apply nth_error_Some; congruence) ltac:(apply nth_error_Some; congruence)) as D.
  apply Qabs_Qle_condition in D. destruct D as [D1 D2].
  eapply reach_step with (w := mget M i j); eauto.
  - exists i, j. auto.
  - intros Z. lra.
  - lra.
Qed.

Lemma exact_freach names F M eps thr t x : close_to (length names) eps F M ->
  (0 <= eps)%Q -> (0 < b64_val thr)%Q -> reach names M (b64_val thr + eps) t x -> freach names F thr t x.
Proof.
  intros C E0 L. induction 1; [now constructor|]. destruct H0 as (i & j & H3 & H4 & <-).
  pose proof (C i j ltac:(apply nth_error_Some; congruence) ltac:(apply nth_error_Some; congruence)) as D.
  apply Qabs_Qle_condition in D. destruct D as [D1 D2].
  eapply freach_step with (w := fget F i j); eauto.
  - exists i, j. auto.
  - intros Z. lra.
  - lra.
Qed.

Lemma drg_sandwich K names targets thr :
  moderate K -> fk_nsp K = length names -> (forall a, (a < length names)%nat -> not_tiny (drg_total (exact K) a)) ->
  incl targets names -> b64_finite thr ->
  let e := coefficient_error (length (fk_rop K)) in (e < b64_val thr)%Q ->
  exists r, f_trim_drg (f_drg_matrix K) names targets thr = Ok r /\ NoDup r /\
    (forall x, In x r <-> exists t, In t targets /\ freach names (f_drg_matrix K) thr t x) /\
    (forall t x, In t targets -> reach names (create_drg_matrix (exact K)) (b64_val thr + e) t x -> In x r) /\
    (forall x, In x r -> exists t, In t targets /\ reach names (create_drg_matrix (exact K)) (b64_val thr - e) t x).
Proof.
  intros HM EN NT IT FT e L. pose proof (drg_close K _ HM EN NT) as C. fold e in C.
  pose proof (coefficient_error_nn (length (fk_rop K))) as E0. fold e in E0.
  assert (fin_fmatrix (length names) (f_drg_matrix K)) as UM.
  { rewrite <- EN. intros i j Hi Hj. apply (proj1 (coefficients_unit K HM)); auto. }
  destruct (f_trim_spec (f_drg_matrix K) names targets thr UM FT IT) as (r & R1 & R2 & R3).
  exists r. split; auto. split; auto. split; auto. split.
  - intros t x Ht H. apply R3. exists t. split; auto. eapply exact_freach; eauto. lra.
  - intros x Hx. apply R3 in Hx. destruct Hx as (t & Ht & H). exists t. split; auto. eapply freach_exact; eauto.
Qed.
