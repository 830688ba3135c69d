(** The drivers with doubles throughout. *)
From Coq Require Import String List ZArith QArith Qabs Bool Arith Lia Lqa Qreals.
From Verif.Base Require Import Py Num XNum Paths B64.
From Verif.Model Require Import Mech Matrices Graph World Metrics Drivers FloatDrivers FloatMatrix FloatPfa SaveText FloatRun.
From Verif.Spec Require Import TrimSpec Samples GraphSpec DriverSpec MatrixSpec FloatSpec FloatMatrixSpec FloatRunSpec TextSpec.
From Verif.Proofs Require Import PyFacts NumFacts TrimFacts DfsFacts MatrixFacts ImportanceFacts GraphMore StepFacts StepInst
     LoopFacts RunFacts ReduceFacts LoopForward DriverFacts FloatFacts FloatArith FloatDriverFacts FloatMatrixFacts
     FloatImportance FloatMatrixFinal FloatPfaFinal SaveNumFacts FloatThrFacts.
Import ListNotations.
Local Open Scope string_scope.

(** ** Arrays of doubles and their values *)

Definition values (F : fmatrix) : matrix := map (map b64_val) F.
Definition dvalues (d : dict b64) : dict Q := map (fun kv => (fst kv, b64_val (snd kv))) d.

Lemma le_val x y : b64_finite x -> b64_finite y -> b64_le x y = Qle_bool (b64_val x) (b64_val y).
Proof.
  intros Fx Fy. destruct (b64_le x y) eqn:E; symmetry.
  - apply Qle_bool_iff, val_le, le_iff; auto.
  - destruct (Qle_bool (b64_val x) (b64_val y)) eqn:L; auto. apply Qle_bool_iff, val_le, le_iff in L; auto. congruence.
Qed.

Lemma lt_val_bool x y : b64_finite x -> b64_finite y -> b64_lt x y = Qlt_bool (b64_val x) (b64_val y).
Proof.
  intros Fx Fy. destruct (b64_lt x y) eqn:E; symmetry.
  - apply Qlt_bool_iff, lt_val; auto.
  - destruct (Qlt_bool (b64_val x) (b64_val y)) eqn:L; auto. apply Qlt_bool_iff, lt_val in L; auto. congruence.
Qed.

Lemma mget_where_eq M q i j :
  mget (where_ge M q) i j = if Qle_bool q (mget M i j) then mget M i j else 0%Q.
Proof.
  unfold mget, where_ge. set (f := fun w => if Qle_bool q w then w else 0%Q).
  change (@nil Q) with (map f nil) at 1. rewrite map_nth. fold (f (nth j (nth i M nil) 0%Q)).
  destruct (Nat.lt_ge_cases j (length (nth i M nil))) as [L|L].
  - rewrite nth_indep with (d' := f 0%Q) by (rewrite map_length; auto). now rewrite map_nth.
  - rewrite !nth_overflow by (rewrite ?map_length; auto). unfold f. now destruct (Qle_bool q 0).
Qed.

Lemma values_where F t i j : b64_finite t -> b64_finite (fget F i j) ->
  mget (where_ge (values F) (b64_val t)) i j = b64_val (fget (fwhere_ge F t) i j).
Proof.
  intros Ft FF. rewrite mget_where_eq. unfold values. rewrite mget_exact.
  destruct (fget_where F t i j) as [->|[E ->]].
  - rewrite le_val by auto. destruct (Qle_bool _ _); auto.
  - rewrite E. destruct (Qle_bool _ _); auto.
Qed.

Lemma flat_map_ext_in {A B} (f g : A -> list B) l : (forall x, In x l -> f x = g x) -> flat_map f l = flat_map g l.
Proof. induction l as [|x l IH]; simpl; intros H; auto. rewrite H by auto. rewrite IH; auto. Qed.

Lemma map_flat_map {A B C} (f : B -> C) (g : A -> list B) l :
  map f (flat_map g l) = flat_map (fun x => map f (g x)) l.
Proof. induction l; simpl; auto. rewrite map_app. congruence. Qed.

Lemma trim_values F names targets t : fin_fmatrix (length names) F -> b64_finite t ->
  f_trim_drg F names targets t = trim_drg (values F) names targets (b64_val t).
Proof.
  intros FF Ft. unfold f_trim_drg, trim_drg, graph_of, fgraph_of. simpl fg_edges. f_equal. f_equal.
  rewrite map_flat_map. change @enum with @fenum. apply flat_map_ext_in. intros [i a] Hi.
  rewrite map_flat_map. apply flat_map_ext_in. intros [j b] Hj. cbn [fst snd].
  apply fenum_in in Hi. apply fenum_in in Hj.
  assert (i < length names)%nat as Li by (apply nth_error_Some; congruence).
  assert (j < length names)%nat as Lj by (apply nth_error_Some; congruence).
  rewrite values_where by auto. cbv zeta. rewrite (Qnz_rv _ (where_fin _ _ t FF i j Li Lj)).
  destruct (b64_nz _); reflexivity.
Qed.

Lemma mapM_ext {A B} (f g : A -> res B) l : (forall x, In x l -> f x = g x) -> mapM f l = mapM g l.
Proof. induction l as [|x l IH]; simpl; intros H; auto. rewrite H by auto. rewrite IH; auto. Qed.
Lemma mapM_map {A B C} (f : B -> res C) (g : A -> B) l : mapM f (map g l) = mapM (fun x => f (g x)) l.
Proof. induction l as [|x l IH]; simpl; auto. now rewrite IH. Qed.

Lemma retained_values Fs names targets t : (forall F, In F Fs -> fin_fmatrix (length names) F) -> b64_finite t ->
  fretained Fs names targets t = retained (map values Fs) names targets (b64_val t).
Proof.
  intros H Ft. unfold fretained, retained. rewrite mapM_map. f_equal. apply mapM_ext.
  intros F HF. apply trim_values; auto.
Qed.

Lemma freach_values names F t a s : freach names F t a s <-> reach names (values F) (b64_val t) a s.
Proof.
  split; induction 1 as [|b c w R IH D N L]; try (now constructor).
  - destruct D as (i & j & Hi & Hj & <-). econstructor; eauto. exists i, j. repeat split; auto.
    unfold values. now rewrite mget_exact.
  - destruct D as (i & j & Hi & Hj & <-). unfold values in *. rewrite mget_exact in *.
    econstructor; eauto. exists i, j. auto.
Qed.

Lemma dget_dvalues k d : dget k (dvalues d) = option_map b64_val (dget k d).
Proof. unfold dvalues. induction d as [|[x v] d IH]; simpl; auto. destruct (String.eqb k x); auto. Qed.
Lemma dkeys_dvalues d : dkeys (dvalues d) = dkeys d.
Proof. unfold dvalues, dkeys. rewrite map_map. apply map_ext. auto. Qed.

Lemma below_values imp safe t names : (forall k c, dget k imp = Some c -> b64_finite c) -> b64_finite t ->
  f_below imp safe t names = below (dvalues imp) safe (b64_val t) names.
Proof.
  intros H Ft. unfold below. induction names as [|s l IH]; simpl; auto. unfold coeff.
  rewrite dget_dvalues. destruct (dget s imp) as [c|] eqn:E; simpl; auto. rewrite IH. fold (coeff (dvalues imp)).
  rewrite (lt_val_bool _ _ (H _ _ E) Ft).
  destruct (mapM _ l) as [r| |]; simpl; auto.
  destruct (Qlt_bool (b64_val c) (b64_val t) && negb (str_in s safe)); reflexivity.
Qed.

(** ** The loop *)

Definition conv (s : fstate) : lstate floatA :=
  @mkLS floatA (s_prev s) (s_first s) (s_err s) (s_thr s) (s_inc s) (s_last s).
Definition rconv (r : res fstate) : res (lstate floatA) :=
  match r with Ok s => Ok (conv s) | Raise e => Raise e | NoFuel => NoFuel end.

(** The threshold has been reached by additions from a start. *)
Definition on_climb (s : fstate) : Prop :=
  exists j k, s_inc s = sd floatA j /\ s_thr s = climb_at floatA j k /\ (s_first s = true -> k = O).

Section Same.
  Variables (J : job) (sol : mech) (sampled : list xnum) (limit : xnum).
  Variables (red : b64 -> option rmodel -> M rmodel) (vred : Q -> option rmodel -> M rmodel).
  Variables (K : Q -> string -> Prop) (short : Q -> rmodel -> bool) (lb : res limbo).
  Hypothesis STEP : is_step J sol sampled vred K short lb.
  Hypothesis APART : input_apart J.
  Notation inp w := (holds w (j_file J) (j_phase J) sol).
  Hypothesis SAME : forall t prev w, b64_finite t -> inp w -> red t prev w = vred (b64_val t) prev w.

  Definition same_res (x : res fstate * world) (y : res (lstate floatA) * world) : Prop :=
    y = (rconv (fst x), snd x) /\ forall s' w', x = (Ok s', w') -> inp w' /\ on_climb s'.

  Lemma mbind_eq {X Y} (m : M X) (f : X -> M Y) w :
    mbind m f w = match m w with
                  | (Ok a, w') => f a w'
                  | (Raise e, w') => (Raise e, w')
                  | (NoFuel, w') => (NoFuel, w')
                  end.
  Proof. unfold mbind. now destruct (m w) as [[a|e|] w']. Qed.

  Lemma loop_same floor : forall fuel s w, inp w -> on_climb s ->
    same_res (fthr_loop fuel red limit floor s w) (thr_loop floatA fuel vred limit floor (conv s) w).
  Proof.
    induction fuel as [|fuel IH]; intros s w H C; cbn [fthr_loop thr_loop];
      change (l_err (conv s)) with (s_err s); destruct (xle (s_err s) limit).
    - split; [reflexivity|discriminate].
    - split; [reflexivity|]. intros s' w' [= <- <-]. auto.
    - destruct C as (j & k & Ci & Ct & Ck). rewrite !mbind_eq.
      change (A_val floatA (l_thr (conv s))) with (b64_val (s_thr s)).
      change (l_prev (conv s)) with (s_prev s). change (l_first (conv s)) with (s_first s).
      change (l_thr (conv s)) with (s_thr s). change (l_inc (conv s)) with (s_inc s).
      rewrite SAME; [|rewrite Ct; apply climb_fin|exact H].
      pose proof (step_frame J sol sampled vred K short lb STEP (b64_val (s_thr s)) (Some (s_prev s)) w H) as F.
      destruct (vred (b64_val (s_thr s)) (Some (s_prev s)) w) as [[r|e|] w1] eqn:R; simpl in F;
        try (split; [reflexivity|discriminate]).
      pose proof (only_holds _ _ _ _ APART F H) as H1. cbv zeta.
      destruct (s_first s && xgt (r_error r) limit) eqn:G.
      + apply andb_true_iff in G. destruct G as [G _]. specialize (Ck G). subst k.
        change (A_div10 floatA (s_thr s)) with (b64_div (s_thr s) (b64_of_Z 10)).
        change (A_div10 floatA (s_inc s)) with (b64_div (s_inc s) (b64_of_Z 10)).
        destruct (floor (b64_div (s_thr s) (b64_of_Z 10))); [split; [reflexivity|discriminate]|].
        refine (IH (mkFS (s_prev s) (s_first s) (Fin 0) (b64_div (s_thr s) (b64_of_Z 10))
                         (b64_div (s_inc s) (b64_of_Z 10)) (Some r)) w1 H1 _).
        exists (S j), O. cbn [s_inc s_thr s_first]. rewrite Ci, Ct. repeat split.
      + change (A_add floatA (s_thr s) (s_inc s)) with (b64_add (s_thr s) (s_inc s)).
        set (st := mkFS r false (r_error r) (b64_add (s_thr s) (s_inc s)) (s_inc s) (Some r)).
        assert (on_climb st) as C2.
        { exists j, (S k). unfold st. cbn [s_inc s_thr s_first]. rewrite Ci, Ct. repeat split. discriminate. }
        rewrite !mbind_eq.
        destruct (Nat.eqb_spec (n_species (r_model (s_prev s))) (n_species (r_model r))) as [En|En].
        * exact (IH st w1 H1 C2).
        * destruct (remove_fresh J sol sampled vred K short lb STEP APART _ _ _ _ _ H R En) as (w2 & Rm & H2).
          rewrite Rm. exact (IH st w2 H2 C2).
    - split; [reflexivity|]. intros s' w' [= <- <-]. auto.
  Qed.

  Lemma run_same fuel floor by_last w : inp w ->
    fthr_run fuel J sol red limit floor by_last w = thr_run floatA fuel J sol vred limit floor by_last w.
  Proof.
    intros H. unfold fthr_run, thr_run. rewrite !mbind_eq.
    change (thr_init floatA sol (j_file J)) with (conv (fthr_init sol (j_file J))).
    destruct (loop_same floor fuel (fthr_init sol (j_file J)) w H) as [E1 E2].
    { exists O, O. repeat split. }
    rewrite E1. destruct (fthr_loop fuel red limit floor (fthr_init sol (j_file J)) w) as [[s|e|] w1]; auto.
    cbn [fst snd rconv]. destruct (E2 s w1 eq_refl) as [H1 (j & k & Ci & Ct & _)].
    unfold fthr_finish, thr_finish. cbv zeta.
    change (l_last (conv s)) with (s_last s). change (l_err (conv s)) with (s_err s).
    change (A_val floatA (A_back floatA (l_thr (conv s)) (l_inc (conv s))))
      with (b64_val (b64_sub (s_thr s) (b64_mul (b64_of_Z 2) (s_inc s)))).
    assert (red (b64_sub (s_thr s) (b64_mul (b64_of_Z 2) (s_inc s))) None w1 =
            vred (b64_val (b64_sub (s_thr s) (b64_mul (b64_of_Z 2) (s_inc s)))) None w1) as E.
    { apply SAME; auto. rewrite Ci, Ct. apply back_fin. }
    destruct by_last.
    - destruct (s_last s) as [q|]; auto. destruct (xgt (r_error q) limit); auto.
    - destruct (xgt (s_err s) limit); auto.
  Qed.
End Same.

(** ** The steps *)

(** The job with the upper threshold that the code compares with. *)
Definition vjob (J : job) : job :=
  mkJob (j_file J) (j_phase J) (j_path J) (j_targets J) (j_safe J) (j_conds J) (option_map b64_val (f_upper J)).

Definition vimp (J : job) (sol : mech) (rops : list (list b64)) (s : string) (v : Q) : Prop :=
  exists c, is_fimportance (species_names sol) (j_targets J) (fmatrices DRGEP sol rops) s c /\ v = b64_val c.

Definition vkept (me : method) (J : job) (sol : mech) (rops : list (list b64)) : Q -> string -> Prop :=
  match me with
  | DRG | PFA => gkept J sol (map values (fmatrices me sol rops))
  | DRGEP => pkept J (vimp J sol rops)
  end.

Lemma vkept_iff me J sol rops t s : vkept me J sol rops (b64_val t) s <-> fkept me J sol rops t s.
Proof.
  assert (forall Fs, gkept J sol (map values Fs) (b64_val t) s <->
    In s (j_safe J) \/ exists F tgt, In F Fs /\ In tgt (j_targets J) /\ freach (species_names sol) F t tgt s) as G.
  { intros Fs. unfold gkept. split; intros [H|(X & tgt & H1 & H2 & H3)]; auto; right.
    - apply in_map_iff in H1. destruct H1 as (F & <- & H1). exists F, tgt. now rewrite freach_values.
    - exists (values X), tgt. split; [now apply in_map|]. split; auto. now apply freach_values. }
  destruct me; simpl; [apply G|apply G|]. unfold pkept, vimp, fkept. split; intros [H|H]; auto; right.
  - destruct H as (m & (c & H & ->) & L). eauto.
  - destruct H as (c & H & L). eauto.
Qed.

Lemma vkept_antitone me J sol rops t t' s : (t <= t')%Q -> vkept me J sol rops t' s -> vkept me J sol rops t s.
Proof. destruct me; [apply gkept_antitone|apply gkept_antitone|apply pkept_antitone]. Qed.

Lemma fimp_unique J sol rops s m m' : vimp J sol rops s m -> vimp J sol rops s m' -> (m == m')%Q.
Proof.
  intros (c & [A1 A2] & ->) (c' & [B1 B2] & ->).
  destruct A2 as [(M & t & p & H1 & H2 & H3 & H4)|[N Z]]; destruct B2 as [(M' & t' & p' & H1' & H2' & H3' & H4')|[N' Z']].
  - specialize (A1 _ _ _ H1' H2' H3'). specialize (B1 _ _ _ H1 H2 H3). lra.
  - exfalso. eapply N'; eauto.
  - exfalso. eapply N; eauto.
  - lra.
Qed.

Lemma of_Q_val u d : b64_finite d -> (b64_val d == u)%Q ->
  b64_finite (b64_of_Q false u) /\ (b64_val (b64_of_Q false u) == u)%Q.
Proof.
  intros F E. destruct d as [s|s| |s m e]; try contradiction.
  - assert (Qnum u = 0%Z) as Z.
    { simpl in E. unfold Qeq in E. simpl in E. lia. }
    unfold b64_of_Q. rewrite Z. split; [exact I|]. simpl. exact E.
  - rewrite (of_Q_near false s m e u F); auto. unfold TextSpec.to_digits.
    assert (u - b64_val (SpecFloat.S754_finite s m e) == 0)%Q as -> by (rewrite E; ring).
    change (Qabs 0) with 0%Q. apply Qmult_le_0_compat; [apply Qabs_nonneg|]. apply Qle_bool_iff. vm_compute. reflexivity.
Qed.

Lemma last_values Fs :
  match last (map Some (map values Fs)) None with
  | None => last (map Some Fs) None = None
  | Some Mx => exists F, last (map Some Fs) None = Some F /\ Mx = values F /\ In F Fs
  end.
Proof.
  induction Fs as [|F [|F' l] IH]; [reflexivity|simpl; eauto|].
  change (last (map Some (map values (F :: F' :: l))) None) with (last (map Some (map values (F' :: l))) None).
  change (last (map Some (F :: F' :: l)) None) with (last (map Some (F' :: l)) None).
  destruct (last (map Some (map values (F' :: l))) None); auto.
  destruct IH as (G & G1 & G2 & G3). exists G. split; auto. split; auto. now right.
Qed.

Section Steps.
  Variables (J : job) (sol : mech) (rops : list (list b64)) (sampled : list xnum).
  Hypothesis TA : tame J sol rops.
  Notation names := (species_names sol).
  Notation inp w := (holds w (j_file J) (j_phase J) sol).

  Lemma fmat_fin me F : In F (fmatrices me sol rops) -> fin_fmatrix (length names) F.
  Proof.
    intros H. unfold fmatrices in H. apply in_map_iff in H. destruct H as (rop & <- & HR).
    pose proof (ta_rates _ _ _ TA rop HR) as M. rewrite names_length. intros i j Hi Hj. destruct me.
    - exact (proj1 (proj1 (coefficients_unit _ M) i j Hi Hj)).
    - destruct (pfa_range (fkin_of sol rop) M) as [R _].
      + simpl. pose proof (ta_size _ _ _ TA). lia.
      + exact (proj1 (R i j Hi Hj)).
    - exact (proj1 (proj2 (coefficients_unit _ M) i j Hi Hj)).
  Qed.

  Lemma upper_fin d : f_upper J = Some d -> b64_finite d /\ (b64_val d == upper_of J)%Q.
  Proof.
    unfold f_upper, upper_of. destruct (j_upper J) as [u|] eqn:E; simpl; [|discriminate]. intros [= <-].
    destruct (ta_upper _ _ _ TA u E) as (d & F & V). now apply (of_Q_val u d).
  Qed.

  Lemma upper_truth : f_truthy (f_upper J) = truthy (j_upper J) /\ truthy (j_upper (vjob J)) = truthy (j_upper J).
  Proof.
    simpl. pose proof upper_fin as U. unfold f_upper, upper_of, f_truthy, truthy in *.
    destruct (j_upper J) as [u|]; simpl in *; auto. destruct (U _ eq_refl) as [F V].
    assert (Qnz (b64_val (b64_of_Q false u)) = Qnz u) as E.
    { unfold Qnz. f_equal. destruct (Qeq_bool u 0) eqn:E1.
      - apply Qeq_bool_iff. apply Qeq_bool_iff in E1. now rewrite V.
      - destruct (Qeq_bool (b64_val (b64_of_Q false u)) 0) eqn:E2; auto.
        apply Qeq_bool_iff in E2. rewrite V in E2. apply Qeq_bool_iff in E2. congruence. }
    rewrite <- E, (Qnz_rv _ F). auto.
  Qed.

  Lemma upper_eq : b64_val (match f_upper J with Some u => u | None => fzero end) =
    match j_upper (vjob J) with Some u => u | None => 0%Q end.
  Proof. unfold vjob, f_upper. simpl. destruct (j_upper J); reflexivity. Qed.

  Lemma upper_ok : b64_finite (match f_upper J with Some u => u | None => fzero end).
  Proof. destruct (f_upper J) eqn:E; [now apply upper_fin|exact I]. Qed.

  Lemma drg_same t prev w : b64_finite t -> inp w ->
    freduce_drg J (fmatrices DRG sol rops) sampled t prev w =
    reduce_drg (vjob J) (map values (fmatrices DRG sol rops)) sampled (b64_val t) prev w.
  Proof.
    intros Ft H. unfold freduce_drg, reduce_drg. rewrite !mbind_eq.
    change (load (j_file (vjob J)) (j_phase (vjob J)) w) with (load (j_file J) (j_phase J) w).
    rewrite (load_holds _ _ _ _ H). change (j_targets (vjob J)) with (j_targets J).
    rewrite <- retained_values by (first [exact (fmat_fin DRG)|auto]).
    rewrite (proj1 upper_truth), (proj2 upper_truth).
    rewrite <- upper_eq, <- retained_values by (first [exact (fmat_fin DRG)|exact upper_ok]). reflexivity.
  Qed.

  Lemma pfa_same t prev w : b64_finite t -> inp w ->
    freduce_pfa J (fmatrices PFA sol rops) sampled t prev w =
    reduce_pfa (vjob J) (map values (fmatrices PFA sol rops)) sampled (b64_val t) prev w.
  Proof.
    intros Ft H. unfold freduce_pfa, reduce_pfa. rewrite !mbind_eq.
    change (load (j_file (vjob J)) (j_phase (vjob J)) w) with (load (j_file J) (j_phase J) w).
    rewrite (load_holds _ _ _ _ H). change (j_targets (vjob J)) with (j_targets J). rewrite mapM_map.
    rewrite (mapM_ext (fun F => f_trim_pfa F names (j_targets J) t)
               (fun F => trim_pfa (values F) names (j_targets J) (b64_val t)))
      by (intros F HF; apply trim_values; eauto using fmat_fin).
    rewrite (proj1 upper_truth), (proj2 upper_truth).
    change (j_upper (vjob J)) with (option_map b64_val (f_upper J)).
    pose proof (last_values (fmatrices PFA sol rops)) as L.
    destruct (truthy (j_upper J)); [|reflexivity]. pose proof upper_fin as U.
    destruct (f_upper J) as [u|]; simpl option_map; [|reflexivity].
    destruct (U u eq_refl) as [Fu _].
    destruct (last (map Some (map values (fmatrices PFA sol rops))) None) as [Mx|].
    - destruct L as (F & -> & -> & HF). unfold f_trim_pfa, trim_pfa. 
      fold (trim_drg (values F) names (j_targets J) (b64_val u)).
      rewrite (trim_values F names (j_targets J) u (fmat_fin PFA F HF) Fu). reflexivity.
    - rewrite L. reflexivity.
  Qed.

  Lemma drgep_same imp t prev w : (forall k c, dget k imp = Some c -> b64_finite c) -> b64_finite t -> inp w ->
    freduce_drgep J imp sampled t prev w = reduce_drgep (vjob J) (dvalues imp) sampled (b64_val t) prev w.
  Proof.
    intros FI Ft H. unfold freduce_drgep, reduce_drgep. rewrite !mbind_eq.
    change (load (j_file (vjob J)) (j_phase (vjob J)) w) with (load (j_file J) (j_phase J) w).
    rewrite (load_holds _ _ _ _ H). rewrite <- below_values by auto. reflexivity.
  Qed.
End Steps.
