(** What the loop of sensitivity analysis does. *)
From Coq Require Import String Ascii List QArith Qabs Bool Arith Lia Lqa Permutation.
From Verif.Base Require Import Py Num XNum Paths.
From Verif.Model Require Import Mech World Metrics Drivers Sensitivity.
From Verif.Spec Require Import TrimSpec MetricSpec DriverSpec SensitivitySpec.
From Verif.Proofs Require Import PyFacts NumFacts TrimFacts MetricFacts StepFacts SaFacts.
Import ListNotations.
Local Open Scope string_scope.

(** ** Lists *)

Lemma delete_perm {A} (l : list A) : forall i x, nth_error l i = Some x -> Permutation l (x :: delete_at i l).
Proof.
  induction l as [|y l IH]; intros [|i] x; simpl; try discriminate.
  - intros H. injection H as ->. apply Permutation_refl.
  - intros H. rewrite (IH _ _ H) at 1. apply perm_swap.
Qed.

Lemma delete_len {A} (l : list A) : forall i, (i < length l)%nat -> length (delete_at i l) = pred (length l).
Proof.
  induction l as [|y l IH]; intros [|i] H; simpl in *; try lia. rewrite IH; lia.
Qed.

Lemma argmin_from_lt l : forall i best v, (best < i)%nat -> (argmin_from i best v l < i + length l)%nat.
Proof.
  induction l as [|x l IH]; intros i best v H; simpl; [lia|].
  destruct (is_nan v); [lia|]. destruct (is_nan x || xlt x v).
  - specialize (IH (S i) i x). lia.
  - specialize (IH (S i) best v). lia.
Qed.

Lemma choose_lt far err errs : errs <> nil -> (choose far err errs < length errs)%nat.
Proof.
  intros H. unfold choose, argmin. destruct errs as [|e errs]; [contradiction|]. simpl map. cbv iota.
  pose proof (argmin_from_lt (map (fun e0 => far e0 err) errs) 1 0 (far e err)) as L.
  rewrite map_length in L. simpl. lia.
Qed.

Lemma choose_nth far err errs (limbo : list string) : length errs = length limbo -> limbo <> nil ->
  exists sp, nth_error limbo (choose far err errs) = Some sp.
Proof.
  intros L N. assert (errs <> nil) as NE by (intros ->; destruct limbo; [contradiction|discriminate]).
  pose proof (choose_lt far err errs NE) as C. destruct (nth_error limbo (choose far err errs)) eqn:E; eauto.
  apply nth_error_None in E. lia.
Qed.

(** ** Removing one after the other *)

Lemma removals_app ph m1 l1 m2 l2 m3 : removals ph m1 l1 m2 -> removals ph m2 l2 m3 -> removals ph m1 (l1 ++ l2)%list m3.
Proof. induction 1; simpl; auto. intros. econstructor; eauto. Qed.

Lemma removals_one ph m s m' : removals ph m [s] m' <-> without ph m s = Ok m'.
Proof.
  split.
  - intros H. inversion H as [|? ? m1 ? ? T R]; subst. inversion R; subst. exact T.
  - intros H. econstructor; [exact H|constructor].
Qed.

Lemma removals_wf ph m l m' : removals ph m l m' -> wf_mech m -> wf_mech m'.
Proof. induction 1; auto. intros W. apply IHremovals. eapply trim_no_dangling; eauto. Qed.

Lemma removals_names ph m l m' : removals ph m l m' ->
  forall s, In s (species_names m') <-> In s (species_names m) /\ ~ In s l.
Proof.
  induction 1 as [m|m s m1 l m' T R IH]; intros x; simpl; [tauto|].
  rewrite IH. apply trim_mech_ok in T. destruct T as [T _]. unfold species_names at 1. rewrite T.
  rewrite trim_names_in. simpl. intuition.
Qed.

Lemma removals_species ph m l m' : removals ph m l m' ->
  m_species m' = filter (fun s => negb (str_in (sp_name s) l)) (m_species m).
Proof.
  induction 1 as [m|m s m1 l m' T R IH].
  - simpl. induction (m_species m); simpl; congruence.
  - rewrite IH. apply trim_mech_ok in T. destruct T as [-> _]. unfold trim_species. rewrite filter_filter.
    apply filter_ext. intros a. simpl. destruct (sp_name a =? s); simpl; auto; [apply andb_false_r|apply andb_true_r].
Qed.

Lemma removals_once ph f m l m' : wf_mech m -> no_multi_explicit m -> l <> nil -> removals ph m l m' ->
  exists m1, trim_mech m l f ph = Ok m1 /\ same_content m1 m'.
Proof.
  intros W N NE R. revert W N NE. induction R as [m|m s m1 l m' T R IH]; [intros; contradiction|].
  intros W N _. destruct l as [|s2 l].
  - inversion R; subst. unfold trim_mech in T |- *. destruct (trim_species m [s]); [discriminate|].
    injection T as <-. eexists. split; [reflexivity|]. repeat split.
  - destruct IH as (m2 & E2 & C2).
    + eapply trim_no_dangling; eauto.
    + intros r tb Hr Ht Hd. apply trim_mech_ok in T. destruct T as (_ & TR & _). rewrite TR in Hr.
      clear - Hr Ht Hd N.
      revert Hr. generalize (map sp_name (trim_species m [s])). intros names.
      assert (forall r0 tb0, In r0 (m_reactions m) -> rx_third r0 = Some tb0 -> (tb_default tb0 == 0)%Q ->
                (length (tb_effs tb0) <= 1)%nat) as N' by (intros; eapply N; eauto).
      revert N'. generalize (m_reactions m) as rs0. induction rs0 as [|r0 rs IH]; simpl; intros N' Hr; [contradiction|].
      destruct (explicit_removed [s] r0); [apply IH; auto; intros; eapply N'; eauto|].
      destruct (all_kept names r0); [|apply IH; auto; intros; eapply N'; eauto].
      destruct Hr as [<-|Hr]; [|apply IH; auto; intros; eapply N'; eauto].
      unfold restrict_third in Ht. destruct (rx_third r0) as [tb0|] eqn:E0; [|congruence].
      injection Ht as <-. simpl in *.
      eapply Nat.le_trans; [|apply (N' r0 tb0); auto].
      clear. induction (tb_effs tb0); simpl; auto. destruct (str_in _ _); simpl; lia.
    + discriminate.
    + exists m2. split; auto. rewrite <- E2. symmetry.
      rewrite (trim_compose m [s] (s2 :: l) ("reduced_model_" ++ s ++ ".yaml") f ph m1 W N T). reflexivity.
Qed.

(** ** Partial correctness *)

Lemma py_min_ok l least : py_min l = Ok least -> l <> nil /\ In least l /\
  forall x, In x l -> x <> NaN -> least <> NaN -> xle least x = true.
Proof.
  destruct l as [|a l]; [discriminate|]. simpl. intros H. injection H as <-. split; [discriminate|].
  revert a. induction l as [|x l IH]; intros a; simpl.
  - split; auto. intros y [->|[]] N _. destruct y; simpl; auto; try contradiction. apply Qle_bool_iff. lra.
  - specialize (IH (if xlt x a then x else a)). destruct IH as [I M].
    set (z := fold_left (fun a0 b => if xlt b a0 then b else a0) l (if xlt x a then x else a)) in *.
    split.
    + destruct I as [I|I]; [|auto]. destruct (xlt x a); auto.
    + intros y Hy Ny Nz.
      assert (forall p q, xlt p q = true -> xle p q = true) as LL.
      { intros [p| | |] [q| | |]; simpl; auto; intros; try discriminate. apply Qle_bool_iff. apply Qlt_bool_iff in H. lra. }
      assert (forall p q r, xle p q = true -> xle q r = true -> xle p r = true) as TT.
      { intros [p| | |] [q| | |] [r| | |]; simpl; intros; try discriminate; auto.
        apply Qle_bool_iff in H. apply Qle_bool_iff in H0. apply Qle_bool_iff. lra. }
      assert (forall p q, p <> NaN -> q <> NaN -> xlt p q = false -> xle q p = true) as GG.
      { intros [p| | |] [q| | |] P1 P2; simpl; intros; try discriminate; auto; try contradiction.
        apply Qle_bool_iff. apply Qlt_bool_false in H. lra. }
      destruct Hy as [->|[->|Hy]].
      * destruct (xlt x y) eqn:C.
        -- assert (x <> NaN) by (intros ->; destruct y; discriminate).
           eapply TT; [|apply LL; exact C]. apply M; simpl; auto.
        -- apply M; simpl; auto.
      * destruct (xlt y a) eqn:C; [apply M; simpl; auto|].
        destruct a as [a| | |]; [| | |].
        -- eapply TT; [apply (M (Fin a)); simpl; auto; discriminate|]. apply GG; auto; discriminate.
        -- eapply TT; [apply (M PInf); simpl; auto; discriminate|]. apply GG; auto; discriminate.
        -- eapply TT; [apply (M NInf); simpl; auto; discriminate|]. apply GG; auto; discriminate.
        -- exfalso. apply Nz. subst z. clear. induction l as [|b l IH]; simpl; auto. destruct b; simpl; auto.
      * apply M; simpl; auto.
Qed.

Lemma loop_sound K ref : forall fuel m err errs limbo m' e' rest,
  length errs = length limbo ->
  p_loop fuel K ref m err errs limbo = Ok (m', e', rest) ->
  exists L tried, Permutation limbo (L ++ tried ++ rest)%list /\ removals (s_phase K) m L m' /\
    (L = nil /\ m' = m /\ e' = err \/
     L <> nil /\ xgt e' (s_limit K) = false /\ error_of (s_conds K) ref m' = Ok e') /\
    stopped K ref m' tried rest /\
    (s_alg K = Greedy -> limbo <> nil -> (tried ++ rest)%list <> nil).
Proof.
  induction fuel as [|fuel IH]; intros m err errs limbo m' e' rest LE.
  - destruct limbo; [|discriminate]. simpl. intros H. injection H as <- <- <-.
    exists nil, nil. repeat split; auto; try (constructor; fail). left; auto.
  - destruct limbo as [|x lim].
    { simpl. intros H. injection H as <- <- <-. exists nil, nil. repeat split; auto; try (constructor; fail). left; auto. }
    remember (x :: lim) as limbo eqn:EL.
    assert (limbo <> nil) as NE by (subst; discriminate).
    assert (forall A (a b : A), match limbo with nil => a | _ :: _ => b end = b) as NE' by (subst; auto).
    cbn [p_loop]. rewrite NE'. destruct (choose_nth (s_far K) err errs limbo LE NE) as (sp & Nth). rewrite Nth.
    set (left_ := delete_at (choose (s_far K) err errs) limbo).
    pose proof (delete_perm _ _ _ Nth) as P. fold left_ in P.
    assert (choose (s_far K) err errs < length limbo)%nat as CL by (apply nth_error_Some; congruence).
    destruct (without (s_phase K) m sp) as [m1|?|] eqn:EW; try discriminate. cbn [bind].
    destruct (error_of (s_conds K) ref m1) as [e|?|] eqn:EE; try discriminate. cbn [bind].
    destruct (xgt e (s_limit K)) eqn:G.
    { intros H. injection H as <- <- <-. exists nil, [sp]. simpl. split; [exact P|]. split; [constructor|].
      split; [auto|]. split; [|intros; discriminate]. right. left. exists sp, e. split; auto. split; auto.
      exists m1. split; auto. now apply removals_one. }
    assert (forall L tried rest', Permutation left_ (L ++ tried ++ rest')%list -> Permutation limbo ((sp :: L) ++ tried ++ rest')%list) as PP.
    { intros. simpl. rewrite P. now apply perm_skip. }
    destruct (s_alg K) eqn:AL.
    + intros H. apply IH in H.
      2: { unfold left_. rewrite !delete_len; lia. }
      destruct H as (L & tried & P1 & R1 & O1 & S1 & _). exists (sp :: L), tried.
      split; [apply PP; auto|]. split; [econstructor; eauto|]. split; [|split; [auto|intros; congruence]].
      right. split; [discriminate|]. destruct O1 as [(-> & -> & ->)|(_ & A & B)]; auto.
    + destruct (mapM (score (s_phase K) (s_conds K) ref m1) left_) as [errs'|?|] eqn:EM; try discriminate. cbn [bind].
      destruct (py_min errs') as [least|?|] eqn:EP; try discriminate. cbn [bind].
      pose proof (mapM_length _ _ _ EM) as LM. destruct (py_min_ok _ _ EP) as (NN & IN & MIN).
      assert (left_ <> nil) as NL by (intros X; rewrite X in LM; destruct errs'; [contradiction|discriminate]).
      destruct (xgt least (s_limit K)) eqn:G2.
      * intros H. injection H as <- <- <-. exists [sp], nil. simpl. split; [exact P|].
        split; [now apply removals_one|]. split; [right; split; [discriminate|auto]|]. split; [|auto].
        right. right. split; auto. split; auto. split; auto.
        intros s Hs. apply mapM_ok in EM.
        assert (exists e0, In e0 errs' /\ score (s_phase K) (s_conds K) ref m1 s = Ok e0) as (e0 & I0 & S0).
        { clear - EM Hs. induction EM; [contradiction|]. destruct Hs as [->|Hs]; [exists y; simpl; auto|].
          destruct IHEM as (e0 & A & B); auto. exists e0. simpl; auto. }
        exists e0. split.
        { unfold score in S0. destruct (without (s_phase K) m1 s) as [m2|?|] eqn:E2; try discriminate.
          exists m2. split; auto. now apply removals_one. }
        destruct (is_nan e0) eqn:Nan; [destruct e0; try discriminate; reflexivity|].
        assert (xle least e0 = true) as LE0.
        { apply MIN; auto.
          - intros ->. discriminate.
          - intros ->. unfold xgt, xlt in G2. destruct (s_limit K); discriminate. }
        clear - LE0 G2. unfold xgt in G2. destruct least as [a| | |], e0 as [b| | |], (s_limit K) as [c| | |]; simpl in *; auto; try discriminate.
        apply Qle_bool_iff in LE0. apply Qlt_bool_iff in G2. apply Qle_bool_false. lra.
      * intros H. apply IH in H.
        2: { now rewrite LM. }
        destruct H as (L & tried & P1 & R1 & O1 & S1 & Q1). exists (sp :: L), tried.
        split; [apply PP; auto|]. split; [econstructor; eauto|]. split; [|split; [auto|intros; auto]].
        right. split; [discriminate|]. destruct O1 as [(-> & -> & ->)|(_ & A & B)]; auto.
Qed.

Lemma start_candidates K w sol : candidates K w sol (fst (start_list K w sol)).
Proof.
  unfold candidates, start_list. destruct (given_limbo w (s_limbo K)) as [|x l] eqn:E.
  - right. simpl. split; auto. split; [apply filter_sublist|]. intros s. apply not_in_spec.
  - left. destruct (s_limbo K); simpl; split; auto; discriminate.
Qed.

Lemma sub_unique {A} (dec : forall x y : A, {x = y} + {x <> y}) (a b l : list A) :
  NoDup l -> sublist a l -> sublist b l -> (forall x, In x a <-> In x b) -> a = b.
Proof.
  intros N. revert a b. induction l as [|x l IH]; intros a b Sa Sb E.
  - inversion Sa; inversion Sb; auto.
  - inversion N as [|? ? Nx Nl]; subst. inversion Sa as [|? ? ? Sa'|? a' ? Sa']; subst; inversion Sb as [|? ? ? Sb'|? b' ? Sb']; subst.
    + apply IH; auto.
    + exfalso. apply Nx. eapply sublist_in; [exact Sa'|]. apply E. simpl; auto.
    + exfalso. apply Nx. eapply sublist_in; [exact Sb'|]. apply E. simpl; auto.
    + f_equal. apply IH; auto. intros y. split; intros Hy.
      * assert (In y (x :: b')) as [<-|]; [apply E; simpl; auto| |auto]. exfalso. apply Nx. eapply sublist_in; [exact Sa'|]. auto.
      * assert (In y (x :: a')) as [<-|]; [apply E; simpl; auto| |auto]. exfalso. apply Nx. eapply sublist_in; [exact Sb'|]. auto.
Qed.

Lemma candidates_start K w sol l : wf_mech sol -> candidates K w sol l -> l = fst (start_list K w sol).
Proof.
  intros [ND _] C. unfold candidates in C. unfold start_list.
  destruct C as [(-> & N)|(E & S & H)].
  - destruct (given_limbo w (s_limbo K)); [contradiction|]. destruct (s_limbo K); reflexivity.
  - rewrite E. simpl. apply (sub_unique string_dec _ _ (species_names sol)); auto.
    + apply filter_sublist.
    + intros x. rewrite H. symmetry. apply not_in_spec.
Qed.

Lemma run_ok K w tmp tmp2 sol fuel r w' : sa_started K w tmp tmp2 sol ->
  run_sa fuel tmp tmp2 K w = (Ok r, w') ->
  exists ref errs m e rest, found K w ref /\ r = final (m, e, rest) /\
    mapM (score (s_phase K) (s_conds K) ref sol) (fst (start_list K w sol)) = Ok errs /\
    p_loop fuel K ref sol (s_start K) errs (fst (start_list K w sol)) = Ok (m, e, rest) /\
    (forall g, w_fs w' g = if String.eqb g (path_join (s_path K) (r_file r))
                           then Some (FMech [r_model r]) else w_fs w g) /\
    (snd (start_list K w sol) = false -> w_shared w' = w_shared w) /\
    (snd (start_list K w sol) = true -> w_shared w' = rest).
Proof.
  intros ST E. destruct (run_eq K w tmp tmp2 sol fuel ST) as (R & w1 & E1 & ER & F & Sf & St).
  rewrite E in E1. injection E1 as <- <-.
  pose proof (metrics_same (s_file K) (s_phase K) (s_conds K) true w) as MS.
  destruct (sample_metrics (s_file K) (s_phase K) (s_conds K) true w) as [[ref|x|] w0] eqn:EM; simpl in MS; subst w0; try discriminate.
  simpl in ER. unfold p_run in *.
  destruct (mapM (score (s_phase K) (s_conds K) ref sol) (fst (start_list K w sol))) as [errs|?|] eqn:E2; try discriminate.
  cbn [bind] in ER.
  destruct (p_loop fuel K ref sol (s_start K) errs (fst (start_list K w sol))) as [[[m e] rest]|?|] eqn:E3; try discriminate.
  injection ER as ->. exists ref, errs, m, e, rest. split; [exact EM|]. split; auto. split; auto. split; auto.
  split; auto. split; auto. intros Y. eapply (St Y ref m e rest); [exact EM|]. rewrite E2. simpl. auto.
Qed.

Lemma sa_result K w tmp tmp2 sol fuel r w' : sa_started K w tmp tmp2 sol ->
  run_sa fuel tmp tmp2 K w = (Ok r, w') ->
  exists ref cands removed tried rest, found K w ref /\ candidates K w sol cands /\
    Permutation cands (removed ++ tried ++ rest)%list /\
    removals (s_phase K) sol removed (r_model r) /\
    (removed = nil /\ r_model r = sol /\ r_error r = s_start K \/
     removed <> nil /\ xgt (r_error r) (s_limit K) = false /\ error_of (s_conds K) ref (r_model r) = Ok (r_error r)) /\
    stopped K ref (r_model r) tried rest /\
    (s_alg K = Greedy -> cands <> nil -> (tried ++ rest)%list <> nil) /\
    (snd (start_list K w sol) = true -> w_shared w' = rest).
Proof.
  intros ST E. destruct (run_ok _ _ _ _ _ _ _ _ ST E) as (ref & errs & m & e & rest & RF & -> & EM & EP & _ & _ & SH).
  destruct (loop_sound _ _ _ _ _ _ _ _ _ _ (mapM_length _ _ _ EM) EP) as (L & tried & P & R & O & S & G).
  exists ref, (fst (start_list K w sol)), L, tried, rest. simpl. split; auto. split; [apply start_candidates|]. auto 8.
Qed.

(** ** Total correctness *)

Lemma loop_fuel K ref : (forall m, error_of (s_conds K) ref m <> NoFuel) ->
  forall fuel m err errs limbo, (length limbo <= fuel)%nat -> length errs = length limbo ->
    p_loop fuel K ref m err errs limbo <> NoFuel.
Proof.
  intros NF.
  assert (forall m sp, without (s_phase K) m sp <> NoFuel) as NW.
  { intros m sp. unfold without, trim_mech. destruct (trim_species m [sp]); discriminate. }
  assert (forall m sp, score (s_phase K) (s_conds K) ref m sp <> NoFuel) as NS.
  { intros m sp. unfold score. specialize (NW m sp). destruct (without (s_phase K) m sp); simpl; auto. discriminate. }
  assert (forall m l, mapM (score (s_phase K) (s_conds K) ref m) l <> NoFuel) as NM.
  { intros m l. induction l as [|x l IH]; simpl; [discriminate|]. specialize (NS m x).
    destruct (score (s_phase K) (s_conds K) ref m x); simpl; auto; [|discriminate].
    destruct (mapM _ l); simpl; auto; discriminate. }
  induction fuel as [|fuel IH]; intros m err errs limbo LF LE.
  - destruct limbo; [discriminate|simpl in LF; lia].
  - destruct limbo as [|x lim]; [discriminate|].
    remember (x :: lim) as limbo eqn:EL.
    assert (limbo <> nil) as NE by (subst; discriminate).
    assert (forall A (a b : A), match limbo with nil => a | _ :: _ => b end = b) as NE' by (subst; auto).
    cbn [p_loop]. rewrite NE'. destruct (choose_nth (s_far K) err errs limbo LE NE) as (sp & Nth). rewrite Nth.
    assert (choose (s_far K) err errs < length limbo)%nat as CL by (apply nth_error_Some; congruence).
    specialize (NW m sp). destruct (without (s_phase K) m sp) as [m1|?|]; simpl; auto; [|discriminate].
    specialize (NF m1). destruct (error_of (s_conds K) ref m1) as [e|?|]; simpl; auto; [|discriminate].
    destruct (xgt e (s_limit K)); [discriminate|].
    assert (length (delete_at (choose (s_far K) err errs) limbo) <= fuel)%nat as LF' by (rewrite delete_len; lia).
    destruct (s_alg K).
    + apply IH; auto. rewrite !delete_len; lia.
    + specialize (NM m1 (delete_at (choose (s_far K) err errs) limbo)).
      destruct (mapM _ (delete_at (choose (s_far K) err errs) limbo)) as [errs'|?|] eqn:EM; simpl; auto; [|discriminate].
      destruct errs' as [|e0 errs']; simpl; [discriminate|].
      destruct (xgt _ (s_limit K)); [discriminate|]. apply IH; auto. now apply mapM_length in EM.
Qed.

(** *** When everything is removable *)

Lemma score_ok K ref m s e : score (s_phase K) (s_conds K) ref m s = Ok e <-> error_without K ref m s e.
Proof.
  unfold score, error_without. split.
  - destruct (without (s_phase K) m s) as [m'|?|] eqn:E; try discriminate. simpl. intros H.
    exists m'. split; auto. now apply removals_one.
  - intros (m' & R & H). apply removals_one in R. rewrite R. exact H.
Qed.

Lemma without_cases ph m s : (exists m', without ph m s = Ok m') \/ without ph m s = Raise ValueError.
Proof. unfold without, trim_mech. destruct (trim_species m [s]); eauto. Qed.

Lemma removable_scores K sol ref cands done m l : all_removable K sol ref cands ->
  removals (s_phase K) sol done m -> incl done cands -> incl l cands ->
  (exists errs, mapM (score (s_phase K) (s_conds K) ref m) l = Ok errs /\
     forall e, In e errs -> xgt e (s_limit K) = false) \/
  mapM (score (s_phase K) (s_conds K) ref m) l = Raise ValueError.
Proof.
  intros AR R ID. induction l as [|s l IH]; intros IL.
  - left. exists nil. split; auto. contradiction.
  - simpl. assert (score (s_phase K) (s_conds K) ref m s = bind (without (s_phase K) m s) (error_of (s_conds K) ref)) as SE by reflexivity.
    rewrite !SE. destruct (without_cases (s_phase K) m s) as [(m' & E)|E]; rewrite E; simpl; auto.
    destruct (AR (done ++ [s])%list m') as (e & EE & G).
    + intros X. apply app_eq_nil in X. destruct X; discriminate.
    + apply incl_app; auto. intros y [<-|[]]. apply IL. simpl; auto.
    + eapply removals_app; eauto. now apply removals_one.
    + rewrite EE. simpl. destruct IH as [(errs & EM & GE)|EM].
      * intros y Hy. apply IL. simpl; auto.
      * rewrite EM. simpl. left. exists (e :: errs). split; auto. intros e' [<-|]; auto.
      * rewrite EM. simpl. auto.
Qed.

Lemma greedy_fails K sol ref cands : all_removable K sol ref cands -> s_alg K = Greedy ->
  forall fuel done m err errs limbo, removals (s_phase K) sol done m ->
    incl done cands -> incl limbo cands -> limbo <> nil -> (length limbo <= fuel)%nat -> length errs = length limbo ->
    p_loop fuel K ref m err errs limbo = Raise ValueError.
Proof.
  intros AR AL. induction fuel as [|fuel IH]; intros done m err errs limbo R ID IL NE LF LE.
  - destruct limbo; [contradiction|simpl in LF; lia].
  - assert (forall A (a b : A), match limbo with nil => a | _ :: _ => b end = b) as NE' by (destruct limbo; auto; contradiction).
    cbn [p_loop]. rewrite NE'. destruct (choose_nth (s_far K) err errs limbo LE NE) as (sp & Nth). rewrite Nth.
    assert (choose (s_far K) err errs < length limbo)%nat as CL by (apply nth_error_Some; congruence).
    pose proof (delete_perm _ _ _ Nth) as P.
    destruct (without_cases (s_phase K) m sp) as [(m1 & E)|E]; rewrite E; simpl; auto.
    assert (In sp cands) as IS by (apply IL; eapply nth_error_In; eauto).
    assert (incl (done ++ [sp])%list cands) as ID1 by (apply incl_app; auto; intros y [<-|[]]; auto).
    assert (removals (s_phase K) sol (done ++ [sp])%list m1) as R1.
    { eapply removals_app; eauto. now apply removals_one. }
    destruct (AR (done ++ [sp])%list m1) as (e & EE & G); auto.
    { intros X. apply app_eq_nil in X. destruct X; discriminate. }
    rewrite EE. simpl. rewrite G, AL.
    set (left_ := delete_at (choose (s_far K) err errs) limbo) in *.
    assert (incl left_ cands) as IL1.
    { intros y Hy. apply IL. apply Permutation_in with (sp :: left_); [now apply Permutation_sym|simpl; auto]. }
    destruct (removable_scores K sol ref cands _ m1 left_ AR R1 ID1 IL1) as [(errs' & EM & GE)|EM]; rewrite EM; simpl; auto.
    destruct (py_min errs') as [least|x|] eqn:EP; simpl.
    + destruct (py_min_ok _ _ EP) as (NN & IN & _). rewrite (GE _ IN).
      pose proof (mapM_length _ _ _ EM) as LM. eapply IH; eauto.
      * intros X. rewrite X in LM. destruct errs'; [contradiction|discriminate].
      * unfold left_. rewrite delete_len; lia.
    + destruct errs'; [injection EP as <-; auto|discriminate].
    + destruct errs'; discriminate.
Qed.

Lemma initial_all K sol ref cands : all_removable K sol ref cands -> s_alg K = Initial ->
  (exists s, In s (species_names sol) /\ ~ In s cands) ->
  forall fuel done m err errs limbo, removals (s_phase K) sol done m ->
    incl done cands -> incl limbo cands -> (length limbo <= fuel)%nat -> length errs = length limbo ->
    exists m' e', p_loop fuel K ref m err errs limbo = Ok (m', e', nil).
Proof.
  intros AR AL (k & Hk & Nk). induction fuel as [|fuel IH]; intros done m err errs limbo R ID IL LF LE.
  - destruct limbo; [simpl; eauto|simpl in LF; lia].
  - destruct limbo as [|x lim]; [simpl; eauto|].
    remember (x :: lim) as limbo eqn:EL.
    assert (limbo <> nil) as NE by (subst; discriminate).
    assert (forall A (a b : A), match limbo with nil => a | _ :: _ => b end = b) as NE' by (subst; auto).
    cbn [p_loop]. rewrite NE'. destruct (choose_nth (s_far K) err errs limbo LE NE) as (sp & Nth). rewrite Nth.
    assert (choose (s_far K) err errs < length limbo)%nat as CL by (apply nth_error_Some; congruence).
    pose proof (delete_perm _ _ _ Nth) as P.
    assert (In sp cands) as IS by (apply IL; eapply nth_error_In; eauto).
    destruct (without_cases (s_phase K) m sp) as [(m1 & E)|E].
    2: { exfalso. unfold without in E.
         assert (forall x0, In x0 (m_species m) -> In (sp_name x0) [sp]) as X.
         { apply (proj1 (trim_raises_iff m [sp] (test_name sp) (s_phase K))). congruence. }
         assert (In k (species_names m)) as Hkm.
         { apply (removals_names _ _ _ _ R). split; auto. }
         apply in_map_iff in Hkm. destruct Hkm as (y & <- & Hy). apply X in Hy. destruct Hy as [Hy|[]]. apply Nk. rewrite <- Hy. exact IS. }
    rewrite E. simpl.
    assert (incl (done ++ [sp])%list cands) as ID1 by (apply incl_app; auto; intros y [<-|[]]; auto).
    assert (removals (s_phase K) sol (done ++ [sp])%list m1) as R1.
    { eapply removals_app; eauto. now apply removals_one. }
    destruct (AR (done ++ [sp])%list m1) as (e & EE & G); auto.
    { intros X. apply app_eq_nil in X. destruct X; discriminate. }
    rewrite EE. simpl. rewrite G, AL. eapply IH; eauto.
    + intros y Hy. apply IL. apply Permutation_in with (sp :: delete_at (choose (s_far K) err errs) limbo); [now apply Permutation_sym|simpl; auto].
    + rewrite delete_len; lia.
    + rewrite !delete_len; lia.
Qed.

Lemma run_pure K w tmp tmp2 sol fuel ref cands : sa_started K w tmp tmp2 sol -> found K w ref -> candidates K w sol cands ->
  fst (run_sa fuel tmp tmp2 K w) = bind (p_run fuel K ref sol cands) (fun x => Ok (final x)).
Proof.
  intros ST RF C. rewrite (candidates_start K w sol cands (sa_wf _ _ _ _ _ ST) C).
  destruct (run_eq K w tmp tmp2 sol fuel ST) as (R & w1 & E1 & ER & _).
  rewrite E1. simpl. rewrite ER, RF. reflexivity.
Qed.

Lemma run_greedy_crash K w tmp tmp2 sol fuel ref cands : sa_started K w tmp tmp2 sol -> found K w ref ->
  candidates K w sol cands -> cands <> nil -> s_alg K = Greedy -> all_removable K sol ref cands ->
  (length cands <= fuel)%nat -> fst (run_sa fuel tmp tmp2 K w) = Raise ValueError.
Proof.
  intros ST RF C NE AL AR LF. rewrite (run_pure K w tmp tmp2 sol fuel ref cands ST RF C). unfold p_run.
  destruct (removable_scores K sol ref cands nil sol cands AR) as [(errs & EM & GE)|EM];
    [constructor|now intros ? []|apply incl_refl| |].
  - rewrite EM. cbn [bind]. erewrite (greedy_fails K sol ref cands AR AL); eauto; try reflexivity.
    + constructor.
    + now intros ? [].
    + apply incl_refl.
    + now apply mapM_length in EM.
  - rewrite EM. reflexivity.
Qed.

Lemma run_initial_all K w tmp tmp2 sol fuel ref cands : sa_started K w tmp tmp2 sol -> found K w ref ->
  candidates K w sol cands -> s_alg K = Initial -> all_removable K sol ref cands ->
  (exists s, In s (species_names sol) /\ ~ In s cands) ->
  (length cands <= fuel)%nat -> exists r w', run_sa fuel tmp tmp2 K w = (Ok r, w') /\
    (forall s, In s (species_names (r_model r)) <-> In s (species_names sol) /\ ~ In s cands).
Proof.
  intros ST RF C AL AR (k & Hk & Nk) LF. pose proof (run_pure K w tmp tmp2 sol fuel ref cands ST RF C) as E. unfold p_run in E.
  destruct (removable_scores K sol ref cands nil sol cands AR) as [(errs & EM & GE)|EM];
    [constructor|now intros ? []|apply incl_refl| |].
  - rewrite EM in E. cbn [bind] in E. 
    destruct (initial_all K sol ref cands AR AL (ex_intro _ k (conj Hk Nk)) fuel nil sol (s_start K) errs cands) as (m' & e' & EP); auto.
    { constructor. } { now intros ? []. } { apply incl_refl. } { now apply mapM_length in EM. }
    rewrite EP in E. simpl in E. destruct (run_sa fuel tmp tmp2 K w) as [R w'] eqn:ER. simpl in E. subst R.
    do 2 eexists. split; [reflexivity|]. simpl.
    destruct (loop_sound _ _ _ _ _ _ _ _ _ _ (mapM_length _ _ _ EM) EP) as (L & tried & P & R & O & S & _).
    assert (tried = nil) as ->.
    { destruct S as [(-> & _)|[(s & e & -> & EW & G)|(X & _)]]; auto; [|congruence]. exfalso.
      destruct EW as (m2 & R2 & E2).
      destruct (AR (L ++ [s])%list m2) as (e2 & E3 & G3).
      - intros X. apply app_eq_nil in X. destruct X; discriminate.
      - intros y Hy. eapply Permutation_in; [apply Permutation_sym; exact P|]. rewrite app_nil_r. exact Hy.
      - eapply removals_app; eauto.
      - congruence. }
    simpl in P. rewrite app_nil_r in P. intros s. rewrite (removals_names _ _ _ _ R).
    split; intros [A B]; split; auto; intros X; apply B.
    + eapply Permutation_in; eauto.
    + eapply Permutation_in; [apply Permutation_sym; exact P|auto].
  - exfalso. clear - EM AR Hk Nk. 
    assert (forall l, incl l cands -> mapM (score (s_phase K) (s_conds K) ref sol) l <> Raise ValueError) as X.
    { induction l as [|s l IH]; intros I; simpl; [discriminate|]. unfold score at 1.
      destruct (without_cases (s_phase K) sol s) as [(m1 & E)|E].
      - rewrite E. simpl. destruct (AR [s] m1) as (e & EE & G).
        + discriminate.
        + intros y [<-|[]]. apply I. simpl; auto.
        + now apply removals_one.
        + rewrite EE. simpl. assert (incl l cands) as I2 by (intros y Hy; apply I; simpl; auto).
          specialize (IH I2). destruct (mapM (score (s_phase K) (s_conds K) ref sol) l); simpl; auto. discriminate.
      - exfalso. assert (forall x0, In x0 (m_species sol) -> In (sp_name x0) [s]) as X.
        { apply (proj1 (trim_raises_iff sol [s] (test_name s) (s_phase K))). unfold without in E. congruence. }
        apply in_map_iff in Hk. destruct Hk as (y & <- & Hy). apply X in Hy. destruct Hy as [Hy|[]].
        apply Nk. rewrite <- Hy. apply I. simpl; auto. }
    apply (X cands); auto. apply incl_refl.
Qed.

Lemma run_ends K w tmp tmp2 sol fuel cands : sa_started K w tmp tmp2 sol -> candidates K w sol cands ->
  exact_errors (s_conds K) ->
  (forall c m, In c (c_ign (s_conds K) ++ c_psr (s_conds K) ++ c_flame (s_conds K))%list -> c m <> NoFuel) ->
  (length cands <= fuel)%nat -> fst (run_sa fuel tmp tmp2 K w) <> NoFuel.
Proof.
  intros ST C XE NF LF.
  assert (forall cs0 m, incl cs0 (c_ign (s_conds K) ++ c_psr (s_conds K) ++ c_flame (s_conds K))%list ->
            mapM (fun c : cond => c m) cs0 <> NoFuel) as NM.
  { induction cs0 as [|c cs0 IH]; intros m I; simpl; [discriminate|].
    assert (c m <> NoFuel) as N by (apply NF; apply I; simpl; auto).
    destruct (c m); simpl; auto; [|discriminate].
    assert (mapM (fun c : cond => c m) cs0 <> NoFuel) as N2 by (apply IH; intros y Hy; apply I; simpl; auto).
    destruct (mapM _ cs0); simpl; auto; discriminate. }
  assert (forall ref ts, calculate_error ref ts <> NoFuel) as CE.
  { intros ref ts. unfold calculate_error, bcast. destruct (Nat.eqb _ _).
    - simpl. destruct (map _ _); discriminate.
    - destruct ref as [|a [|b ref]], ts as [|x [|y ts]]; simpl; try discriminate. }
  assert (forall ref m, error_of (s_conds K) ref m <> NoFuel) as NE.
  { intros ref m. unfold error_of, metrics_of. rewrite XE. specialize (NM _ m (incl_refl _)).
    destruct (mapM _ _); simpl; auto. discriminate. }
  assert (exists r, fst (sample_metrics (s_file K) (s_phase K) (s_conds K) true w) = r /\ r <> NoFuel) as (rr & Er & Nr).
  { eexists. split; [reflexivity|]. 
    assert (forall cases out init k, incl cases (c_ign (s_conds K) ++ c_psr (s_conds K) ++ c_flame (s_conds K))%list ->
      fst (metrics_part (s_file K) (s_phase K) cases out init k true w) <> NoFuel) as NP.
    { intros cases out init k I. 
      assert (fst (run_metric_jobs (s_file K) (s_phase K) cases w) <> NoFuel) as NJ.
      { rewrite (jobs_eq w _ _ sol); [|apply (sa_file _ _ _ _ _ ST)]. simpl. specialize (NM cases sol I).
        destruct (mapM _ cases); simpl; auto; discriminate. }
      unfold metrics_part. destruct cases as [|c cases]; [discriminate|]. unfold mbind at 1. unfold is_file. unfold mbind at 1.
      simpl andb. destruct (w_fs w out) as [ff|] eqn:EF.
      - unfold read_nums, mbind, get_file. cbn [andb]. cbv beta iota. rewrite EF. unfold mlift. pose proof (text_flat ff) as TF.
        destruct (bind (text_array ff) flat) as [l| |]; [|discriminate|congruence].
        destruct (Nat.eqb (length l) k); [discriminate|exact NJ].
      - cbn [andb]. unfold mret. cbv beta iota. destruct (Nat.eqb (length init) k); [discriminate|exact NJ]. }
    unfold sample_metrics, mbind.
    repeat match goal with
    | |- context [metrics_part ?f ?ph ?c ?o ?i ?k true w] =>
        let H := fresh in let H2 := fresh in
        pose proof (part_same f ph c o i k true w) as H;
        assert (fst (metrics_part f ph c o i k true w) <> NoFuel) as H2 by
          (apply NP; intros y Hy; rewrite !in_app_iff; auto);
        destruct (metrics_part f ph c o i k true w) as [[?|?|] ?]; simpl in H, H2; subst; simpl; auto; try discriminate
    end. }
  destruct (run_eq K w tmp tmp2 sol fuel ST) as (R & w1 & E1 & ER & _). rewrite E1. simpl.
  rewrite Er in ER. rewrite ER. destruct rr as [ref|?|]; simpl; try discriminate; auto.
  rewrite <- (candidates_start K w sol cands (sa_wf _ _ _ _ _ ST) C). unfold p_run.
  destruct (mapM (score (s_phase K) (s_conds K) ref sol) cands) as [errs|?|] eqn:EM; simpl; try discriminate.
  - pose proof (loop_fuel K ref (NE ref) fuel sol (s_start K) errs cands LF (mapM_length _ _ _ EM)) as LL.
    destruct (p_loop _ _ _ _ _ _ _); simpl; auto; discriminate.
  - exfalso. revert EM. clear - NE. induction cands as [|x l IH]; simpl; [discriminate|].
    unfold score at 1. destruct (without_cases (s_phase K) sol x) as [(m' & E)|E]; rewrite E; simpl; [|discriminate].
    specialize (NE ref m'). destruct (error_of (s_conds K) ref m'); simpl; auto; try discriminate.
    destruct (mapM _ l); simpl; auto; discriminate.
Qed.

(** *** NaN *)

Lemma argmin_nan l : forall i best v k,
  (forall j, (j < k)%nat -> nth j (v :: l) NaN <> NaN) -> (k <= length l)%nat -> nth k (v :: l) (Fin 0) = NaN ->
  (best < i)%nat -> argmin_from i best v l = if Nat.eqb k 0 then best else (i + k - 1)%nat.
Proof.
  induction l as [|x l IH]; intros i best v k B L N H.
  - simpl in *. assert (k = 0)%nat by lia. subst. reflexivity.
  - destruct k as [|k].
    + simpl in N. subst v. reflexivity.
    + simpl Nat.eqb. cbn [argmin_from]. assert (is_nan v = false) as ->.
      { specialize (B 0%nat). simpl in B. destruct v; auto. exfalso. apply B; [lia|auto]. }
      destruct k as [|k].
      * assert (x = NaN) as -> by exact N. simpl. destruct l; simpl; [lia|].
        replace (i + 1 - 1)%nat with i by lia. reflexivity.
      * destruct (is_nan x || xlt x v) eqn:C.
        -- rewrite (IH (S i) i x (S k)); simpl; try lia; auto.
           ++ intros j Hj. specialize (B (S j)). simpl in B. apply B. lia.
           ++ simpl in L. lia.
        -- rewrite (IH (S i) best v (S k)); simpl; try lia; auto.
           ++ intros j Hj. destruct j as [|j]; [specialize (B 0%nat); apply B; lia|].
              specialize (B (S (S j))). simpl in B. apply B. lia.
           ++ simpl in L. lia.
Qed.

Lemma choose_nan q errs k : (forall j, (j < k)%nat -> nth j errs NaN <> NaN) -> (k < length errs)%nat ->
  nth k errs (Fin 0) = NaN -> choose error_distance (Fin q) errs = k.
Proof.
  intros B L N. unfold choose. destruct errs as [|e errs]; [simpl in L; lia|].
  set (g := fun e0 => error_distance e0 (Fin q)).
  assert (forall x, g x = NaN <-> x = NaN) as G by (intros [ | | | ]; unfold g, error_distance; simpl; split; intros; try discriminate; auto).
  simpl map. simpl argmin. fold (g e).
  rewrite (argmin_nan (map g errs) 1 0 (g e) k).
  - destruct k; simpl; lia.
  - intros j Hj. change (g e :: map g errs) with (map g (e :: errs)). change NaN with (g NaN) at 1. rewrite map_nth.
    rewrite G. apply B. auto.
  - rewrite map_length. simpl in L. lia.
  - change (g e :: map g errs) with (map g (e :: errs)). rewrite nth_indep with (d' := g (Fin 0)).
    + rewrite map_nth. rewrite N. reflexivity.
    + rewrite map_length. auto.
  - lia.
Qed.

Lemma run_nan K w tmp tmp2 sol fuel r w' ref cands q k s : sa_started K w tmp tmp2 sol -> found K w ref ->
  candidates K w sol cands -> s_far K = error_distance -> s_start K = Fin q ->
  nth_error cands k = Some s -> error_without K ref sol s NaN ->
  (forall j s', (j < k)%nat -> nth_error cands j = Some s' -> ~ error_without K ref sol s' NaN) ->
  run_sa fuel tmp tmp2 K w = (Ok r, w') ->
  ~ In s (species_names (r_model r)).
Proof.
  intros ST RF C XD SQ Nk En Bk E.
  destruct (run_ok _ _ _ _ _ _ _ _ ST E) as (ref' & errs & m & e & rest & RF' & -> & EM & EP & _).
  assert (ref' = ref) by (unfold found in *; congruence). subst ref'.
  rewrite <- (candidates_start K w sol cands (sa_wf _ _ _ _ _ ST) C) in *.
  pose proof (mapM_length _ _ _ EM) as LM. apply mapM_ok in EM.
  assert (forall j s', nth_error cands j = Some s' -> exists e', nth_error errs j = Some e' /\ error_without K ref sol s' e') as NT.
  { clear - EM. induction EM as [|x y l l' H EM IH]; intros [|j] s'; simpl; try discriminate.
    - intros X. injection X as <-. exists y. split; auto. now apply score_ok.
    - apply IH. }
  assert (forall s' e1 e2, error_without K ref sol s' e1 -> error_without K ref sol s' e2 -> e1 = e2) as DT.
  { intros s' e1 e2 H1 H2. apply score_ok in H1. apply score_ok in H2. congruence. }
  assert (choose (s_far K) (s_start K) errs = k) as CH.
  { rewrite SQ, XD. apply choose_nan.
    - intros j Hj. assert (j < length cands)%nat as LJ.
      { apply Nat.lt_trans with k; auto. apply nth_error_Some. congruence. }
      destruct (nth_error cands j) as [s'|] eqn:Ej; [|apply nth_error_None in Ej; lia].
      destruct (NT _ _ Ej) as (e' & E' & W'). rewrite (nth_error_nth _ _ _ E'). intros ->. apply (Bk j s'); auto.
    - rewrite LM. apply nth_error_Some. congruence.
    - destruct (NT _ _ Nk) as (e' & E' & W'). rewrite (nth_error_nth _ _ _ E'). eapply DT; eauto. }
  destruct En as (m1 & R1 & E1). apply removals_one in R1.
  assert (cands <> nil) as NE by (intros ->; destruct k; discriminate).
  assert (forall A (a b : A), match cands with nil => a | _ :: _ => b end = b) as NE' by (destruct cands; auto; contradiction).
  assert (~ In s (species_names m1)) as N1.
  { intros X. apply removals_one in R1. apply (removals_names _ _ _ _ R1) in X. destruct X as [_ X]. apply X; simpl; auto. }
  assert (xgt NaN (s_limit K) = false) as GN by (unfold xgt; destruct (s_limit K); reflexivity).
  destruct fuel as [|fuel]; [destruct cands; [contradiction|discriminate]|].
  cbn [p_loop] in EP. rewrite NE', CH, Nk, R1 in EP. cbn [bind] in EP. rewrite E1 in EP. cbn [bind] in EP. rewrite GN in EP.
  assert (k < length cands)%nat as LK by (apply nth_error_Some; congruence).
  simpl. destruct (s_alg K).
  - apply loop_sound in EP; [|rewrite !delete_len; lia]. destruct EP as (L & _ & _ & R & _). intros X.
    apply (removals_names _ _ _ _ R) in X. tauto.
  - destruct (mapM (score (s_phase K) (s_conds K) ref m1) (delete_at k cands)) as [errs'|?|] eqn:EM2; try discriminate.
    cbn [bind] in EP. destruct (py_min errs') as [least|?|]; try discriminate. cbn [bind] in EP.
    destruct (xgt least (s_limit K)).
    + injection EP as <- <- <-. auto.
    + apply loop_sound in EP; [|now apply mapM_length in EM2]. destruct EP as (L & _ & _ & R & _). intros X.
      apply (removals_names _ _ _ _ R) in X. tauto.
Qed.

(** *** Nothing removed *)

Lemma run_nothing K w tmp tmp2 sol fuel r w' ref cands : sa_started K w tmp tmp2 sol -> found K w ref ->
  candidates K w sol cands ->
  (forall s e, In s cands -> error_without K ref sol s e -> xgt e (s_limit K) = true) ->
  run_sa fuel tmp tmp2 K w = (Ok r, w') -> r_model r = sol /\ r_error r = s_start K.
Proof.
  intros ST RF C EX E.
  destruct (run_ok _ _ _ _ _ _ _ _ ST E) as (ref' & errs & m & e & rest & RF' & -> & EM & EP & _).
  assert (ref' = ref) by (unfold found in *; congruence). subst ref'.
  rewrite <- (candidates_start K w sol cands (sa_wf _ _ _ _ _ ST) C) in *. simpl.
  pose proof (mapM_length _ _ _ EM) as LM.
  destruct cands as [|x l].
  { destruct fuel; simpl in EP; injection EP as <- <- <-; auto. }
  destruct fuel as [|fuel]; [discriminate|].
  destruct (choose_nth (s_far K) (s_start K) errs (x :: l) LM) as (sp & Nth); [discriminate|].
  cbn [p_loop] in EP. rewrite Nth in EP.
  destruct (without (s_phase K) sol sp) as [m1|?|] eqn:EW; try discriminate. cbn [bind] in EP.
  destruct (error_of (s_conds K) ref m1) as [e1|?|] eqn:EE; try discriminate. cbn [bind] in EP.
  rewrite (EX sp e1) in EP.
  - injection EP as <- <- <-. auto.
  - eapply nth_error_In; eauto.
  - exists m1. split; auto. now apply removals_one.
Qed.

Lemma zero_ref_error ref ts e : In (Fin 0) ref -> (forall x, In x ref -> exists q, x = Fin q) -> ~ In NaN ts ->
  calculate_error ref ts = Ok e -> e = Fin 100 \/ e = PInf.
Proof.
  intros Z F NN. unfold calculate_error.
  destruct (bcast ref ts) as [pairs|?|] eqn:B; try discriminate. simpl.
  assert ((forall o t, In (o, t) pairs -> In o ref /\ In t ts) /\ (pairs <> nil -> exists t, In (Fin 0, t) pairs)) as [P1 P2].
  { unfold bcast in B. destruct (Nat.eqb_spec (length ref) (length ts)) as [L|L].
    - injection B as <-. split.
      + intros o t H. split; [eapply in_combine_l; eauto|eapply in_combine_r; eauto].
      + intros _. clear - Z L. revert ts L. induction ref as [|a ref IH]; intros [|b ts] L; simpl in *; try discriminate; [contradiction|].
        destruct Z as [->|Z]; [eauto|]. destruct (IH Z ts) as (t & H); [lia|eauto].
    - assert ((exists x, ref = [x] /\ pairs = map (fun y => (x, y)) ts) \/ (exists y, ts = [y] /\ pairs = map (fun x => (x, y)) ref)) as [(x & -> & ->)|(y & -> & ->)].
      { destruct ref as [|a [|b ref]].
        - contradiction.
        - left. injection B as <-. eauto.
        - destruct ts as [|x [|y ts]]; try discriminate. right. injection B as <-. eauto. }
      + destruct Z as [->|[]]. split.
        * intros o t H. apply in_map_iff in H. destruct H as (y & E & H). injection E as <- <-. simpl; auto.
        * destruct ts as [|t ts]; [contradiction|]. intros _. exists t. simpl; auto.
      + split.
        * intros o t H. apply in_map_iff in H. destruct H as (x & E & H). injection E as <- <-. simpl; auto.
        * intros _. exists y. apply in_map_iff. eauto. }
  fold (map term pairs). change (map (fun ot => xdiv (xabs (xsub (fst ot) (snd ot))) (fst ot)) pairs) with (map term pairs).
  destruct (map term pairs) as [|a l] eqn:EM; [discriminate|].
  destruct (existsb (fun t => xeq t (Fin 0)) ts) eqn:EX; intros H; injection H as <-; auto. right.
  assert (forall o t, In (o, t) pairs -> term (o, t) <> NaN /\ (o = Fin 0 -> term (o, t) = PInf)) as TM.
  { intros o t H. destruct (P1 _ _ H) as [Ho Ht]. destruct (F _ Ho) as (p & ->).
    assert (t <> NaN) as Nt by (intros ->; auto).
    assert (forall q, t = Fin q -> ~ q == 0) as Nz.
    { intros q -> Q. assert (existsb (fun t => xeq t (Fin 0)) ts = true) by (apply existsb_zero; eauto). congruence. }
    assert (forall p0 q, p0 == 0 -> ~ (q == 0) -> Qlt_bool 0 (Qabs (p0 + - q)) = true) as QA.
    { intros p0 q Q0 Q. apply Qlt_bool_iff. destruct (Qlt_le_dec 0 (Qabs (p0 + - q))) as [A|A]; auto. exfalso. apply Q.
      revert A. apply Qabs_case; intros; lra. }
    unfold term. destruct t as [q| | |]; cbn [fst snd xsub xneg xadd xabs xdiv].
    - split.
      + destruct (Qeq_bool p 0) eqn:Q; [|discriminate]. apply Qeq_bool_iff in Q. unfold sgn_inf.
        rewrite QA; [discriminate|auto|eapply Nz; eauto].
      + intros X. injection X as ->. change (Qeq_bool 0 0) with true. cbv iota. unfold sgn_inf. rewrite QA; [reflexivity|lra|eapply Nz; eauto].
    - split; [destruct (Qlt_bool p 0); discriminate|]. intros X. injection X as ->. reflexivity.
    - split; [destruct (Qlt_bool p 0); discriminate|]. intros X. injection X as ->. reflexivity.
    - contradiction. }
  assert (~ In NaN (a :: l)) as Nn.
  { rewrite <- EM. intros H. apply in_map_iff in H. destruct H as ([o t] & E & H). apply TM in H. tauto. }
  assert (In PInf (a :: l)) as Ip.
  { rewrite <- EM. destruct P2 as (t & H); [intros ->; discriminate|]. apply in_map_iff. exists (Fin 0, t).
    split; auto. apply TM in H. tauto. }
  destruct (xmax_list_not_nan l a Nn) as [I M]. apply M in Ip.
  destruct (xmax_list a l) as [q| | |]; try discriminate. reflexivity.
Qed.

Lemma part_zero f ph cases out w n : cases <> nil -> w_fs w out = None -> length cases = n ->
  metrics_part f ph cases out (repeat (Fin 0) (length cases)) n true w = (Ok (repeat (Fin 0) n), w).
Proof.
  intros N E <-. unfold metrics_part. destruct cases as [|c cases]; [contradiction|].
  unfold mbind at 1. unfold is_file. rewrite E. cbn [andb]. unfold mbind, mret.
  rewrite repeat_length, Nat.eqb_refl. reflexivity.
Qed.

Lemma metrics_zero f ph cs w : c_psr cs = nil -> w_fs w output_ignition = None -> w_fs w output_flame = None ->
  sample_metrics f ph cs true w = (Ok (repeat (Fin 0) (length (c_ign cs) + length (c_flame cs))), w).
Proof.
  intros P I F. unfold sample_metrics, mbind.
  assert (forall cases out, w_fs w out = None -> metrics_part f ph cases out (repeat (Fin 0) (length cases)) (length cases) true w
    = (Ok (repeat (Fin 0) (length cases)), w)) as Z.
  { intros cases out E. destruct cases; [reflexivity|]. apply part_zero; auto. discriminate. }
  rewrite Z; auto. rewrite P. simpl metrics_part. cbv [mret]. rewrite Z; auto. simpl. now rewrite repeat_app.
Qed.

Lemma ref_zero K w ref : found K w ref ->
  (c_ign (s_conds K) <> nil /\ w_fs w output_ignition = None) \/ (c_flame (s_conds K) <> nil /\ w_fs w output_flame = None) ->
  In (Fin 0) ref.
Proof.
  unfold found, sample_metrics. intros R D. unfold mbind in R.
  assert (forall cases : list cond, cases <> nil -> In (Fin 0) (repeat (Fin 0) (length cases))) as IZ.
  { intros [|c cases] N; [contradiction|simpl; auto]. }
  destruct D as [(N & E)|(N & E)].
  - rewrite part_zero in R; auto.
    destruct (metrics_part (s_file K) (s_phase K) (c_psr (s_conds K)) output_psr [] _ true w) as [[p|?|] w1]; try discriminate.
    destruct (metrics_part (s_file K) (s_phase K) (c_flame (s_conds K)) output_flame _ _ true w1) as [[fl|?|] w2]; try discriminate.
    injection R as <- _. apply in_app_iff. left. auto.
  - destruct (metrics_part (s_file K) (s_phase K) (c_ign (s_conds K)) output_ignition _ _ true w) as [[p|?|] w1] eqn:E1; try discriminate.
    pose proof (part_same (s_file K) (s_phase K) (c_ign (s_conds K)) output_ignition
      (repeat (Fin 0) (length (c_ign (s_conds K)))) (length (c_ign (s_conds K))) true w) as W1. rewrite E1 in W1. simpl in W1. subst w1.
    destruct (metrics_part (s_file K) (s_phase K) (c_psr (s_conds K)) output_psr [] (3 * length (c_psr (s_conds K))) true w) as [[q|?|] w2] eqn:E2; try discriminate.
    pose proof (part_same (s_file K) (s_phase K) (c_psr (s_conds K)) output_psr [] (3 * length (c_psr (s_conds K))) true w) as W2.
    rewrite E2 in W2. simpl in W2. subst w2.
    rewrite part_zero in R; auto. injection R as <-. rewrite !in_app_iff. auto.
Qed.

Lemma run_zero_ref K w tmp tmp2 sol fuel r w' ref : sa_started K w tmp tmp2 sol -> exact_errors (s_conds K) -> found K w ref ->
  (c_ign (s_conds K) <> nil /\ w_fs w output_ignition = None) \/ (c_flame (s_conds K) <> nil /\ w_fs w output_flame = None) ->
  (forall x, In x ref -> exists q, x = Fin q) ->
  (forall m ts, metrics_of (s_conds K) m = Ok ts -> ~ In NaN ts) ->
  xgt (Fin 100) (s_limit K) = true ->
  run_sa fuel tmp tmp2 K w = (Ok r, w') -> r_model r = sol /\ r_error r = s_start K.
Proof.
  intros ST XE RF D F NN L E. eapply run_nothing; eauto.
  - apply start_candidates.
  - intros s e _ (m & R & EE). unfold error_of in EE. rewrite XE in EE. destruct (metrics_of (s_conds K) m) as [ts|?|] eqn:EM; try discriminate.
    simpl in EE. destruct (zero_ref_error ref ts e) as [->| ->]; auto.
    + eapply ref_zero; eauto.
    + eapply NN; eauto.
    + unfold xgt in *. destruct (s_limit K); simpl in *; auto.
Qed.
