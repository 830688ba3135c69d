(** Lemmas about [trim]. *)
From Coq Require Import String List Bool QArith Lia.
From Verif.Base Require Import Py.
From Verif.Model Require Import Mech.
From Verif.Spec Require Import TrimSpec.
From Verif.Proofs Require Import PyFacts.
Import ListNotations.
Local Open Scope string_scope.
Local Open Scope nat_scope.

Lemma filter_sublist {A} (f : A -> bool) l : sublist (filter f l) l.
Proof. induction l; simpl; [constructor|]. destruct (f a); now constructor. Qed.

Lemma sublist_in {A} (l l' : list A) x : sublist l' l -> In x l' -> In x l.
Proof. induction 1; simpl; intuition. Qed.

Lemma sublist_refl {A} (l : list A) : sublist l l.
Proof. induction l; now constructor. Qed.

Lemma sublist_map {A B} (f : A -> B) l' l : sublist l' l -> sublist (map f l') (map f l).
Proof. induction 1; simpl; now constructor. Qed.

Lemma sublist_nodup {A} (l' l : list A) : sublist l' l -> NoDup l -> NoDup l'.
Proof.
  induction 1; intros N; auto.
  - inversion N; auto.
  - inversion N; subst. constructor; auto. intros K. eapply sublist_in in K; eauto.
Qed.

Lemma filter_filter {A} (f g : A -> bool) l :
  filter f (filter g l) = filter (fun x => andb (f x) (g x)) l.
Proof.
  induction l; simpl; auto. destruct (g a); simpl.
  - rewrite andb_true_r. destruct (f a); simpl; congruence.
  - rewrite andb_false_r. auto.
Qed.

Lemma trim_mech_ok sol excl f ph m' :
  trim_mech sol excl f ph = Ok m' ->
  m_species m' = trim_species sol excl /\
  m_reactions m' = trim_reactions excl (map sp_name (trim_species sol excl)) (m_reactions sol) /\
  m_transport m' = m_transport sol /\ m_TP m' = m_TP sol /\ m_species m' <> nil.
Proof.
  unfold trim_mech. destruct (trim_species sol excl) eqn:E; [discriminate|].
  intros H. inversion H; subst; simpl. repeat split; auto. discriminate.
Qed.

Lemma trim_species_in sol excl sp :
  In sp (trim_species sol excl) <-> In sp (m_species sol) /\ ~ In (sp_name sp) excl.
Proof.
  unfold trim_species. rewrite filter_In, negb_true_iff, str_in_false. tauto.
Qed.

Lemma trim_names_in sol excl s :
  In s (map sp_name (trim_species sol excl)) <-> In s (species_names sol) /\ ~ In s excl.
Proof.
  unfold species_names. rewrite !in_map_iff. split.
  - intros [sp [E H]]. apply trim_species_in in H. subst. split; [eexists; split; eauto|]; tauto.
  - intros [[sp [E H]] N]. exists sp. split; auto. apply trim_species_in. subst; auto.
Qed.

Lemma trim_species_spec sol excl f ph m' :
  trim_mech sol excl f ph = Ok m' ->
  sublist (m_species m') (m_species sol) /\
  (forall sp, In sp (m_species m') <-> In sp (m_species sol) /\ ~ In (sp_name sp) excl).
Proof.
  intros H. apply trim_mech_ok in H. destruct H as [H _]. rewrite H. split.
  - apply filter_sublist.
  - apply trim_species_in.
Qed.

Lemma trim_raises_iff sol excl f ph :
  (forall m', trim_mech sol excl f ph <> Ok m') <->
  (forall sp, In sp (m_species sol) -> In (sp_name sp) excl).
Proof.
  unfold trim_mech. destruct (trim_species sol excl) as [|a l] eqn:E.
  - split; [|intros; discriminate]. intros _ sp Hsp.
    destruct (in_dec string_dec (sp_name sp) excl); auto.
    assert (In sp (trim_species sol excl)) as Hin by (apply trim_species_in; auto).
    rewrite E in Hin. destruct Hin.
  - split; intros H.
    + exfalso. eapply H. reflexivity.
    + intros m' _. assert (In a (trim_species sol excl)) as Hin by (rewrite E; simpl; auto).
      apply trim_species_in in Hin. destruct Hin. eauto.
Qed.

Lemma trim_raises_valueerror sol excl f ph :
  (exists m', trim_mech sol excl f ph = Ok m') \/ trim_mech sol excl f ph = Raise ValueError.
Proof.
  unfold trim_mech. destruct (trim_species sol excl); eauto.
Qed.

Lemma explicit_removed_iff excl r :
  explicit_removed excl r = true <-> exists s, explicit_collider s r /\ In s excl.
Proof.
  unfold explicit_removed, explicit_collider. destruct (rx_third r) as [tb|].
  - destruct (Qeq_bool (tb_default tb) 0) eqn:E; simpl.
    + apply Qeq_bool_iff in E. destruct (tb_effs tb) as [|[k v] [|? ?]] eqn:F.
      * split; [discriminate|]. intros (s & (tb' & v & H1 & H2 & H3) & _).
        inversion H1; subst; congruence.
      * rewrite str_in_iff. split.
        -- intros H. exists k. split; auto. exists tb, v. auto.
        -- intros (s & (tb' & v' & H1 & H2 & H3) & H). inversion H1; subst.
           rewrite F in H3. inversion H3; subst; auto.
      * split; [discriminate|]. intros (s & (tb' & v' & H1 & H2 & H3) & _).
        inversion H1; subst; congruence.
    + split; [discriminate|]. intros (s & (tb' & v & H1 & H2 & H3) & _).
      inversion H1; subst. apply Qeq_bool_iff in H2. congruence.
  - split; [discriminate|]. intros (s & (tb' & v & H1 & _) & _). discriminate.
Qed.

Lemma dkeys_in (s : string) (d : dict Q) : In s (dkeys d) <-> exists v, In (s, v) d.
Proof.
  unfold dkeys. rewrite in_map_iff. split.
  - intros [[k v] [E H]]. simpl in E; subst; eauto.
  - intros [v H]. exists (s, v); auto.
Qed.

Lemma all_kept_iff names r :
  all_kept names r = true <-> forall s, participates s r -> In s names.
Proof.
  unfold all_kept, participates. rewrite forallb_forall. split.
  - intros H s Hs. apply str_in_iff. apply H. rewrite in_app_iff, !dkeys_in. tauto.
  - intros H s Hs. apply str_in_iff. apply H. rewrite in_app_iff, !dkeys_in in Hs. tauto.
Qed.

Lemma survives_dec excl r names allnames :
  (forall s, In s names <-> In s allnames /\ ~ In s excl) ->
  (forall s, participates s r -> In s allnames) ->
  (explicit_removed excl r = false /\ all_kept names r = true) <-> survives excl r.
Proof.
  intros Hn Hp. unfold survives. split.
  - intros [H1 H2]. rewrite all_kept_iff in H2. split.
    + intros s Hs. apply H2 in Hs. apply Hn in Hs. tauto.
    + intros s Hs Hin. assert (explicit_removed excl r = true); [|congruence].
      apply explicit_removed_iff. eauto.
  - intros [H1 H2]. split.
    + destruct (explicit_removed excl r) eqn:E; auto.
      apply explicit_removed_iff in E. destruct E as (s & A & B). exfalso. eapply H2; eauto.
    + apply all_kept_iff. intros s Hs. apply Hn. auto.
Qed.

Lemma restrict_third_restricted excl r names allnames :
  (forall s, In s names <-> In s allnames /\ ~ In s excl) ->
  (forall s, collider s r -> In s allnames) ->
  restricted excl r (restrict_third names r).
Proof.
  intros Hn Hc. unfold restricted, restrict_third. destruct (rx_third r) as [tb|] eqn:E; simpl.
  - repeat split; auto.
    + apply filter_sublist.
    + apply filter_In in H. tauto.
    + apply filter_In in H. destruct H as [_ H]. apply str_in_iff in H. simpl in H.
      apply Hn in H. tauto.
    + intros [H1 H2]. apply filter_In. split; auto. apply str_in_iff. simpl.
      apply Hn. split; auto. apply Hc. exists tb. eauto.
  - rewrite E. repeat split; auto.
Qed.

Lemma trim_reactions_spec excl names allnames rs :
  (forall s, In s names <-> In s allnames /\ ~ In s excl) ->
  (forall r, In r rs -> (forall s, participates s r -> In s allnames) /\
                        (forall s, collider s r -> In s allnames)) ->
  reactions_trimmed excl rs (trim_reactions excl names rs).
Proof.
  intros Hn. induction rs as [|r t IH]; simpl; intros Hw; [constructor|].
  assert (reactions_trimmed excl t (trim_reactions excl names t)) as IH'.
  { apply IH. intros; apply Hw; auto. }
  destruct (Hw r (or_introl eq_refl)) as [Hp Hc].
  pose proof (survives_dec excl r names allnames Hn Hp) as S.
  destruct (explicit_removed excl r).
  - apply rt_drop; auto. rewrite <- S. intros [? ?]; discriminate.
  - destruct (all_kept names r).
    + apply rt_keep; auto; [apply S; auto|]. eapply restrict_third_restricted; eauto.
    + apply rt_drop; auto. rewrite <- S. intros [? ?]; discriminate.
Qed.

Lemma trim_reactions_ok sol excl f ph m' :
  wf_mech sol -> trim_mech sol excl f ph = Ok m' ->
  reactions_trimmed excl (m_reactions sol) (m_reactions m').
Proof.
  intros [_ W] H. apply trim_mech_ok in H. destruct H as (_ & H & _). rewrite H.
  eapply trim_reactions_spec; [|exact W]. apply trim_names_in.
Qed.

Lemma reactions_trimmed_in excl l l' r' :
  reactions_trimmed excl l l' -> In r' l' ->
  exists r, In r l /\ survives excl r /\ restricted excl r r'.
Proof.
  induction 1; simpl; intros Hin; try tauto.
  - destruct (IHreactions_trimmed Hin) as (r0 & A & B). eauto.
  - destruct Hin as [E|Hin].
    + subst. eauto.
    + destruct (IHreactions_trimmed Hin) as (r0 & A & B). eauto.
Qed.

Lemma reactions_trimmed_in2 excl l l' r :
  reactions_trimmed excl l l' -> In r l -> survives excl r ->
  exists r', In r' l' /\ restricted excl r r'.
Proof.
  induction 1 as [|q l l2 Q1 Q2 IH|q q2 l l2 Q1 Q3 Q2 IH]; simpl; intros Hin S; try tauto.
  - destruct Hin as [E|Hin]; [subst; tauto|auto].
  - destruct Hin as [E|Hin].
    + subst. eauto.
    + destruct (IH Hin S) as (r9 & A & B). eauto.
Qed.

Lemma restricted_participates excl r r' s :
  restricted excl r r' -> participates s r' <-> participates s r.
Proof.
  unfold restricted, participates. intros (A & B & _). rewrite A, B. tauto.
Qed.

Lemma restricted_collider excl r r' s :
  restricted excl r r' -> collider s r' <-> collider s r /\ ~ In s excl.
Proof.
  unfold restricted, collider. intros (_ & _ & _ & H).
  destruct (rx_third r) as [tb|], (rx_third r') as [tb'|]; try tauto.
  - destruct H as (_ & _ & H). split.
    + intros (t & v & E & I). inversion E; subst. apply H in I. destruct I. split; eauto.
    + intros ((t & v & E & I) & N). inversion E; subst. exists tb', v. split; auto.
      apply H; auto.
  - split; [intros (t & v & E & I); discriminate|].
    intros ((t & v & E & I) & _). discriminate.
Qed.

Lemma trim_no_dangling sol excl f ph m' :
  wf_mech sol -> trim_mech sol excl f ph = Ok m' -> wf_mech m'.
Proof.
  intros W H. pose proof (trim_reactions_ok _ _ _ _ _ W H) as T.
  destruct W as [ND W].
  pose proof (trim_mech_ok _ _ _ _ _ H) as (E & _).
  assert (forall s, In s (species_names m') <-> In s (species_names sol) /\ ~ In s excl) as Hn.
  { intros s. unfold species_names at 1. rewrite E. apply trim_names_in. }
  split.
  - unfold species_names. rewrite E. eapply sublist_nodup; [|exact ND].
    apply sublist_map. apply filter_sublist.
  - intros r' Hr'. destruct (reactions_trimmed_in _ _ _ _ T Hr') as (r & A & S & R).
    destruct (W r A) as [Wp Wc]. split; intros s Hs.
    + apply (restricted_participates _ _ _ s R) in Hs. apply Hn. split; auto.
      destruct S as [S _]. auto.
    + apply (restricted_collider _ _ _ s R) in Hs. apply Hn. destruct Hs. split; auto.
Qed.

(** Duplicate pairs. *)
Lemma trim_pairs sol excl f ph m' r1 r2 :
  wf_mech sol -> trim_mech sol excl f ph = Ok m' ->
  In r1 (m_reactions sol) -> In r2 (m_reactions sol) ->
  NoDup (map rx_info (m_reactions sol)) ->
  same_participants r1 r2 ->
  (exists r1', In r1' (m_reactions m') /\ rx_info r1' = rx_info r1) <->
  (exists r2', In r2' (m_reactions m') /\ rx_info r2' = rx_info r2).
Proof.
  intros W H I1 I2 ND [SP SC].
  pose proof (trim_reactions_ok _ _ _ _ _ W H) as T.
  assert (forall r, In r (m_reactions sol) ->
     (exists r', In r' (m_reactions m') /\ rx_info r' = rx_info r) <-> survives excl r) as K.
  { intros r Hr. split.
    - intros (r' & A & B). destruct (reactions_trimmed_in _ _ _ _ T A) as (r0 & C & D & E).
      destruct E as (_ & _ & E & _). rewrite B in E.
      assert (r = r0); [|subst; auto].
      clear - ND Hr C E. induction (m_reactions sol) as [|a l IH]; simpl in *; [tauto|].
      inversion ND; subst. destruct Hr as [Hr|Hr], C as [C|C]; subst; auto.
      + exfalso. apply H1. rewrite E. now apply in_map.
      + exfalso. apply H1. rewrite <- E. now apply in_map.
    - intros S. destruct (reactions_trimmed_in2 _ _ _ _ T Hr S) as (r' & A & B).
      exists r'. split; auto. apply B. }
  rewrite (K r1 I1), (K r2 I2). unfold survives. split; intros [A B]; split; intros s Hs.
  - apply A. now apply SP.
  - apply B. now apply SC.
  - apply A. now apply SP.
  - apply B. now apply SC.
Qed.

(** Composition. *)
Lemma trim_species_app sol m1 A B :
  m_species m1 = trim_species sol A -> trim_species m1 B = trim_species sol (A ++ B).
Proof.
  intros E. unfold trim_species at 1. rewrite E. unfold trim_species.
  rewrite filter_filter. apply filter_ext. intros sp.
  unfold str_in. rewrite existsb_app, negb_orb, andb_comm. reflexivity.
Qed.

Lemma trim_reactions_compose names0 A B n1 n2 rs :
  (forall s, In s n1 <-> In s names0 /\ ~ In s A) ->
  (forall s, In s n2 <-> In s names0 /\ ~ In s (A ++ B)) ->
  (forall r, In r rs -> forall s, collider s r -> In s names0) ->
  (forall r tb, In r rs -> rx_third r = Some tb -> (tb_default tb == 0)%Q ->
                length (tb_effs tb) <= 1) ->
  trim_reactions B n2 (trim_reactions A n1 rs) = trim_reactions (A ++ B) n2 rs.
Proof.
  intros H1 H2. induction rs as [|r t IH]; simpl; auto. intros Hc Hm.
  assert (trim_reactions B n2 (trim_reactions A n1 t) = trim_reactions (A ++ B) n2 t) as IH'.
  { apply IH; eauto. }
  assert (N : forall s, In s n2 -> In s n1).
  { intros s Hs. apply H2 in Hs. apply H1. rewrite in_app_iff in Hs. tauto. }
  destruct (explicit_removed A r) eqn:EA.
  - assert (explicit_removed (A ++ B) r = true) as ->; auto.
    apply explicit_removed_iff in EA. apply explicit_removed_iff.
    destruct EA as (s & X & Y). exists s. rewrite in_app_iff. auto.
  - destruct (all_kept n1 r) eqn:KA.
    + simpl. assert (explicit_removed B (restrict_third n1 r) = explicit_removed (A ++ B) r) as ->.
      { apply eq_true_iff_eq. rewrite !explicit_removed_iff. split.
        - intros (s & (tb & v & X & Y & Z) & W). exists s. split; [|apply in_app_iff; auto].
          unfold restrict_third in X. destruct (rx_third r) as [tb0|] eqn:E; simpl in X; [|congruence].
          inversion X; subst tb; simpl in *. exists tb0.
          assert (length (tb_effs tb0) <= 1) as L by (eapply Hm; eauto; simpl; auto).
          destruct (tb_effs tb0) as [|[k w] [|? ?]]; simpl in *; try lia; try congruence.
          destruct (str_in k n1); simpl in Z; try discriminate. inversion Z; subst. eauto.
        - intros (s & (tb & v & X & Y & Z) & W). exists s. split.
          + unfold restrict_third. rewrite X. exists (mkTB (tb_default tb) [(s, v)]), v.
            simpl. rewrite Z. simpl.
            assert (In s n1) as Hin.
            { apply H1. split.
              - apply (Hc r); auto. exists tb, v. rewrite Z. simpl; auto.
              - intros Hs. assert (explicit_removed A r = true); [|congruence].
                apply explicit_removed_iff. exists s. split; auto. exists tb, v. auto. }
            apply str_in_iff in Hin. rewrite Hin. auto.
          + apply in_app_iff in W. destruct W as [W|W]; auto. exfalso.
            assert (explicit_removed A r = true); [|congruence].
            apply explicit_removed_iff. exists s. split; auto. exists tb, v. auto. }
      assert (all_kept n2 (restrict_third n1 r) = all_kept n2 r) as ->.
      { unfold restrict_third, all_kept. destruct (rx_third r); auto. }
      destruct (explicit_removed (A ++ B) r); auto.
      destruct (all_kept n2 r); auto. rewrite IH'. f_equal.
      unfold restrict_third. destruct (rx_third r) eqn:E; simpl; [|rewrite E; auto].
      do 3 f_equal. rewrite filter_filter. apply filter_ext_in. intros [k v] _. simpl.
      destruct (str_in k n2) eqn:F; simpl; auto.
      apply str_in_iff in F. apply str_in_iff. auto.
    + assert (all_kept n2 r = false) as ->.
      { destruct (all_kept n2 r) eqn:F; auto. rewrite all_kept_iff in F.
        assert (all_kept n1 r = true); [|congruence]. apply all_kept_iff. auto. }
      destruct (explicit_removed (A ++ B) r); auto.
Qed.

Lemma trim_compose sol A B f1 f2 ph m1 :
  wf_mech sol -> no_multi_explicit sol ->
  trim_mech sol A f1 ph = Ok m1 ->
  trim_mech m1 B f2 ph = trim_mech sol (A ++ B) f2 ph.
Proof.
  intros [_ W] NM H. apply trim_mech_ok in H. destruct H as (E & F & G & I & _).
  unfold trim_mech. rewrite (trim_species_app sol m1 A B E), F, G, I.
  rewrite (trim_reactions_compose (species_names sol) A B).
  - reflexivity.
  - apply trim_names_in.
  - apply trim_names_in.
  - intros r Hr. apply W; auto.
  - exact NM.
Qed.

(** Only the set of excluded names matters, and names unknown to the model are ignored. *)
Lemma trim_set_only sol A B f ph :
  wf_mech sol ->
  (forall s, In s (species_names sol) -> (In s A <-> In s B)) ->
  trim_mech sol A f ph = trim_mech sol B f ph.
Proof.
  intros [_ W] H.
  assert (S : trim_species sol A = trim_species sol B).
  { unfold trim_species. apply filter_ext_in. intros sp Hsp. f_equal.
    apply eq_true_iff_eq. rewrite !str_in_iff. apply H. now apply in_map. }
  assert (R : trim_reactions A (map sp_name (trim_species sol B)) (m_reactions sol)
            = trim_reactions B (map sp_name (trim_species sol B)) (m_reactions sol)).
  { clear S. generalize (map sp_name (trim_species sol B)) as names. intros names.
    induction (m_reactions sol) as [|r t IH]; simpl; auto.
    rewrite IH by (intros; apply W; simpl; auto).
    assert (explicit_removed A r = explicit_removed B r) as ->; auto.
    apply eq_true_iff_eq. rewrite !explicit_removed_iff.
    destruct (W r (or_introl eq_refl)) as [_ Wc].
    split; intros (s & X & Y); exists s; split; auto; apply H; auto;
      destruct X as (tb & v & X1 & _ & X2); apply Wc; exists tb, v; rewrite X2; simpl; auto. }
  unfold trim_mech. rewrite S, R. reflexivity.
Qed.
