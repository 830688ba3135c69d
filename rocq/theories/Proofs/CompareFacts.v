(** What [compare_models] decides. *)
From Coq Require Import String List Bool Arith QArith Qabs Lia Sorting.Permutation Sorting.Sorted.
From Verif.Base Require Import Py Num XNum.
From Verif.Model Require Import Chem Metrics Compare.
From Verif.Spec Require Import CompareSpec.
From Verif.Proofs Require Import SortFacts.
Import ListNotations.
Local Open Scope string_scope.

Lemma Ok_inj {A} (a b : A) : Ok a = Ok b -> a = b.
Proof. congruence. Qed.
Lemma xeq_iff x y : xeq x y = true <-> same_number x y.
Proof.
  destruct x as [a| | |], y as [b| | |]; cbn; try (intuition discriminate).
  unfold xeq. cbn. rewrite andb_true_iff, !Qle_bool_iff. split; [intros [H H']; apply Qle_antisym; auto|].
  intros E. rewrite E. split; apply Qle_refl.
Qed.
Lemma tval_eq_iff v w : tval_eq v w = true <-> same_attribute v w.
Proof. destruct v, w; cbn; try (intuition discriminate); try apply xeq_iff; apply String.eqb_eq. Qed.

Lemma Forall2_combine {A B} (P : A -> B -> Prop) l l' :
  Forall2 P l l' <-> length l = length l' /\ forall p, In p (combine l l') -> P (fst p) (snd p).
Proof.
  split.
  - induction 1; cbn; [split; [auto|intros p []]|]. destruct IHForall2. split; [congruence|].
    intros p [<-|I]; auto.
  - revert l'. induction l as [|x t IH]; intros [|y u]; cbn; intros [E H]; try discriminate; constructor.
    + apply (H (x, y)). auto.
    + apply IH. split; [congruence|]. intros p I. apply H. auto.
Qed.

(** Closeness decided by [close] up to the factor [fac]. *)
Section Closeness.
Variable close : xnum -> xnum -> bool.
Variable fac : Q.
Hypothesis close_iff : forall x y, close x y = true <-> near_by fac x y.
Local Notation near := (near_by fac).
Local Notation allclose2 := (Compare.allclose2 close).
Local Notation allclose := (Compare.allclose close).
Local Notation species_match := (Compare.species_match close).
Local Notation arr_match := (Compare.arr_match close).
Local Notation rate_match := (Compare.rate_match close).
Local Notation reaction_match := (Compare.reaction_match close).
Local Notation reactions_match := (Compare.reactions_match close).
Local Notation arr_agree := (CompareSpec.arr_agree fac).
Local Notation species_agree := (CompareSpec.species_agree fac).
Local Notation rate_agree := (CompareSpec.rate_agree fac).
Local Notation reaction_agree := (CompareSpec.reaction_agree fac).

(** [np.allclose] *)
Lemma allclose_iff a b : allclose a b = Ok true <-> arrays_agree near a b.
Proof.
  unfold Compare.allclose, bcast, arrays_agree.
  destruct (Nat.eqb_spec (length a) (length b)) as [E|N]; cbn.
  - split.
    + intros H. injection H as H. left. apply Forall2_combine. split; [exact E|].
      rewrite forallb_forall in H. intros p I. apply close_iff. apply H. exact I.
    + intros H. f_equal. apply forallb_forall.
      destruct H as [H|[[x [-> H]]|[y [-> H]]]].
      * apply Forall2_combine in H. destruct H as [_ H]. intros p I. apply close_iff. auto.
      * destruct b as [|y [|? ?]]; try discriminate. cbn. intros p [<-|[]]. inversion H; subst. apply close_iff. auto.
      * destruct a as [|x [|? ?]]; try discriminate. cbn. intros p [<-|[]]. inversion H; subst. apply close_iff. auto.
  - assert (NF : ~ Forall2 near a b) by (intros H; apply Forall2_combine in H; apply N; tauto).
    destruct a as [|x [|x' a']].
    + destruct b as [|y [|y' b']]; cbn in *; try lia; split; try discriminate; auto.
      * intros _. right. right. exists y. auto.
      * intros [H|[[x [H _]]|[w [H _]]]]; try discriminate. contradiction.
    + cbn. split.
      * intros H. injection H as H. right. left. exists x. split; [reflexivity|].
        rewrite forallb_forall in H. apply Forall_forall. intros y I. apply close_iff.
        apply (H (x, y)). apply in_map_iff. eauto.
      * intros H. f_equal. apply forallb_forall. intros p I. apply in_map_iff in I. destruct I as [y [<- I]]. cbn.
        apply close_iff. destruct H as [H|[[z [E H]]|[z [E H]]]]; [contradiction| |].
        -- injection E as ->. rewrite Forall_forall in H. auto.
        -- subst b. cbn in N. lia.
    + destruct b as [|y [|y' b']].
      * split; [discriminate|]. intros [H|[[z [E H]]|[z [E H]]]]; try discriminate. contradiction.
      * cbn. split.
        -- intros H. injection H as H. right. right. exists y. split; [reflexivity|].
           apply Forall_forall. intros z I. apply close_iff.
           change ((close x y && (close x' y && forallb (fun p => close (fst p) (snd p)) (map (fun x0 => (x0, y)) a')))%bool)
             with (forallb (fun p => close (fst p) (snd p)) (map (fun x0 => (x0, y)) (x :: x' :: a'))) in H.
           rewrite forallb_forall in H.
           apply (H (z, y)). apply in_map_iff. eauto.
        -- intros H. f_equal.
           change (forallb (fun p => close (fst p) (snd p)) (map (fun x0 => (x0, y)) (x :: x' :: a')) = true).
           apply forallb_forall. intros p I. apply in_map_iff in I. destruct I as [z [<- I]]. cbn.
           apply close_iff. destruct H as [H|[[w [E H]]|[w [E H]]]]; [contradiction|discriminate|].
           injection E as ->. rewrite Forall_forall in H. auto.
      * split; [discriminate|]. intros [H|[[z [E H]]|[z [E H]]]]; try discriminate. contradiction.
Qed.

Lemma mapM_all {A} (f : A -> res bool) l :
  bind (mapM f l) (fun bs => Ok (forallb id bs)) = Ok true <-> (forall x, In x l -> f x = Ok true).
Proof.
  induction l as [|x t IH]; cbn; [split; [intros _ y []|auto]|].
  destruct (f x) as [b| |] eqn:E; cbn.
  - destruct (mapM f t) as [bs| |] eqn:Et; cbn in *.
    + split.
      * intros H. injection H as H. apply andb_true_iff in H. destruct H as [Hb H]. unfold id in Hb.
        subst b. intros y [<-|I]; [exact E|]. apply IH; [rewrite H; reflexivity|exact I].
      * intros H. assert (Hb := H x (or_introl eq_refl)). rewrite E in Hb. injection Hb as ->. cbn.
        apply IH. auto.
    + split; [discriminate|]. intros H. destruct IH as [_ IH]. discriminate (IH (fun y I => H y (or_intror I))).
    + split; [discriminate|]. intros H. destruct IH as [_ IH]. discriminate (IH (fun y I => H y (or_intror I))).
  - split; [discriminate|]. intros H. rewrite (H x (or_introl eq_refl)) in E. discriminate.
  - split; [discriminate|]. intros H. rewrite (H x (or_introl eq_refl)) in E. discriminate.
Qed.

Lemma allclose2_iff a b : allclose2 a b = Ok true <-> arrays_agree (arrays_agree near) a b.
Proof.
  unfold Compare.allclose2, rows_of_both, arrays_agree at 1.
  destruct (Nat.eqb_spec (length a) (length b)) as [E|N]; cbn [bind].
  - rewrite mapM_all. split.
    + intros H. left. apply Forall2_combine. split; [exact E|]. intros p I. apply allclose_iff. auto.
    + intros H p I. apply allclose_iff.
      destruct H as [H|[[x [-> H]]|[y [-> H]]]].
      * apply Forall2_combine in H. apply H. exact I.
      * destruct b as [|y [|? ?]]; try discriminate. destruct I as [<-|[]]. inversion H; subst. auto.
      * destruct a as [|x [|? ?]]; try discriminate. destruct I as [<-|[]]. inversion H; subst. auto.
  - assert (NF : ~ Forall2 (arrays_agree near) a b) by (intros H; apply Forall2_combine in H; apply N; tauto).
    destruct a as [|x [|x' a']].
    + destruct b as [|y [|y' b']]; cbn in *; try lia; split; try discriminate; auto.
      * intros _. right. right. exists y. auto.
      * intros [H|[[x [H _]]|[w [H _]]]]; try discriminate. contradiction.
    + cbn [bind]. rewrite mapM_all. split.
      * intros H. right. left. exists x. split; [reflexivity|].
        apply Forall_forall. intros y I. apply allclose_iff. apply (H (x, y)). apply in_map_iff. eauto.
      * intros H p I. apply in_map_iff in I. destruct I as [y [<- I]]. cbn [fst snd].
        apply allclose_iff. destruct H as [H|[[z [E H]]|[z [E H]]]]; [contradiction| |].
        -- injection E as ->. rewrite Forall_forall in H. auto.
        -- subst b. cbn in N. lia.
    + destruct b as [|y [|y' b']].
      * split; [discriminate|]. intros [H|[[z [E H]]|[z [E H]]]]; try discriminate. contradiction.
      * cbn [bind]. rewrite mapM_all. split.
        -- intros H. right. right. exists y. split; [reflexivity|].
           apply Forall_forall. intros z I. apply allclose_iff. apply (H (z, y)). apply in_map_iff. eauto.
        -- intros H p I. apply in_map_iff in I. destruct I as [z [<- I]]. cbn [fst snd].
           apply allclose_iff. destruct H as [H|[[w [E H]]|[w [E H]]]]; [contradiction|discriminate|].
           injection E as ->. rewrite Forall_forall in H. auto.
      * split; [discriminate|]. intros [H|[[z [E H]]|[z [E H]]]]; try discriminate. contradiction.
Qed.

(** dicts *)
Lemma dget_In {V} k v (d : dict V) : dget k d = Some v -> In (k, v) d.
Proof.
  induction d as [|[k' v'] t IH]; cbn; [discriminate|]. destruct (String.eqb_spec k k').
  - intros H. injection H as ->. subst. auto.
  - auto.
Qed.
Lemma In_dget {V} k v (d : dict V) : keys_distinct d -> In (k, v) d -> dget k d = Some v.
Proof.
  unfold keys_distinct. induction d as [|[k' v'] t IH]; cbn; [intros _ []|]. intros N [E|I].
  - injection E as -> ->. rewrite String.eqb_refl. reflexivity.
  - inversion N; subst. destruct (String.eqb_spec k k').
    + subst. exfalso. apply H1. apply (in_map fst) in I. exact I.
    + auto.
Qed.
Lemma dget_key {V} k (d : dict V) : (exists v, dget k d = Some v) <-> In k (map fst d).
Proof.
  split.
  - intros [v H]. apply dget_In in H. apply (in_map fst) in H. exact H.
  - induction d as [|[k' v'] t IH]; cbn; [intros []|]. intros [->|I].
    + rewrite String.eqb_refl. eauto.
    + destruct (String.eqb k k'); eauto.
Qed.
Lemma dict_eq_iff {V} (eqv : V -> V -> bool) (P : V -> V -> Prop) d1 d2 :
  (forall v w, eqv v w = true <-> P v w) -> keys_distinct d1 -> keys_distinct d2 ->
  dict_eq eqv d1 d2 = true <-> same_map P d1 d2.
Proof.
  intros EQ N1 N2. unfold dict_eq. rewrite andb_true_iff, Nat.eqb_eq, forallb_forall. split.
  - intros [L H] k. destruct (dget k d1) as [v|] eqn:E1.
    + apply dget_In in E1. specialize (H _ E1). cbn in H. destruct (dget k d2); [apply EQ; exact H|discriminate].
    + destruct (dget k d2) as [w|] eqn:E2; [|exact I].
      assert (incl (map fst d2) (map fst d1)).
      { apply NoDup_length_incl; [exact N1|rewrite !map_length; lia|].
        intros x Hx. apply in_map_iff in Hx. destruct Hx as [[k' v'] [<- J]]. specialize (H _ J). cbn in H.
        apply dget_key. cbn. destruct (dget k' d2); [eauto|discriminate]. }
      assert (I2 : In k (map fst d1)) by (apply H0, dget_key; eauto).
      apply dget_key in I2. destruct I2 as [v Hv]. congruence.
  - intros H. split.
    + apply Nat.le_antisymm; rewrite <- (map_length fst d1), <- (map_length fst d2);
        apply NoDup_incl_length; auto; intros k I; apply dget_key in I; destruct I as [v Hv];
        specialize (H k); rewrite Hv in H; apply dget_key.
      * destruct (dget k d2); [eauto|contradiction].
      * destruct (dget k d1); [eauto|contradiction].
    + intros [k v] I. cbn. specialize (H k). rewrite (In_dget k v d1 N1 I) in H.
      destruct (dget k d2); [apply EQ; exact H|contradiction].
Qed.

(** species *)
Lemma Qeq_bool_spec a b : Qeq_bool a b = true <-> (a == b)%Q.
Proof. apply Qeq_bool_iff. Qed.

Lemma transport_match_iff s t :
  (forall d, cs_transport s = Some d -> keys_distinct d) ->
  transport_match (cs_transport s) (cs_transport t) = true <->
  (forall d a v, cs_transport s = Some d -> dget a d = Some v ->
    exists w, same_attribute v w /\
      (match cs_transport t with Some d' => dget a d' | None => None end = Some w \/
       match cs_transport t with Some d' => dget a d' | None => None end = None /\ w = TNum (Fin 0))).
Proof.
  intros N. unfold transport_match. destruct (cs_transport s) as [d|]; [|split; [discriminate|auto]].
  assert (X : forall a, dget a (match cs_transport t with Some d0 => d0 | None => nil end) =
                        match cs_transport t with Some d' => dget a d' | None => None end)
    by (intros a; destruct (cs_transport t); reflexivity).
  rewrite forallb_forall. split.
  - intros H d' a v E G. injection E as <-. apply dget_In in G. specialize (H _ G). cbn in H. rewrite X in H.
    destruct (match cs_transport t with Some d' => dget a d' | None => None end) as [w|] eqn:E.
    + exists w. split; [apply tval_eq_iff; exact H|auto].
    + exists (TNum (Fin 0)). split; [apply tval_eq_iff; exact H|auto].
  - intros H [a v] I. cbn. rewrite X. destruct (H d a v eq_refl) as [w [S [E|[E ->]]]].
    + apply In_dget; auto.
    + rewrite E. apply tval_eq_iff. exact S.
    + rewrite E. apply tval_eq_iff. exact S.
Qed.

Lemma species_match_iff s t :
  keys_distinct (cs_comp s) -> keys_distinct (cs_comp t) ->
  (forall d, cs_transport s = Some d -> keys_distinct d) ->
  species_match s t = true <-> species_agree s t.
Proof.
  intros N1 N2 N3. unfold Compare.species_match. rewrite !andb_true_iff, String.eqb_eq.
  rewrite (dict_eq_iff Qeq_bool Qeq _ _ Qeq_bool_spec N1 N2), (transport_match_iff s t N3), forallb_forall.
  split.
  - intros [[[A B] C] D]. constructor; auto. intros T I. specialize (C T I).
    rewrite !andb_true_iff, !close_iff in C. tauto.
  - intros [A B C D]. split; [split; [split|]|]; auto. intros T I. specialize (C T I).
    rewrite !andb_true_iff, !close_iff. tauto.
Qed.

(** rates and reactions *)
Lemma arr_match_iff a b : arr_match a b = true <-> arr_agree a b.
Proof. unfold Compare.arr_match, CompareSpec.arr_agree. rewrite !andb_true_iff, !close_iff. tauto. Qed.

Lemma unless_false_iff r k : unless_false r k = Ok true <-> r = Ok true /\ k = Ok true.
Proof.
  unfold unless_false. destruct r as [[|]| |]; cbn; split; intros H;
    try discriminate; try (destruct H; discriminate); try tauto.
Qed.

Definition ascending (t : list (Q * arr)) : Prop := StronglySorted (fun x y => (fst x <= fst y)%Q) t.

Lemma plog_same t : ascending t -> sorted (fun x y : Q * arr => Qlt_bool (fst x) (fst y)) t = t.
Proof.
  intros S. apply sorted_same. induction S as [|x u S IH F]; constructor; [exact IH|].
  rewrite Forall_forall in *. intros y I. specialize (F y I).
  unfold Qlt_bool. apply negb_false_iff. apply Qle_bool_iff. exact F.
Qed.

Lemma rate_match_iff r s :
  (forall t, rt_plog r = Some t -> ascending t) -> (forall t, rt_plog s = Some t -> ascending t) ->
  (rt_low r <> None -> rt_high r <> None) -> (rt_low s <> None -> rt_high s <> None) ->
  rate_match r s = Ok true <-> rt_class r = rt_class s /\ rate_agree r s.
Proof.
  intros P1 P2 H1 H2. unfold Compare.rate_match.
  destruct (String.eqb_spec (rt_class r) (rt_class s)) as [E|N]; cbn [negb]; [|split; [discriminate|tauto]].
  assert (EA : forall o, match o with Some x => arr_or_zero o = x | None => arr_or_zero o = mkArr (Fin 0) (Fin 0) (Fin 0) end)
    by (intros [x|]; reflexivity).
  assert (REST : rt_low r = None \/ rt_low s = None ->
    (match rt_plog r, rt_plog s with
     | Some t1, Some t2 =>
         Ok (Nat.eqb (length t1) (length t2) &&
             forallb (fun e => close (Fin (fst (fst e))) (Fin (fst (snd e))) && arr_match (snd (fst e)) (snd (snd e)))
               (combine (sorted (fun x y : Q * arr => Qlt_bool (fst x) (fst y)) t1)
                        (sorted (fun x y : Q * arr => Qlt_bool (fst x) (fst y)) t2)))
     | _, _ =>
         match rt_cheb r, rt_cheb s with
         | Some c1, Some c2 =>
             unless_false (allclose (ch_P c1) (ch_P c2))
               (unless_false (allclose (ch_T c1) (ch_T c2)) (allclose2 (ch_data c1) (ch_data c2)))
         | _, _ => Ok (arr_match (arr_or_zero (rt_arr r)) (arr_or_zero (rt_arr s)))
         end
     end) = Ok true <-> rt_class r = rt_class s /\ rate_agree r s).
  { intros LO.
    assert (CH : rt_plog r = None \/ rt_plog s = None ->
      match rt_cheb r, rt_cheb s with
      | Some c1, Some c2 =>
          unless_false (allclose (ch_P c1) (ch_P c2))
            (unless_false (allclose (ch_T c1) (ch_T c2)) (allclose2 (ch_data c1) (ch_data c2)))
      | _, _ => Ok (arr_match (arr_or_zero (rt_arr r)) (arr_or_zero (rt_arr s)))
      end = Ok true <-> rt_class r = rt_class s /\ rate_agree r s).
    { intros PL.
      assert (AR : rt_cheb r = None \/ rt_cheb s = None ->
        Ok (arr_match (arr_or_zero (rt_arr r)) (arr_or_zero (rt_arr s))) = Ok true <->
        rt_class r = rt_class s /\ rate_agree r s).
      { intros NC. split.
        - intros A. injection A as A. apply arr_match_iff in A. split; [exact E|].
          eapply agree_arr; eauto; apply EA.
        - intros [_ A]. f_equal. apply arr_match_iff. inversion A.
          + exfalso. destruct LO; congruence.
          + exfalso. destruct PL; congruence.
          + exfalso. destruct NC; congruence.
          + assert (Ea := EA (rt_arr r)). assert (Eb := EA (rt_arr s)).
            destruct (rt_arr r), (rt_arr s); subst; rewrite ?Ea, ?Eb; assumption. }
      destruct (rt_cheb r) as [c1|] eqn:C1; [destruct (rt_cheb s) as [c2|] eqn:C2|]; [|apply AR; auto|apply AR; auto].
      rewrite !unless_false_iff, !allclose_iff, allclose2_iff. split.
      - intros [A [B C]]. split; [exact E|]. eapply agree_cheb; eauto.
      - intros [_ A]. inversion A.
        + exfalso. destruct LO; congruence.
        + exfalso. destruct PL; congruence.
        + assert (c = c1) by congruence. assert (d = c2) by congruence. subst. auto.
        + exfalso. match goal with H : Some _ = None \/ Some _ = None |- _ => destruct H; discriminate | H : rt_cheb r = None \/ _ |- _ => destruct H; congruence end. }
    destruct (rt_plog r) as [t1|] eqn:T1; [destruct (rt_plog s) as [t2|] eqn:T2|]; [|apply CH; auto|apply CH; auto].
    rewrite !plog_same by auto. split.
    - intros A. apply Ok_inj in A. apply andb_true_iff in A. destruct A as [A B]. apply Nat.eqb_eq in A.
      split; [exact E|]. eapply agree_plog; eauto. apply Forall2_combine. split; [exact A|].
      rewrite forallb_forall in B. intros p I. specialize (B p I). cbv beta in B. rewrite andb_true_iff, close_iff, arr_match_iff in B.
      exact B.
    - intros [_ A]. f_equal. inversion A.
      + exfalso. destruct LO; congruence.
      + assert (t0 = t1) by congruence. assert (t3 = t2) by congruence. subst.
        match goal with H : Forall2 _ _ _ |- _ => apply Forall2_combine in H; destruct H as [F G] end.
        apply andb_true_iff. split; [apply Nat.eqb_eq; exact F|]. apply forallb_forall. intros p I. cbv beta.
        rewrite andb_true_iff, close_iff, arr_match_iff. apply G. exact I.
      + exfalso. match goal with H : rt_plog r = None \/ _ |- _ => destruct H; congruence end.
      + exfalso. match goal with H : rt_plog r = None \/ _ |- _ => destruct H; congruence end. }
  destruct (rt_low r) as [l1|] eqn:L1; [destruct (rt_low s) as [l2|] eqn:L2|].
  - destruct (rt_high r) as [h1|] eqn:G1; [|exfalso; apply H1; congruence].
    destruct (rt_high s) as [h2|] eqn:G2; [|exfalso; apply H2; congruence].
    cbn [attr bind]. rewrite unless_false_iff. split.
    + intros [A B]. injection A as A. apply andb_true_iff in A. rewrite !arr_match_iff in A. split; [exact E|].
      eapply agree_falloff; eauto; try tauto.
      intros c d C1 C2. rewrite C1, C2 in B. apply allclose_iff. exact B.
    + intros [_ A]. inversion A; try (exfalso; destruct H; congruence).
      assert (l0 = l1) by congruence. assert (l3 = l2) by congruence. assert (h0 = h1) by congruence.
      assert (h3 = h2) by congruence. subst.
      split; [f_equal; apply andb_true_iff; rewrite !arr_match_iff; auto|].
      destruct (rt_falloff r) as [c|]; [|reflexivity]. destruct (rt_falloff s) as [d|]; [|reflexivity].
      apply allclose_iff. auto.
  - apply REST. auto.
  - apply REST. auto.
Qed.

Lemma third_match_iff t u :
  (forall c, t = Some c -> keys_distinct (co_effs c)) -> (forall c, u = Some c -> keys_distinct (co_effs c)) ->
  third_match t u = true <-> third_agree t u.
Proof.
  intros N1 N2. destruct t as [c|], u as [d|]; cbn; try (intuition discriminate).
  rewrite andb_true_iff, xeq_iff, (dict_eq_iff xeq same_number); auto; [reflexivity|apply xeq_iff].
Qed.

(** What is needed of one reaction. *)
Record fine (r : creaction) : Prop := {
  fi_sides : keys_distinct (cr_reactants r) /\ keys_distinct (cr_products r);
  fi_effs : forall c, cr_third r = Some c -> keys_distinct (co_effs c);
  fi_plog : forall t, rt_plog (cr_rate r) = Some t -> ascending t;
  fi_limits : rt_low (cr_rate r) <> None -> rt_high (cr_rate r) <> None
}.
Lemma wf_fine m r : well_formed m -> In r (so_reactions m) -> fine r.
Proof.
  intros W I. constructor.
  - apply (wf_sides m W r I).
  - intros c. apply (wf_effs m W r c I).
  - intros t. apply (wf_plog m W r t I).
  - apply (wf_limits m W r I).
Qed.

Lemma reaction_match_iff r s : fine r -> fine s -> reaction_match r s = Ok true <-> reaction_agree r s.
Proof.
  intros [[S1 S1'] E1 P1 L1] [[S2 S2'] E2 P2 L2]. unfold Compare.reaction_match.
  rewrite !unless_false_iff, rate_match_iff by auto.
  assert (X : forall b, Ok b = Ok true <-> b = true) by (intros b; split; [congruence|intros ->; reflexivity]).
  rewrite !X, !andb_true_iff, String.eqb_eq, eqb_true_iff, third_match_iff by auto.
  rewrite !(dict_eq_iff Qeq_bool Qeq _ _ Qeq_bool_spec) by auto.
  split.
  - intros [[[[A B] C] D] [[F G] H]]. constructor; auto.
  - intros [A B C D F G H]. auto 10.
Qed.
Lemma reactions_match_iff l :
  reactions_match l = Ok true <-> forall p, In p l -> reaction_match (fst p) (snd p) = Ok true.
Proof.
  induction l as [|p t IH]; cbn [Compare.reactions_match In]; [split; [intros _ p []|auto]|].
  rewrite unless_false_iff, IH. split.
  - intros [A B] q [<-|I]; auto.
  - intros H. auto.
Qed.

Lemma sorted_in {A} (lt : A -> A -> bool) l x : In x (sorted lt l) <-> In x l.
Proof. split; apply Permutation_in; [apply Permutation_sym|]; apply sorted_perm. Qed.

Lemma in_order_sorted {A} (key : A -> string) l :
  in_order key l (sorted (fun x y => String.ltb (key x) (key y)) l).
Proof. split; [apply sorted_perm|apply sorted_sorted]. Qed.

Lemma combine_In2 {A B} (l : list A) (l' : list B) p : In p (combine l l') -> In (fst p) l /\ In (snd p) l'.
Proof. destruct p as [x y]. intros I. split; [eapply in_combine_l|eapply in_combine_r]; exact I. Qed.

Lemma Permutation_keys {A} (key : A -> string) l l' :
  Permutation (map key l) (map key l') -> NoDup (map key l) ->
  map key (sorted (fun x y => String.ltb (key x) (key y)) l) =
  map key (sorted (fun x y => String.ltb (key x) (key y)) l').
Proof.
  intros P N.
  apply (order_unique (fun s : string => s)).
  - rewrite map_id. eapply Permutation_NoDup; [apply Permutation_map, sorted_perm|exact N].
  - eapply perm_trans; [apply Permutation_sym, Permutation_map, sorted_perm|].
    eapply perm_trans; [exact P|apply Permutation_map, sorted_perm].
  - assert (S := sorted_sorted key l).
    induction S as [|x t S IH F]; cbn; constructor; auto. rewrite Forall_forall in *. intros k I.
    apply in_map_iff in I. destruct I as [y [<- I]]. auto.
  - assert (S := sorted_sorted key l').
    induction S as [|x t S IH F]; cbn; constructor; auto. rewrite Forall_forall in *. intros k I.
    apply in_map_iff in I. destruct I as [y [<- I]]. auto.
Qed.

Lemma compare_by_iff m1 m2 :
  well_formed m1 -> well_formed m2 ->
  NoDup (map cr_equation (so_reactions m1)) -> NoDup (map cr_equation (so_reactions m2)) ->
  compare_with close m1 m2 = Ok true <-> equivalent_by fac m1 m2.
Proof.
  intros W1 W2 D1 D2. unfold compare_with.
  destruct (Nat.eqb_spec (length (so_species m1)) (length (so_species m2))) as [L|L]; cbn [negb].
  2:{ split; [discriminate|]. intros [P _ _]. apply Permutation_length in P. rewrite !map_length in P. contradiction. }
  destruct (Nat.eqb_spec (length (so_reactions m1)) (length (so_reactions m2))) as [L'|L']; cbn [negb].
  2:{ split; [discriminate|]. intros [_ _ [l1 [l2 [[P1 _] [[P2 _] F]]]]]. apply Forall2_combine in F. destruct F as [F _].
      apply Permutation_length in P1. apply Permutation_length in P2. congruence. }
  assert (SP : forallb (fun p => species_match (fst p) (snd p))
      (combine (sorted by_name (so_species m1)) (sorted by_name (so_species m2))) = true <->
    Permutation (map cs_name (so_species m1)) (map cs_name (so_species m2)) /\
    (forall s t, In s (so_species m1) -> In t (so_species m2) -> cs_name s = cs_name t -> species_agree s t)).
  { assert (F2 : forallb (fun p => species_match (fst p) (snd p))
      (combine (sorted by_name (so_species m1)) (sorted by_name (so_species m2))) = true <->
      Forall2 species_agree (sorted by_name (so_species m1)) (sorted by_name (so_species m2))).
    { rewrite Forall2_combine, forallb_forall, !sorted_length. split.
      - intros H. split; [exact L|]. intros p I. apply species_match_iff; auto;
          apply combine_In2 in I; destruct I as [I J]; apply sorted_in in I; apply sorted_in in J.
        + apply (wf_comp m1 W1); auto.
        + apply (wf_comp m2 W2); auto.
        + intros d. apply (wf_attrs m1 W1); auto.
      - intros [_ H] p I. apply species_match_iff; auto;
          apply combine_In2 in I; destruct I as [I J]; apply sorted_in in I; apply sorted_in in J.
        + apply (wf_comp m1 W1); auto.
        + apply (wf_comp m2 W2); auto.
        + intros d. apply (wf_attrs m1 W1); auto. }
    rewrite F2. split.
    - intros F.
      assert (EN : map cs_name (sorted by_name (so_species m1)) = map cs_name (sorted by_name (so_species m2))).
      { clear - F. induction F; cbn; [reflexivity|]. f_equal; [eapply sa_name; eassumption|assumption]. }
      assert (P : Permutation (map cs_name (so_species m1)) (map cs_name (so_species m2))).
      { eapply perm_trans; [apply Permutation_map, (sorted_perm by_name)|]. rewrite EN.
        apply Permutation_map, Permutation_sym, sorted_perm. }
      split; [exact P|]. intros s t I J E. apply (sorted_in by_name) in I. apply (sorted_in by_name) in J.
      assert (N : NoDup (map cs_name (sorted by_name (so_species m1)))).
      { eapply Permutation_NoDup; [apply Permutation_map, sorted_perm|apply (wf_names m1 W1)]. }
      clear - F I J E N EN. revert I J E N EN. induction F as [|x y u v R F IH]; cbn; [intros []|].
      intros I J E N EN. injection EN as En EN. inversion N as [|? ? Nx Nu]; subst.
      destruct I as [<-|I], J as [<-|J].
      + exact R.
      + exfalso. apply Nx. rewrite EN, E. apply in_map. exact J.
      + exfalso. apply Nx. rewrite En, <- E. apply in_map. exact I.
      + auto.
    - intros [P H]. apply Forall2_combine. rewrite !sorted_length. split; [exact L|].
      intros p I. assert (I2 := I). apply combine_In2 in I2. destruct I2 as [I1 J1].
      apply sorted_in in I1. apply sorted_in in J1. apply H; auto.
      assert (K := Permutation_keys cs_name _ _ P (wf_names m1 W1)).
      change (fun x y => String.ltb (cs_name x) (cs_name y)) with by_name in K.
      clear - I K. revert I K. generalize (sorted by_name (so_species m1)) (sorted by_name (so_species m2)).
      induction l as [|x t IH]; intros [|y u]; cbn; try (intros H0; exfalso; exact H0). intros [<-|I] K; injection K as K1 K2; eauto. }
  destruct (forallb _ _) eqn:FS; cbn [negb].
  - destruct (proj1 SP eq_refl) as [P H].
    rewrite reactions_match_iff. split.
    + intros R. constructor; auto.
      exists (sorted by_equation (so_reactions m1)), (sorted by_equation (so_reactions m2)).
      split; [apply in_order_sorted|]. split; [apply in_order_sorted|].
      apply Forall2_combine. rewrite !sorted_length. split; [exact L'|]. intros p I.
      assert (I2 := I). apply combine_In2 in I2. destruct I2 as [I1 J1].
      apply sorted_in in I1. apply sorted_in in J1.
      apply reaction_match_iff; eauto using wf_fine.
    + intros [_ _ [l1 [l2 [[P1 S1] [[P2 S2] F]]]]].
      assert (E1 : sorted by_equation (so_reactions m1) = l1).
      { apply (order_unique cr_equation); auto.
        - eapply Permutation_NoDup; [apply Permutation_map, sorted_perm|exact D1].
        - eapply perm_trans; [apply Permutation_sym, sorted_perm|exact P1].
        - apply (sorted_sorted cr_equation). }
      assert (E2 : sorted by_equation (so_reactions m2) = l2).
      { apply (order_unique cr_equation); auto.
        - eapply Permutation_NoDup; [apply Permutation_map, sorted_perm|exact D2].
        - eapply perm_trans; [apply Permutation_sym, sorted_perm|exact P2].
        - apply (sorted_sorted cr_equation). }
      rewrite E1, E2. apply Forall2_combine in F. destruct F as [_ F]. intros p I.
      assert (I2 := I). apply combine_In2 in I2. destruct I2 as [I1 J1].
      apply (Permutation_in _ (Permutation_sym P1)) in I1. apply (Permutation_in _ (Permutation_sym P2)) in J1.
      apply reaction_match_iff; eauto using wf_fine.
  - split; [discriminate|]. intros [P H _]. exfalso. discriminate (proj2 SP (conj P H)).
Qed.

End Closeness.

(** Exact closeness, up to a factor. *)
Definition isclose_by (k : Q) (a b : xnum) : bool :=
  match a, b with
  | Fin x, Fin y => Qle_bool (Qabs (x - y)) (k * (atol + rtol * Qabs y))
  | _, _ => xeq a b
  end.
Lemma isclose_by_iff k x y : isclose_by k x y = true <-> near_by k x y.
Proof.
  destruct x, y; cbn; try (intuition discriminate).
  unfold atol, rtol. apply Qle_bool_iff.
Qed.
Lemma isclose_iff x y : isclose x y = true <-> near_by 1 x y.
Proof.
  destruct x, y; cbn; try (intuition discriminate).
  unfold atol, rtol. rewrite Qmult_1_l. apply Qle_bool_iff.
Qed.

Lemma compare_iff m1 m2 :
  well_formed m1 -> well_formed m2 ->
  NoDup (map cr_equation (so_reactions m1)) -> NoDup (map cr_equation (so_reactions m2)) ->
  compare_models m1 m2 = Ok true <-> equivalent m1 m2.
Proof. apply compare_by_iff. exact isclose_iff. Qed.

(** The order of species and of reactions is irrelevant. *)
Lemma compare_order close m1 m2 m1' m2' :
  NoDup (map cs_name (so_species m1)) -> NoDup (map cs_name (so_species m2)) ->
  NoDup (map cr_equation (so_reactions m1)) -> NoDup (map cr_equation (so_reactions m2)) ->
  Permutation (so_species m1) (so_species m1') -> Permutation (so_species m2) (so_species m2') ->
  Permutation (so_reactions m1) (so_reactions m1') -> Permutation (so_reactions m2) (so_reactions m2') ->
  compare_with close m1 m2 = compare_with close m1' m2'.
Proof.
  intros N1 N2 D1 D2 S1 S2 R1 R2. unfold compare_with.
  rewrite (Permutation_length S1), (Permutation_length S2), (Permutation_length R1), (Permutation_length R2).
  assert (X1 : sorted by_name (so_species m1) = sorted by_name (so_species m1')) by (apply (sorted_unique cs_name); auto).
  assert (X2 : sorted by_name (so_species m2) = sorted by_name (so_species m2')) by (apply (sorted_unique cs_name); auto).
  assert (X3 : sorted by_equation (so_reactions m1) = sorted by_equation (so_reactions m1')) by (apply (sorted_unique cr_equation); auto).
  assert (X4 : sorted by_equation (so_reactions m2) = sorted by_equation (so_reactions m2')) by (apply (sorted_unique cr_equation); auto).
  rewrite X1, X2, X3, X4. reflexivity.
Qed.
