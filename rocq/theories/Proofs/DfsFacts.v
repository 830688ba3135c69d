(** Depth-first search computes reachability. *)
From Coq Require Import String List QArith Bool Arith Lia Lqa.
From Verif.Base Require Import Py Num.
From Verif.Model Require Import Graph.
From Verif.Spec Require Import GraphSpec.
From Verif.Proofs Require Import PyFacts NumFacts.
Import ListNotations.
Local Open Scope nat_scope.

Lemma succ_in g v u w : In (u, w) (succ g v) <-> In (v, u, w) (g_edges g).
Proof.
  unfold succ. rewrite in_map_iff. split.
  - intros [[[a b] w'] [E H]]. simpl in E. inversion E; subst.
    apply filter_In in H. destruct H as [H K]. simpl in K. apply String.eqb_eq in K. now subst.
  - intros H. exists (v, u, w). split; auto. apply filter_In. split; auto. simpl. apply String.eqb_refl.
Qed.

(** Edges whose source has not been visited. *)
Definition rest (g : graph) (visited : list string) : nat :=
  length (filter (fun e => negb (str_in (fst (fst e)) visited)) (g_edges g)).

Lemma rest_mark g visited v :
  ~ In v visited -> rest g (visited ++ [v]) + length (succ g v) = rest g visited.
Proof.
  intros N. unfold rest, succ. rewrite map_length.
  induction (g_edges g) as [|[[a b] w] t IH]; simpl; auto.
  unfold str_in in *. rewrite existsb_app. simpl. rewrite orb_false_r.
  destruct (String.eqb_spec a v) as [->|Na].
  - fold (str_in v visited). apply str_in_false in N. unfold str_in in *. rewrite N. simpl. lia.
  - rewrite orb_false_r. destruct (existsb (String.eqb a) visited); simpl; lia.
Qed.

Lemma dfs_spec g : forall fuel visited stack,
  length stack + rest g visited <= fuel ->
  NoDup visited ->
  (forall v u w, In v visited -> In (v, u, w) (g_edges g) -> In u visited \/ In u stack) ->
  exists r, dfs fuel g visited stack = Ok r /\ NoDup r /\
    (forall x, In x visited -> In x r) /\ (forall x, In x stack -> In x r) /\
    (forall v u w, In v r -> In (v, u, w) (g_edges g) -> In u r) /\
    (forall x, In x r -> In x visited \/ exists s p, In s stack /\ walk (g_edges g) s x p).
Proof.
  induction fuel; intros visited stack F ND C.
  - destruct stack as [|v st]; simpl in F; [|lia]. simpl. exists visited.
    repeat split; auto; try (intros ? H; now destruct H).
    intros v u w H1 H2. destruct (C v u w H1 H2) as [|[]]; auto.
  - destruct stack as [|v st]; simpl.
    + exists visited. repeat split; auto; try (intros ? H; now destruct H).
      intros v u w H1 H2. destruct (C v u w H1 H2) as [|[]]; auto.
    + destruct (str_in v visited) eqn:E.
      * apply str_in_iff in E. simpl in F.
        destruct (IHfuel visited st) as (r & H1 & H2 & H3 & H4 & H5 & H6); [lia|auto| |].
        { intros x u w A B. destruct (C x u w A B) as [|[|]]; subst; auto. }
        exists r. repeat split; auto.
        -- intros x [->|Hx]; auto.
        -- intros x Hx. destruct (H6 x Hx) as [|(s & p & A & B)]; auto. right. exists s, p.
           split; simpl; auto.
      * apply str_in_false in E. simpl in F.
        destruct (IHfuel (visited ++ [v]) (map fst (succ g v) ++ st))
          as (r & H1 & H2 & H3 & H4 & H5 & H6).
        -- rewrite app_length, map_length. pose proof (rest_mark g visited v E). lia.
        -- clear - ND E. induction visited; simpl.
           ++ constructor; auto.
           ++ inversion ND; subst. constructor.
              ** rewrite in_app_iff. simpl in *. intuition.
              ** apply IHvisited; auto. simpl in E. tauto.
        -- intros x u w A B. apply in_app_iff in A. destruct A as [A|[A|[]]].
           ++ destruct (C x u w A B) as [D|[D|D]].
              ** left. apply in_app_iff; auto.
              ** subst. left. apply in_app_iff; simpl; auto.
              ** right. apply in_app_iff; auto.
           ++ subst. right. apply in_app_iff. left. apply in_map_iff. exists (u, w).
              split; auto. now apply succ_in.
        -- exists r. repeat split; auto.
           ++ intros x Hx. apply H3. apply in_app_iff; auto.
           ++ intros x [->|Hx].
              ** apply H3. apply in_app_iff; simpl; auto.
              ** apply H4. apply in_app_iff; auto.
           ++ intros x Hx. destruct (H6 x Hx) as [A|(s & p & A & B)].
              ** apply in_app_iff in A. destruct A as [A|[A|[]]]; auto. subst.
                 right. exists x, 1%Q. split; simpl; auto. constructor.
              ** right. apply in_app_iff in A. destruct A as [A|A].
                 --- apply in_map_iff in A. destruct A as ([u w] & E1 & A). simpl in E1; subst.
                     apply succ_in in A. clear - A B.
                     assert (exists q, walk (g_edges g) v x q) as [q Hq].
                     { induction B.
                       - exists (1 * w)%Q. econstructor; [constructor|exact A].
                       - destruct IHB as [q Hq]. eexists. econstructor; eauto. }
                     exists v, q. simpl; auto.
                 --- exists s, p. simpl; auto.
Qed.

Lemma walk_closed E r s x p :
  (forall v u w, In v r -> In (v, u, w) E -> In u r) -> In s r -> walk E s x p -> In x r.
Proof. intros C H W. induction W; eauto. Qed.

Lemma dfs_preorder_spec g t :
  In t (g_nodes g) ->
  exists r, dfs_preorder g t = Ok r /\ NoDup r /\
            forall x, In x r <-> exists p, walk (g_edges g) t x p.
Proof.
  intros Ht. unfold dfs_preorder. apply str_in_iff in Ht. rewrite Ht.
  destruct (dfs_spec g (2 + length (g_edges g)) nil [t]) as (r & H1 & H2 & H3 & H4 & H5 & H6).
  - unfold rest. cbn [length]. rewrite (filter_ext _ (fun _ => true)) by reflexivity.
    assert (forall A (l : list A), filter (fun _ => true) l = l) as ->.
    { induction l; simpl; congruence. }
    lia.
  - constructor.
  - intros v u w [].
  - exists r. repeat split; auto.
    + intros Hx. destruct (H6 x Hx) as [[]|(s & p & [A|[]] & B)]. subst. eauto.
    + intros [p Hp]. eapply walk_closed; eauto. apply H4. simpl; auto.
Qed.

Lemma dfs_preorder_fail g t : ~ In t (g_nodes g) -> dfs_preorder g t = Raise KeyError.
Proof. intros H. unfold dfs_preorder. apply str_in_false in H. now rewrite H. Qed.

Lemma graph_search_spec g ts :
  (forall t, In t ts -> In t (g_nodes g)) ->
  exists r, graph_search g ts = Ok r /\ NoDup r /\
            forall x, In x r <-> exists t p, In t ts /\ walk (g_edges g) t x p.
Proof.
  intros H. unfold graph_search.
  assert (exists ls, mapM (dfs_preorder g) ts = Ok ls /\
     forall x, In x (concat ls) <-> exists t p, In t ts /\ walk (g_edges g) t x p) as (ls & E & K).
  { induction ts as [|t ts IH]; simpl.
    - exists nil. split; auto. intros x; split; [intros []|intros (t & p & [] & _)].
    - destruct (dfs_preorder_spec g t) as (r & H1 & H2 & H3); [apply H; simpl; auto|].
      destruct IH as (ls & H4 & H5); [intros; apply H; simpl; auto|].
      exists (r :: ls). rewrite H1, H4. split; auto. intros x. simpl. rewrite in_app_iff, H3, H5.
      split.
      + intros [[p Hp]|(t' & p & A & B)]; [exists t, p|exists t', p]; auto.
      + intros (t' & p & [A|A] & B); [subst; left; eauto|right; eauto]. }
  rewrite E. simpl. exists (set_of (concat ls)). repeat split.
  - apply set_of_nodup.
  - rewrite set_of_in. now apply K.
  - rewrite set_of_in. now apply K.
Qed.

Lemma graph_search_fail g ts t :
  In t ts -> ~ In t (g_nodes g) -> graph_search g ts = Raise KeyError.
Proof.
  unfold graph_search. intros Ht N. assert (mapM (dfs_preorder g) ts = Raise KeyError) as ->; auto.
  induction ts as [|a ts IH]; simpl; [destruct Ht|].
  destruct (in_dec string_dec a (g_nodes g)) as [Ha|Ha].
  - destruct (dfs_preorder_spec g a Ha) as (r & -> & _). simpl.
    destruct Ht as [->|Ht]; [contradiction|]. rewrite IH; auto.
  - rewrite dfs_preorder_fail by auto. reflexivity.
Qed.

(** Graphs built from arrays. *)
Lemma enum_in {A} (l : list A) i a : In (i, a) (enum l) <-> nth_error l i = Some a.
Proof.
  unfold enum. revert i. 
  assert (forall k i, In (i, a) (combine (seq k (length l)) l) <-> (k <= i /\ nth_error l (i - k) = Some a)) as H.
  { induction l as [|x l IH]; simpl; intros k i.
    - split; [intros []|]. intros [_ H]. destruct (i - k); discriminate.
    - split.
      + intros [E|H].
        * inversion E; subst. split; [lia|]. now rewrite Nat.sub_diag.
        * apply IH in H. destruct H as [H1 H2]. split; [lia|].
          replace (i - k) with (S (i - S k)) by lia. auto.
      + intros [H1 H2]. destruct (Nat.eq_dec i k) as [->|N].
        * rewrite Nat.sub_diag in H2. simpl in H2. inversion H2; auto.
        * right. apply IH. split; [lia|]. replace (i - k) with (S (i - S k)) in H2 by lia. auto. }
  intros i. rewrite H. rewrite Nat.sub_0_r. intuition lia.
Qed.

Lemma graph_of_edges names M a b w :
  In (a, b, w) (g_edges (graph_of names M)) <-> depends names M a b w /\ ~ (w == 0)%Q.
Proof.
  unfold graph_of, depends; simpl. rewrite in_flat_map. split.
  - intros ([i a'] & H1 & H2). apply in_flat_map in H2. destruct H2 as ([j b'] & H2 & H3).
    simpl in H3. apply enum_in in H1. apply enum_in in H2.
    destruct (Qnz (mget M i j)) eqn:E; [|destruct H3].
    destruct H3 as [H3|[]]. inversion H3; subst. apply Qnz_iff in E. split; auto. exists i, j; auto.
  - intros [(i & j & H1 & H2 & H3) N]. exists (i, a). split; [now apply enum_in|].
    apply in_flat_map. exists (j, b). split; [now apply enum_in|]. simpl.
    rewrite H3. apply Qnz_iff in N. rewrite N. simpl; auto.
Qed.

Lemma mget_where_ge M thr i j :
  mget (where_ge M thr) i j = mget M i j \/ (mget (where_ge M thr) i j = 0%Q).
Proof.
  unfold mget, where_ge. change (@nil Q) with (map (fun w => if Qle_bool thr w then w else 0%Q) nil).
  rewrite map_nth. destruct (Nat.lt_ge_cases j (length (nth i M nil))) as [L|L].
  - set (f := fun w => if Qle_bool thr w then w else 0%Q).
    rewrite nth_indep with (d' := f 0%Q) by (rewrite map_length; auto).
    rewrite map_nth. unfold f. destruct (Qle_bool thr (nth j (nth i M nil) 0%Q)); auto.
  - right. apply nth_overflow. now rewrite map_length.
Qed.

Lemma mget_where_ge_iff M thr i j w : ~ (w == 0)%Q ->
  mget (where_ge M thr) i j = w <-> mget M i j = w /\ (thr <= w)%Q.
Proof.
  intros N. unfold mget, where_ge.
  change (@nil Q) with (map (fun w => if Qle_bool thr w then w else 0%Q) nil) at 1.
  rewrite map_nth. destruct (Nat.lt_ge_cases j (length (nth i M nil))) as [L|L].
  - set (f := fun w => if Qle_bool thr w then w else 0%Q).
    rewrite nth_indep with (d' := f 0%Q) by (rewrite map_length; auto).
    rewrite map_nth. unfold f. destruct (Qle_bool thr (nth j (nth i M nil) 0%Q)) eqn:E.
    + apply Qle_bool_iff in E. split; [intros <-; auto|tauto].
    + split; [intros <-; exfalso; apply N; reflexivity|].
      intros [H1 H2]. rewrite H1 in E. apply Qle_bool_iff in H2. congruence.
  - rewrite nth_overflow by (now rewrite map_length). rewrite nth_overflow by auto.
    split; [intros <-|intros [<- _]]; exfalso; apply N; reflexivity.
Qed.

Lemma depends_where names M thr a b w : ~ (w == 0)%Q ->
  depends names (where_ge M thr) a b w <-> depends names M a b w /\ (thr <= w)%Q.
Proof.
  intros N. unfold depends. split.
  - intros (i & j & H1 & H2 & H3). apply mget_where_ge_iff in H3; auto. destruct H3.
    split; auto. exists i, j; auto.
  - intros [(i & j & H1 & H2 & H3) L]. exists i, j. repeat split; auto.
    apply mget_where_ge_iff; auto.
Qed.

Lemma reach_walk names M thr t x :
  In t names ->
  (exists p, walk (g_edges (graph_of names (where_ge M thr))) t x p) <-> reach names M thr t x.
Proof.
  intros Ht. split.
  - intros [p W]. induction W; [now constructor|].
    apply graph_of_edges in H. destruct H as [H N].
    apply depends_where in H; auto. destruct H. econstructor; eauto.
  - induction 1.
    + exists 1%Q. constructor.
    + destruct IHreach as [p Hp]. exists (p * w)%Q. econstructor; eauto.
      apply graph_of_edges. split; auto. apply depends_where; auto.
Qed.

Lemma reach_in names M thr t x : reach names M thr t x -> In x names.
Proof.
  destruct 1; auto. destruct H0 as (i & j & _ & H3 & _). eapply nth_error_In; eauto.
Qed.

Lemma trim_drg_spec M names targets thr :
  incl targets names ->
  exists r, trim_drg M names targets thr = Ok r /\ NoDup r /\
            forall x, In x r <-> exists t, In t targets /\ reach names M thr t x.
Proof.
  intros H. unfold trim_drg.
  destruct (graph_search_spec (graph_of names (where_ge M thr)) targets) as (r & H1 & H2 & H3).
  { simpl. auto. }
  exists r. split; [auto|]. split; [auto|]. intros x. rewrite H3. split.
  - intros (t & p & A & B). exists t. split; auto. apply reach_walk; eauto.
  - intros (t & A & B). apply reach_walk in B; auto. destruct B as [p B]. eauto.
Qed.

Lemma trim_drg_fail M names targets thr t :
  In t targets -> ~ In t names -> trim_drg M names targets thr = Raise KeyError.
Proof. intros. eapply graph_search_fail; eauto. Qed.

Lemma reach_antitone names M thr thr' t x :
  (thr <= thr')%Q -> reach names M thr' t x -> reach names M thr t x.
Proof.
  intros L. induction 1; [now constructor|]. econstructor; eauto. lra.
Qed.
