(** The DRGEP path search: partial correctness, termination, divergence. *)
From Coq Require Import String List QArith Bool Arith Lia Lqa.
From Verif.Base Require Import Py Num.
From Verif.Model Require Import Graph.
From Verif.Spec Require Import GraphSpec.
From Verif.Proofs Require Import PyFacts NumFacts DfsFacts.
Import ListNotations.
Local Open Scope Q_scope.

Lemma pop_min_none h : pop_min h = None -> h = nil.
Proof.
  destruct h; auto. simpl. destruct (pop_min h) as [[m r]|]; [|discriminate].
  destruct (entry_lt m e); discriminate.
Qed.

Lemma pop_min_some h e h' : pop_min h = Some (e, h') ->
  (forall x, In x h <-> x = e \/ In x h') /\ length h = S (length h').
Proof.
  revert e h'. induction h as [|a t IH]; simpl; intros e h' H; [discriminate|].
  destruct (pop_min t) as [[m r]|] eqn:E.
  - destruct (IH m r eq_refl) as [H1 H2].
    destruct (entry_lt m a); inversion H; subst; split; simpl; try (intros x; rewrite H1; intuition congruence); lia.
  - apply pop_min_none in E. subst. inversion H; subst. split; simpl; auto.
    intros x; intuition.
Qed.

Section Dij.
Variable g : graph.
Variable s : string.
Let E := g_edges g.

Definition seen_ge (seen : dict Q) (u : string) (d : Q) : Prop :=
  exists x, dget u seen = Some x /\ d <= x.

(** The part of the invariant that concerns [seen] and the heap. *)
Record labels (dist seen : dict Q) (fringe : list entry) : Prop := mkLabels {
  L_entry : forall d c u, In (d, c, u) fringe -> seen_ge seen u d;
  L_seen : forall u x, u <> s -> dget u seen = Some x ->
     (exists d c, In (d, c, u) fringe /\ d == x) \/ (exists y, dget u dist = Some y /\ y == x);
  L_dist : forall v d, v <> s -> dget v dist = Some d -> seen_ge seen v d;
  L_src : forall d, dget s dist = Some d -> d = 1;
  L_wseen : forall u x, u <> s -> dget u seen = Some x -> walk E s u x;
  L_wentry : forall d c u, u <> s -> In (d, c, u) fringe -> walk E s u d;
  L_wdist : forall u d, dget u dist = Some d -> walk E s u d
}.

Definition closed (dist seen : dict Q) (cur : option string) : Prop :=
  forall v d u w, Some v <> cur -> dget v dist = Some d -> In (v, u, w) E -> seen_ge seen u (d * w).

Definition started (dist : dict Q) (fringe : list entry) : Prop :=
  (exists d, dget s dist = Some d) \/ (exists c, In (0, c, s) fringe).

Lemma relax_labels dist seen fringe c dv u w seen' fringe' c' :
  labels dist seen fringe -> walk E s u (dv * w) ->
  relax None dv (seen, fringe, c) (u, w) = (seen', fringe', c') ->
  labels dist seen' fringe' /\ (forall k d, seen_ge seen k d -> seen_ge seen' k d) /\
  seen_ge seen' u (dv * w) /\ (forall x, In x fringe -> In x fringe').
Proof.
  intros L W. unfold relax. 
  destruct (match dget u seen with Some x => Qlt_bool x (dv * w) | None => true end) eqn:C;
    intros H; injection H as <- <- <-.
  - assert (forall k d, seen_ge seen k d -> seen_ge (dset u (dv * w) seen) k d) as Mono.
    { intros k d (x & H1 & H2). unfold seen_ge. rewrite dget_dset.
      destruct (String.eqb_spec k u) as [->|N].
      - exists (dv * w). split; auto. rewrite H1 in C. apply Qlt_bool_iff in C. lra.
      - exists x; auto. }
    assert (seen_ge (dset u (dv * w) seen) u (dv * w)) as Here.
    { exists (dv * w). rewrite dget_dset_same. split; auto. lra. }
    split; [|repeat split; auto; simpl; auto].
    destruct L. constructor; auto.
    + intros d c0 u0 [H|H]; [inversion H; subst; auto|eauto].
    + intros u0 x Nu. rewrite dget_dset. destruct (String.eqb_spec u0 u) as [->|N].
      * intros H; inversion H; subst. left. exists (dv * w), c. simpl. split; auto. reflexivity.
      * intros H. destruct (L_seen0 u0 x Nu H) as [(d & c0 & A & B)|]; auto.
        left. exists d, c0. simpl; auto.
    + intros u0 x Nu. rewrite dget_dset. destruct (String.eqb_spec u0 u) as [->|N]; eauto.
      intros H; inversion H; subst; auto.
    + intros d c0 u0 Nu [H|H]; [inversion H; subst; auto|eauto].
  - split; [auto|]. split; [auto|]. split; [|auto].
    destruct (dget u seen) as [x|] eqn:D; [|discriminate]. exists x. split; auto.
    apply Qlt_bool_false in C. auto.
Qed.

Lemma fold_relax_labels dist dv l : forall seen fringe c seen' fringe' c',
  labels dist seen fringe -> (forall u w, In (u, w) l -> walk E s u (dv * w)) ->
  fold_left (relax None dv) l (seen, fringe, c) = (seen', fringe', c') ->
  labels dist seen' fringe' /\ (forall k d, seen_ge seen k d -> seen_ge seen' k d) /\
  (forall u w, In (u, w) l -> seen_ge seen' u (dv * w)) /\ (forall x, In x fringe -> In x fringe').
Proof.
  induction l as [|[u w] l IH]; intros seen fringe c seen' fringe' c' L W H.
  - simpl in H. inversion H; subst. split; [auto|]. split; [auto|]. split; [|auto]. intros ? ? [].
  - cbn [fold_left] in H. destruct (relax None dv (seen, fringe, c) (u, w)) as [[s1 f1] c1] eqn:R.
    destruct (relax_labels _ _ _ _ _ _ _ _ _ _ L (W u w (or_introl eq_refl)) R) as (L1 & M1 & H1 & F1).
    destruct (IH s1 f1 c1 seen' fringe' c' L1) as (L2 & M2 & H2 & F2); auto.
    { intros; apply W; simpl; auto. }
    split; [auto|]. split; [auto|]. split; [|auto].
    intros u0 w0 [A|A]; [inversion A; subst|]; auto.
Qed.

Definition inv dist seen fringe :=
  labels dist seen fringe /\ closed dist seen None /\ started dist fringe.

Lemma inv_init : inv nil [(s, 0)] [(0, 0%nat, s)].
Proof.
  split; [|split].
  - constructor; simpl.
    + intros d c u [H|[]]; inversion H; subst. exists 0. simpl. rewrite String.eqb_refl. split; auto. lra.
    + intros u x N H. destruct (String.eqb_spec u s) as [e|e]; [contradiction|discriminate].
    + discriminate.
    + discriminate.
    + intros u x N H. rewrite (proj2 (String.eqb_neq _ _)) in H; [discriminate|congruence].
    + intros d c u N [H|[]]; inversion H; subst. contradiction.
    + discriminate.
  - intros v d u w _ H. discriminate.
  - right. exists 0%nat. simpl; auto.
Qed.

Lemma inv_skip dist seen fringe d c v fringe' :
  inv dist seen fringe -> pop_min fringe = Some ((d, c, v), fringe') ->
  match dget v dist with Some dv => Qlt_bool d dv | None => false end = true ->
  inv dist seen fringe'.
Proof.
  intros (L & C & S) P B. apply pop_min_some in P. destruct P as [P _].
  destruct (dget v dist) as [dv|] eqn:D; [|discriminate]. apply Qlt_bool_iff in B.
  split; [|split; auto].
  - destruct L. constructor; auto.
    + intros d0 c0 u0 H. eapply L_entry0. apply P; eauto.
    + intros u x N H. destruct (L_seen0 u x N H) as [(d0 & c0 & A & Q0)|]; auto.
      apply P in A. destruct A as [A|A]; [|left; eauto].
      inversion A; subst. exfalso.
      destruct (L_dist0 v dv N D) as (y & Y1 & Y2). rewrite H in Y1. inversion Y1; subst. lra.
    + intros d0 c0 u0 N H. eapply L_wentry0; eauto. apply P; eauto.
  - destruct S as [|[c0 A]]; [left; auto|]. apply P in A. destruct A as [A|A].
    + inversion A; subst. left; eauto.
    + right; eauto.
Qed.

Lemma inv_step dist seen fringe d c v fringe' c1 seen' fringe'' c' :
  inv dist seen fringe -> pop_min fringe = Some ((d, c, v), fringe') ->
  match dget v dist with Some dv => Qlt_bool d dv | None => false end = false ->
  let d' := if String.eqb v s then 1 else d in
  fold_left (relax None d') (succ g v) (seen, fringe', c1) = (seen', fringe'', c') ->
  inv (dset v d' dist) seen' fringe''.
Proof.
  intros (L & C & S) P B d' F. apply pop_min_some in P. destruct P as [P _].
  assert (walk E s v d') as W.
  { unfold d'. destruct (String.eqb_spec v s) as [->|N]; [constructor|].
    eapply (L_wentry _ _ _ L); eauto. apply P; auto. }
  assert (labels (dset v d' dist) seen fringe') as L1.
  { destruct L. constructor; auto.
    - intros d0 c0 u0 H. eapply L_entry0. apply P; eauto.
    - intros u x N H. rewrite dget_dset. destruct (String.eqb_spec u v) as [->|Nv].
      + destruct (L_seen0 v x N H) as [(d0 & c0 & A & Q0)|(y & Y1 & Y2)].
        * apply P in A. destruct A as [A|A]; [|left; eauto]. injection A as -> ->.
          right. exists d'. split; auto. unfold d'. rewrite (proj2 (String.eqb_neq _ _)); auto.
        * right. exists d'. split; auto. unfold d'. rewrite (proj2 (String.eqb_neq _ _)) by auto.
          rewrite Y1 in B. apply Qlt_bool_false in B.
          destruct (L_entry0 d c v) as (z & Z1 & Z2); [apply P; auto|].
          rewrite H in Z1. inversion Z1; subst. lra.
      + destruct (L_seen0 u x N H) as [(d0 & c0 & A & Q0)|]; auto.
        apply P in A. destruct A as [A|A]; [inversion A; subst; contradiction|left; eauto].
    - intros u x N. rewrite dget_dset. destruct (String.eqb_spec u v) as [->|Nv]; eauto.
      intros H; inversion H; subst. unfold d'. rewrite (proj2 (String.eqb_neq _ _)) by auto.
      apply L_entry0 with c. apply P; auto.
    - intros x. rewrite dget_dset. destruct (String.eqb_spec s v) as [<-|Nv]; eauto.
      intros H; inversion H; subst. unfold d'. now rewrite ?String.eqb_refl.
    - intros d0 c0 u0 N H. eapply L_wentry0; eauto. apply P; eauto.
    - intros u x. rewrite dget_dset. destruct (String.eqb_spec u v) as [->|Nv]; eauto.
      intros H; inversion H; subst; auto. }
  assert (forall u w, In (u, w) (succ g v) -> walk E s u (d' * w)) as Ws.
  { intros u w Hu. econstructor; eauto. now apply succ_in. }
  destruct (fold_relax_labels _ _ _ _ _ _ _ _ _ L1 Ws F) as (L2 & M2 & H2 & F2).
  split; [auto|]. split.
  - intros v0 d0 u w _ H Ed. rewrite dget_dset in H. destruct (String.eqb_spec v0 v) as [->|N].
    + inversion H; subst. apply H2. now apply succ_in.
    + apply M2. eapply C; eauto. discriminate.
  - unfold started.
    destruct (String.eqb_spec v s) as [->|N].
    + left. exists d'. now rewrite dget_dset_same.
    + destruct S as [[x Hx]|[c0 A]].
      * left. exists x. now rewrite dget_dset_other.
      * apply P in A. destruct A as [A|A]; [inversion A; subst; contradiction|].
        right. exists c0. auto.
Qed.

(** When the loop ends, the labels are closed under the edges. *)
Definition final (dist : dict Q) : Prop :=
  dget s dist = Some 1 /\
  (forall v d u w, dget v dist = Some d -> In (v, u, w) E -> u <> s -> seen_ge dist u (d * w)) /\
  (forall v d, dget v dist = Some d -> walk E s v d).

Lemma inv_final dist seen : inv dist seen nil -> final dist.
Proof.
  intros (L & C & S). destruct L. split; [|split; auto].
  - destruct S as [[d H]|[c []]]. rewrite H. f_equal. eauto.
  - intros v d u w H Ed N. destruct (C v d u w ltac:(discriminate) H Ed) as (x & X1 & X2).
    destruct (L_seen0 u x N X1) as [(? & ? & [] & _)|(y & Y1 & Y2)].
    exists y. split; auto. lra.
Qed.

Lemma dij_loop_partial : forall fuel dist seen fringe c r,
  inv dist seen fringe -> dij_loop fuel g s None dist seen fringe c = Ok r -> final r.
Proof.
  induction fuel; intros dist seen fringe c r I H; cbn [dij_loop] in H.
  - destruct (pop_min fringe) as [[[[d c0] v] f']|] eqn:P; [discriminate|].
    apply pop_min_none in P. subst. inversion H; subst. eapply inv_final; eauto.
  - destruct (pop_min fringe) as [[[[d c0] v] f']|] eqn:P.
    + destruct (match dget v dist with Some dv => Qlt_bool d dv | None => false end) eqn:B.
      * eapply IHfuel; [|exact H]. eapply inv_skip; eauto.
      * destruct (str_in v (g_nodes g)); [|discriminate].
        destruct (fold_left (relax None (if (v =? s)%string then 1 else d)) (succ g v) (seen, f', c))
          as [[s1 f1] c1] eqn:F.
        eapply IHfuel; [|exact H]. eapply inv_step; eauto.
    + apply pop_min_none in P. subst. inversion H; subst. eapply inv_final; eauto.
Qed.

Lemma ss_dijkstra_partial fuel r : ss_dijkstra fuel g s None = Ok r -> final r.
Proof. apply dij_loop_partial. apply inv_init. Qed.

Lemma walk_nonneg : nonneg_weights E -> forall v p, walk E s v p -> 0 <= p.
Proof.
  intros N v p W. induction W; [lra|]. apply Qmult_le_0_compat; auto. eapply N; eauto.
Qed.

Lemma walk_unit : unit_weights E -> forall v p, walk E s v p -> 0 <= p <= 1.
Proof.
  intros N v p W. induction W; [lra|]. destruct (N _ _ _ H). split; nra.
Qed.

Lemma final_max r : unit_weights E -> final r ->
  forall v p, walk E s v p -> seen_ge r v p.
Proof.
  intros U (F1 & F2 & F3) v p W. pose proof (walk_unit U) as WU. induction W.
  - exists 1. split; [auto|lra].
  - destruct IHW as (d & D1 & D2). destruct (string_dec x s) as [->|N].
    + exists 1. split; [auto|]. apply (WU s). econstructor; eauto.
    + destruct (F2 v d x w D1 H N) as (y & Y1 & Y2). exists y. split; auto.
      destruct (U _ _ _ H). nra.
Qed.

(** ** Divergence *)

Lemma final_pos r : nonneg_weights E -> final r ->
  forall v p, walk E s v p -> 0 < p -> exists d, dget v r = Some d /\ 0 < d.
Proof.
  intros U (F1 & F2 & F3) v p W. pose proof (walk_nonneg U) as WU. induction W; intros P.
  - exists 1. split; [auto|lra].
  - pose proof (WU _ _ W) as Hp. pose proof (U _ _ _ H) as Hw.
    assert (0 < p /\ 0 < w) as [Pp Pw] by (split; nra).
    destruct (IHW Pp) as (d & D1 & D2). destruct (string_dec x s) as [->|N].
    + exists 1. split; [auto|lra].
    + destruct (F2 v d x w D1 H N) as (y & Y1 & Y2). exists y. split; [auto|nra].
Qed.

Lemma final_cycle r : nonneg_weights E -> final r ->
  forall u v c, walk_avoiding E s u v c -> forall d, dget u r = Some d -> 0 <= d ->
  0 <= c /\ seen_ge r v (d * c).
Proof.
  intros U (F1 & F2 & F3) u v c W. induction W; intros d D P.
  - split; [lra|]. exists d. split; [auto|lra].
  - destruct (IHW d D P) as (C0 & y & Y1 & Y2). pose proof (U _ _ _ H) as Hw.
    destruct (F2 v y x w Y1 H H0) as (z & Z1 & Z2). split; [nra|]. exists z. split; [auto|nra].
Qed.

Lemma not_ok_final r v p c : nonneg_weights E -> final r ->
  walk E s v p -> 0 < p -> walk_avoiding E s v v c -> 1 < c -> False.
Proof.
  intros U F W P WA C. destruct (final_pos r U F v p W P) as (d & D1 & D2).
  destruct (final_cycle r U F v v c WA d D1) as (_ & y & Y1 & Y2); [lra|].
  rewrite D1 in Y1. inversion Y1; subst. nra.
Qed.

(** The search only fails with KeyError when the source is not a node. *)
Definition known (fringe : list entry) := forall d c u, In (d, c, u) fringe -> In u (g_nodes g).

Lemma relax_known dv seen fringe c u w seen' fringe' c' :
  known fringe -> In u (g_nodes g) ->
  relax None dv (seen, fringe, c) (u, w) = (seen', fringe', c') -> known fringe'.
Proof.
  unfold relax. intros K Hu.
  destruct (match dget u seen with Some x => Qlt_bool x (dv * w) | None => true end);
    intros H; injection H as <- <- <-; auto.
  intros d c0 u0 [A|A]; [inversion A; subst; auto|eapply K; eauto].
Qed.

Lemma fold_relax_known dv l : forall seen fringe c seen' fringe' c',
  known fringe -> (forall u w, In (u, w) l -> In u (g_nodes g)) ->
  fold_left (relax None dv) l (seen, fringe, c) = (seen', fringe', c') -> known fringe'.
Proof.
  induction l as [|[u w] l IH]; intros seen fringe c seen' fringe' c' K W H.
  - simpl in H. inversion H; subst; auto.
  - cbn [fold_left] in H. destruct (relax None dv (seen, fringe, c) (u, w)) as [[s1 f1] c1] eqn:R.
    eapply IH; [| |exact H].
    + eapply relax_known; eauto. eapply W; simpl; eauto.
    + intros; eapply W; simpl; eauto.
Qed.

Hypothesis EW : edges_within (g_nodes g) E.

Lemma dij_loop_no_raise : forall fuel dist seen fringe c e,
  known fringe -> dij_loop fuel g s None dist seen fringe c <> Raise e.
Proof.
  induction fuel; intros dist seen fringe c e K H; cbn [dij_loop] in H.
  - destruct (pop_min fringe) as [[[[d c0] v] f']|] eqn:P; discriminate.
  - destruct (pop_min fringe) as [[[[d c0] v] f']|] eqn:P; [|discriminate].
    apply pop_min_some in P. destruct P as [P _].
    assert (known f') as K'. { intros d0 c1 u0 A. eapply K. apply P; eauto. }
    destruct (match dget v dist with Some dv => Qlt_bool d dv | None => false end) eqn:B.
    + eapply IHfuel; eauto.
    + assert (In v (g_nodes g)) as Hv. { eapply K. apply P; eauto. }
      apply str_in_iff in Hv. rewrite Hv in H.
      destruct (fold_left (relax None (if (v =? s)%string then 1 else d)) (succ g v) (seen, f', c))
          as [[s1 f1] c1] eqn:F.
      eapply IHfuel; [|exact H]. eapply fold_relax_known; eauto.
      intros u w Hu. apply succ_in in Hu. now apply EW in Hu.
Qed.

Lemma dijkstra_diverges_lemma :
  In s (g_nodes g) -> nonneg_weights E ->
  forall v p c, walk E s v p -> 0 < p -> walk_avoiding E s v v c -> 1 < c ->
  forall fuel, ss_dijkstra fuel g s None = NoFuel.
Proof.
  intros Hs U v p c W P WA C fuel. destruct (ss_dijkstra fuel g s None) as [r|e|] eqn:R; auto.
  - exfalso. eapply not_ok_final; eauto. eapply ss_dijkstra_partial; eauto.
  - exfalso. eapply dij_loop_no_raise; [|exact R]. intros d c0 u [A|[]]. inversion A; subst; auto.
Qed.

(** ** Termination with weights in [0,1] *)

Hypothesis U : unit_weights E.

(** Simple paths from the source, nodes in reverse. *)
Inductive spath : string -> Q -> list string -> Prop :=
| sp_src : spath s 1 [s]
| sp_step v p l u w : spath v p l -> In (v, u, w) E -> ~ In u l -> spath u (p * w) (u :: l).

Lemma spath_walk v p l : spath v p l -> walk E s v p.
Proof. induction 1; econstructor; eauto. Qed.

Lemma spath_nodup v p l : spath v p l -> NoDup l.
Proof. induction 1; constructor; auto. constructor. Qed.

Lemma spath_in v p l : In s (g_nodes g) -> spath v p l -> incl l (g_nodes g).
Proof.
  intros Hs. induction 1; intros x.
  - intros [<-|[]]; auto.
  - intros [<-|Hx]; auto. now apply EW in H0.
Qed.

Lemma spath_last v p l : spath v p l -> In v l.
Proof. destruct 1; simpl; auto. Qed.

(** Products of walks with exactly [k] edges. *)
Fixpoint walks (k : nat) : list (string * Q) :=
  match k with
  | O => [(s, 1)]
  | S k => flat_map (fun vp => map (fun uw => (fst uw, snd vp * snd uw)) (succ g (fst vp))) (walks k)
  end.

Definition values : list Q :=
  flat_map (fun k => map snd (walks k)) (seq 0 (S (length (g_nodes g)))).

Lemma walks_step k v p u w : In (v, p) (walks k) -> In (v, u, w) E -> In (u, p * w) (walks (S k)).
Proof.
  intros H1 H2. simpl. apply in_flat_map. exists (v, p). split; auto. apply in_map_iff.
  exists (u, w). split; auto. now apply succ_in.
Qed.

Lemma spath_walks v p l : spath v p l -> In (v, p) (walks (pred (length l))).
Proof.
  induction 1; simpl; auto. pose proof (spath_last _ _ _ H).
  destruct l as [|y l]; [destruct H2|]. apply (walks_step (length l) v p u w); auto.
Qed.

Lemma spath_value v p l u w : In s (g_nodes g) -> spath v p l -> In (v, u, w) E -> In (p * w) values.
Proof.
  intros Hs H Ed. pose proof (spath_walks _ _ _ H) as W.
  pose proof (NoDup_incl_length (spath_nodup _ _ _ H) (spath_in _ _ _ Hs H)) as Len.
  pose proof (spath_last _ _ _ H) as La.
  pose proof (walks_step _ _ _ _ _ W Ed) as W'.
  unfold values. apply in_flat_map. exists (S (pred (length l))). split.
  - apply in_seq. destruct l; [destruct La|]. simpl in *. lia.
  - apply in_map_iff. exists (u, p * w). auto.
Qed.

(** Every node on the path has been seen with at least the final value. *)
Definition tracked (seen : dict Q) (l : list string) (x : Q) : Prop :=
  forall y, In y l -> y <> s -> seen_ge seen y x.

Definition labelled (seen : dict Q) (u : string) (x : Q) : Prop :=
  exists l, spath u x l /\ tracked seen l x.

Definition mono (seen seen' : dict Q) : Prop := forall k d, seen_ge seen k d -> seen_ge seen' k d.

Lemma labelled_mono seen seen' u x : mono seen seen' -> labelled seen u x -> labelled seen' u x.
Proof. intros M (l & H1 & H2). exists l. split; auto. intros y Hy N. apply M. auto. Qed.

Record plabels (dist seen : dict Q) (fringe : list entry) : Prop := mkPlabels {
  P_entry : forall d c u, u <> s -> In (d, c, u) fringe -> labelled seen u d
}.

(** The measure. *)
Definition rank (seen : dict Q) (u : string) : nat :=
  match dget u seen with
  | None => S (length values)
  | Some x => length (filter (fun y => Qlt_bool x y) values)
  end.

Definition total (seen : dict Q) (l : list string) : nat :=
  fold_right (fun u n => (rank seen u + n)%nat) 0%nat l.

Lemma filter_length_le {A} (p q : A -> bool) l :
  (forall x, In x l -> p x = true -> q x = true) ->
  (length (filter p l) <= length (filter q l))%nat.
Proof.
  induction l; simpl; intros H; auto. 
  assert (length (filter p l) <= length (filter q l))%nat by (apply IHl; intros; apply H; auto).
  destruct (p a) eqn:Pa.
  - rewrite (H a) by auto. simpl. lia.
  - destruct (q a); simpl; lia.
Qed.

Lemma filter_length_lt {A} (p q : A -> bool) l z :
  (forall x, In x l -> p x = true -> q x = true) -> In z l -> p z = false -> q z = true ->
  (length (filter p l) < length (filter q l))%nat.
Proof.
  induction l; simpl; intros H Hz P Q0; [destruct Hz|].
  destruct Hz as [->|Hz].
  - rewrite P, Q0. simpl. pose proof (filter_length_le p q l). lapply H0; [lia|]. intros; apply H; auto.
  - assert (length (filter p l) < length (filter q l))%nat by (apply IHl; auto).
    destruct (p a) eqn:Pa.
    + rewrite (H a) by auto. simpl. lia.
    + destruct (q a); simpl; lia.
Qed.

Lemma filter_len {A} (p : A -> bool) l : (length (filter p l) <= length l)%nat.
Proof. induction l; simpl; auto. destruct (p a); simpl; lia. Qed.

Lemma rank_drop seen u x : In x values ->
  match dget u seen with None => True | Some y => y < x end ->
  (S (rank (dset u x seen) u) <= rank seen u)%nat.
Proof.
  intros V H. unfold rank. rewrite dget_dset_same. destruct (dget u seen) as [y|].
  - apply filter_length_lt with x; auto.
    + intros z _ Hz. apply Qlt_bool_iff in Hz. apply Qlt_bool_iff. lra.
    + apply Qlt_bool_false. lra.
    + now apply Qlt_bool_iff.
  - pose proof (filter_len (fun y => Qlt_bool x y) values). lia.
Qed.

Lemma rank_other seen u x k : k <> u -> rank (dset u x seen) k = rank seen k.
Proof. intros N. unfold rank. rewrite dget_dset_other; auto. Qed.

Lemma total_le seen u x l : In x values ->
  match dget u seen with None => True | Some y => y < x end ->
  (total (dset u x seen) l <= total seen l)%nat.
Proof.
  intros V H. induction l as [|a l IH]; simpl; auto. destruct (string_dec a u) as [->|N].
  - pose proof (rank_drop seen u x V H). lia.
  - rewrite rank_other by auto. lia.
Qed.

Lemma total_drop seen u x l : In u l -> In x values ->
  match dget u seen with None => True | Some y => y < x end ->
  (S (total (dset u x seen) l) <= total seen l)%nat.
Proof.
  intros Hu V H. induction l as [|a l IH]; simpl; [destruct Hu|].
  destruct (string_dec a u) as [->|N].
  - pose proof (rank_drop seen u x V H). pose proof (total_le seen u x l V H). lia.
  - destruct Hu as [|Hu]; [contradiction|]. rewrite rank_other by auto. specialize (IH Hu). lia.
Qed.

Hypothesis Hs : In s (g_nodes g).

Lemma relax_measure dist seen fringe c v dv u w seen' fringe' c' :
  plabels dist seen fringe -> labelled seen v dv -> In (v, u, w) E ->
  relax None dv (seen, fringe, c) (u, w) = (seen', fringe', c') ->
  plabels dist seen' fringe' /\ mono seen seen' /\
  (total seen' (g_nodes g) + length fringe' <= total seen (g_nodes g) + length fringe)%nat.
Proof.
  intros L (l & SP & T) Ed. unfold relax.
  destruct (match dget u seen with Some x => Qlt_bool x (dv * w) | None => true end) eqn:C;
    intros H; injection H as <- <- <-.
  - assert (mono seen (dset u (dv * w) seen)) as Mono.
    { intros k d (x & H1 & H2). unfold seen_ge. rewrite dget_dset.
      destruct (String.eqb_spec k u) as [->|N].
      - exists (dv * w). split; auto. rewrite H1 in C. apply Qlt_bool_iff in C. lra.
      - exists x; auto. }
    split; [|split; auto].
    + constructor. intros d c0 u0 N [A|A].
      * inversion A; subst. destruct (U _ _ _ Ed) as [U1 U2].
        pose proof (walk_unit U v dv (spath_walk _ _ _ SP)) as [V1 V2].
        assert (~ In u0 l) as NI.
        { intros I. destruct (T u0 I N) as (x & X1 & X2). rewrite X1 in C.
          apply Qlt_bool_iff in C. nra. }
        exists (u0 :: l). split; [econstructor; eauto|].
        intros y [<-|Hy] Ny.
        -- exists (dv * w). rewrite dget_dset_same. split; auto. lra.
        -- apply Mono. destruct (T y Hy Ny) as (x & X1 & X2). exists x. split; auto. nra.
      * eapply labelled_mono; eauto. eapply (P_entry _ _ _ L); eauto.
    + cbn [length]. assert (S (total (dset u (dv * w)%Q seen) (g_nodes g)) <= total seen (g_nodes g))%nat; [|lia].
      apply total_drop.
      * now apply EW in Ed.
      * eapply spath_value; eauto.
      * destruct (dget u seen); auto. now apply Qlt_bool_iff in C.
  - split; [auto|]. split; [|auto]. intros k d; auto.
Qed.

Lemma fold_relax_measure dist v dv l : forall seen fringe c seen' fringe' c',
  plabels dist seen fringe -> labelled seen v dv -> (forall u w, In (u, w) l -> In (v, u, w) E) ->
  fold_left (relax None dv) l (seen, fringe, c) = (seen', fringe', c') ->
  plabels dist seen' fringe' /\
  (total seen' (g_nodes g) + length fringe' <= total seen (g_nodes g) + length fringe)%nat.
Proof.
  induction l as [|[u w] l IH]; intros seen fringe c seen' fringe' c' L W Ed H.
  - simpl in H. inversion H; subst. split; auto.
  - cbn [fold_left] in H. destruct (relax None dv (seen, fringe, c) (u, w)) as [[s1 f1] c1] eqn:R.
    destruct (relax_measure dist _ _ _ _ _ _ _ _ _ _ L W (Ed u w (or_introl eq_refl)) R) as (L1 & M1 & D1).
    destruct (IH s1 f1 c1 seen' fringe' c') as (L2 & D2); auto.
    { eapply labelled_mono; eauto. }
    { intros; apply Ed; simpl; auto. }
    split; auto. lia.
Qed.

Lemma dij_loop_total : forall fuel dist seen fringe c,
  known fringe -> plabels dist seen fringe ->
  (total seen (g_nodes g) + length fringe <= fuel)%nat ->
  exists r, dij_loop fuel g s None dist seen fringe c = Ok r.
Proof.
  induction fuel; intros dist seen fringe c K L F; cbn [dij_loop].
  - destruct fringe; [|cbn [length] in F; lia]. simpl. eauto.
  - destruct (pop_min fringe) as [[[[d c0] v] f']|] eqn:P; [|eauto].
    apply pop_min_some in P. destruct P as [P Len].
    assert (known f') as K'. { intros d0 c1 u0 A. eapply K. apply P; eauto. }
    assert (plabels dist seen f') as L'.
    { constructor. intros d0 c1 u0 N A. eapply (P_entry _ _ _ L); eauto. apply P; eauto. }
    destruct (match dget v dist with Some dv => Qlt_bool d dv | None => false end) eqn:B.
    + apply IHfuel; auto. lia.
    + assert (In v (g_nodes g)) as Hv. { eapply K. apply P; eauto. }
      apply str_in_iff in Hv. rewrite Hv.
      destruct (fold_left (relax None (if (v =? s)%string then 1 else d)) (succ g v) (seen, f', c))
          as [[s1 f1] c1] eqn:Fo.
      assert (labelled seen v (if (v =? s)%string then 1 else d)) as Lv.
      { destruct (String.eqb_spec v s) as [->|N].
        - exists [s]. split; [constructor|]. intros y [<-|[]] Ny; contradiction.
        - eapply (P_entry _ _ _ L); eauto. apply P; eauto. }
      assert (forall u w, In (u, w) (succ g v) -> In (v, u, w) E) as Es.
      { intros u w Hu. now apply succ_in. }
      destruct (fold_relax_measure dist _ _ _ _ _ _ _ _ _ L' Lv Es Fo) as (L1 & D1).
      apply IHfuel; [|destruct L1; constructor; auto|lia].
      eapply fold_relax_known; [exact K'| |exact Fo].
      intros u w Hu. apply succ_in in Hu. now apply EW in Hu.
Qed.

Lemma ss_dijkstra_total fuel : (total [(s, 0%Q)] (g_nodes g) + 1 <= fuel)%nat ->
  exists r, ss_dijkstra fuel g s None = Ok r.
Proof.
  intros F. apply dij_loop_total; auto.
  - intros d c0 u [A|[]]. inversion A; subst; auto.
  - constructor. intros d c u N [A|[]]. inversion A; subst. contradiction.
Qed.
End Dij.

Lemma dij_loop_more : forall f k g s cut dist seen fringe c r,
  dij_loop f g s cut dist seen fringe c = Ok r ->
  dij_loop (f + k) g s cut dist seen fringe c = Ok r.
Proof.
  induction f; intros k g s cut dist seen fringe c r H.
  - cbn [dij_loop] in H. destruct (pop_min fringe) as [[[[d c0] v] f']|] eqn:P; [discriminate|].
    destruct k; simpl; rewrite P; auto.
  - cbn [dij_loop Nat.add] in *. destruct (pop_min fringe) as [[[[d c0] v] f']|] eqn:P; auto.
    destruct (match dget v dist with Some dv => Qlt_bool d dv | None => false end); auto.
    destruct (str_in v (g_nodes g)); auto.
    destruct (fold_left (relax cut (if (v =? s)%string then 1 else d)) (succ g v) (seen, f', c))
      as [[s1 f1] c1]. auto.
Qed.

Lemma ss_dijkstra_more f f' g s cut r : (f <= f')%nat ->
  ss_dijkstra f g s cut = Ok r -> ss_dijkstra f' g s cut = Ok r.
Proof.
  intros L H. replace f' with (f + (f' - f))%nat by lia. now apply dij_loop_more.
Qed.

(** Total correctness. *)
Lemma dijkstra_correct g s :
  In s (g_nodes g) -> edges_within (g_nodes g) (g_edges g) -> unit_weights (g_edges g) ->
  exists r N, (forall fuel, (N <= fuel)%nat -> ss_dijkstra fuel g s None = Ok r) /\
    dget s r = Some 1 /\
    (forall v m, dget v r = Some m -> is_max_product (g_edges g) s v m) /\
    (forall v, (exists m, dget v r = Some m) <-> (exists p, walk (g_edges g) s v p)).
Proof.
  intros Hs EW U. set (N := (total g s [(s, 0%Q)] (g_nodes g) + 1)%nat).
  destruct (ss_dijkstra_total g s EW U Hs N) as [r R]; [unfold N; lia|].
  exists r, N. pose proof (ss_dijkstra_partial g s N r R) as F.
  pose proof (final_max g s r U F) as FM. destruct F as (F1 & F2 & F3).
  split; [intros; eapply ss_dijkstra_more; eauto|]. split; auto. split.
  - intros v m H. split.
    + exists m. split; auto. reflexivity.
    + intros p W. destruct (FM v p W) as (x & X1 & X2). rewrite H in X1. inversion X1; subst; auto.
  - intros v. split.
    + intros [m H]. exists m. auto.
    + intros [p W]. destruct (FM v p W) as (x & X1 & X2). eauto.
Qed.

(** With a cutoff nothing is ever pushed. *)
Lemma fold_relax_cutoff k dv l st : fold_left (relax (Some k) dv) l st = st.
Proof.
  revert st. induction l as [|[u w] l IH]; intros [[seen fringe] c]; simpl; auto.
Qed.

Lemma dijkstra_cutoff g s k fuel :
  In s (g_nodes g) -> ss_dijkstra (S fuel) g s (Some k) = Ok [(s, 1)].
Proof.
  intros Hs. unfold ss_dijkstra. cbn [dij_loop pop_min dget].
  apply str_in_iff in Hs. rewrite Hs, String.eqb_refl.
  rewrite fold_relax_cutoff. destruct fuel; reflexivity.
Qed.
