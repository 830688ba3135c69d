(** The DRGEP path search in binary64: partial correctness and termination. *)
From Coq Require Import String List ZArith QArith Qreals Reals Bool Arith Lia Lra Psatz.
From Flocq Require Import Core.
From Verif.Base Require Import Py Num B64.
From Verif.Model Require Import FloatDrivers FloatMatrix.
From Verif.Spec Require Import FloatMatrixSpec.
From Verif.Proofs Require Import PyFacts DijkstraFacts FloatFacts FloatArith FloatSums.
Import ListNotations.
Local Open Scope R_scope.

Lemma fpop_none h : fpop_min h = None -> h = nil.
Proof.
  destruct h; auto. simpl. destruct (fpop_min h) as [[m r]|]; [|discriminate].
  destruct (fentry_lt m f); discriminate.
Qed.

Lemma fpop_some h e h' : fpop_min h = Some (e, h') ->
  (forall x, In x h <-> x = e \/ In x h') /\ length h = S (length h').
Proof.
  revert e h'. induction h as [|a t IH]; simpl; intros e h' H; [discriminate|].
  destruct (fpop_min t) as [[m r]|] eqn:E.
  - destruct (IH m r eq_refl) as [H1 H2].
    destruct (fentry_lt m a); inversion H; subst; split; simpl; try (intros x; rewrite H1; intuition congruence); lia.
  - apply fpop_none in E. subst. inversion H; subst. split; simpl; auto.
    intros x; intuition.
Qed.

Lemma fsucc_in g v u w : In (u, w) (fsucc g v) <-> In (v, u, w) (fg_edges g).
Proof.
  unfold fsucc. rewrite in_map_iff. split.
  - intros ([[a b] c] & H & F). apply filter_In in F. destruct F as [F1 F2]. simpl in *.
    apply String.eqb_eq in F2. inversion H; subst; auto.
  - intros H. exists (v, u, w). split; auto. apply filter_In. split; auto. simpl. apply String.eqb_refl.
Qed.

Section Dij.
Variable g : fgraph.
Variable s : string.
Variable bnd : nat -> R.
Variable top : nat.
Let E := fg_edges g.
Hypothesis bnd_one : 1 <= bnd 0.
Hypothesis bnd_up : forall n, bnd n <= bnd (S n).
Hypothesis bnd_big : forall n, (n <= top)%nat -> bnd n <= bpow radix2 900.
Hypothesis w_fin : forall a b w, In (a, b, w) E -> fin w /\ 0 <= rv w <= 2.
Hypothesis bnd_step : forall a b w n, In (a, b, w) E -> (n < top)%nat -> rnd (bnd n * rv w) <= bnd (S n).

Definition good (n : nat) (x : b64) : Prop := fin x /\ 0 <= rv x <= bnd n.

Lemma bnd_mono n m : (n <= m)%nat -> bnd n <= bnd m.
Proof. induction 1; [lra|]. pose proof (bnd_up m). lra. Qed.

Lemma good_up n m x : (n <= m)%nat -> good n x -> good m x.
Proof. intros L [F B]. split; auto. pose proof (bnd_mono n m L). lra. Qed.

Lemma mul_ok n x a b w : (n <= top)%nat -> good n x -> In (a, b, w) E ->
  fin (b64_mul x w) /\ rv (b64_mul x w) = rnd (rv x * rv w).
Proof.
  intros L [F B] H. destruct (w_fin _ _ _ H) as [Fw Bw]. apply fin_mul; auto.
  pose proof (bnd_big n L) as BB.
  assert (0 <= rv x * rv w <= bpow radix2 900 * 2) as X.
  { split; [apply Rmult_le_pos; lra|]. apply Rmult_le_compat; lra. }
  rewrite Rabs_pos_eq by lra. eapply Rle_trans; [apply X|].
  replace (bpow radix2 900 * 2) with (bpow radix2 901) by (change 901%Z with (900 + 1)%Z; rewrite bpow_plus; simpl; lra).
  apply bpow_le. lia.
Qed.

Lemma mul_good n x a b w : (n < top)%nat -> good n x -> In (a, b, w) E -> good (S n) (b64_mul x w).
Proof.
  intros L G H. destruct (mul_ok n x a b w) as [F V]; auto; try lia. split; auto. rewrite V.
  destruct G as [Fx B]. destruct (w_fin _ _ _ H) as [Fw Bw]. split.
  - rewrite <- (rnd_id 0) by apply generic_format_0. apply rnd_le. apply Rmult_le_pos; lra.
  - eapply Rle_trans; [|apply (bnd_step _ _ _ n H L)]. apply rnd_le. apply Rmult_le_compat_r; lra.
Qed.

Lemma mul_mono n x y a b w : (n <= top)%nat -> good n x -> good n y -> In (a, b, w) E ->
  rv x <= rv y -> rv (b64_mul x w) <= rv (b64_mul y w).
Proof.
  intros L Gx Gy H R. destruct (mul_ok n x a b w) as [_ ->]; auto. destruct (mul_ok n y a b w) as [_ ->]; auto.
  apply rnd_le. destruct (w_fin _ _ _ H) as [Fw Bw]. apply Rmult_le_compat_r; lra.
Qed.

Definition seen_ge (seen : dict b64) (u : string) (r : R) : Prop :=
  exists x, dget u seen = Some x /\ r <= rv x.

Record labels (n : nat) (dist seen : dict b64) (fringe : list fentry) : Prop := mkLabels {
  L_gseen : forall u x, dget u seen = Some x -> good n x;
  L_gentry : forall d c u, In (d, c, u) fringe -> good n d;
  L_gdist : forall u x, dget u dist = Some x -> good n x;
  L_entry : forall d c u, In (d, c, u) fringe -> seen_ge seen u (rv d);
  L_seen : forall u x, u <> s -> dget u seen = Some x ->
     (exists d c, In (d, c, u) fringe /\ rv d = rv x) \/ (exists y, dget u dist = Some y /\ rv y = rv x);
  L_dist : forall v d, v <> s -> dget v dist = Some d -> seen_ge seen v (rv d);
  L_src : forall d, dget s dist = Some d -> d = fone;
  L_wseen : forall u x, u <> s -> dget u seen = Some x -> fwalk E s u x;
  L_wentry : forall d c u, u <> s -> In (d, c, u) fringe -> fwalk E s u d;
  L_wdist : forall u d, dget u dist = Some d -> fwalk E s u d
}.

Lemma labels_up n m dist seen fringe : (n <= m)%nat -> labels n dist seen fringe -> labels m dist seen fringe.
Proof.
  intros L []. constructor; auto; intros; eapply good_up; eauto.
Qed.

Definition closed (dist seen : dict b64) : Prop :=
  forall v d u w, dget v dist = Some d -> In (v, u, w) E -> seen_ge seen u (rv (b64_mul d w)).

Definition started (dist : dict b64) (fringe : list fentry) : Prop :=
  (exists d, dget s dist = Some d) \/ (exists c, In (fzero, c, s) fringe).

Lemma relax_labels n dist seen fringe c dv u w seen' fringe' c' :
  labels n dist seen fringe -> good n (b64_mul dv w) -> fwalk E s u (b64_mul dv w) ->
  frelax dv (seen, fringe, c) (u, w) = (seen', fringe', c') ->
  labels n dist seen' fringe' /\ (forall k d, seen_ge seen k d -> seen_ge seen' k d) /\
  seen_ge seen' u (rv (b64_mul dv w)) /\ (forall x, In x fringe -> In x fringe').
Proof.
  intros L G W. unfold frelax. set (vu := b64_mul dv w) in *.
  destruct (match dget u seen with Some x => b64_lt x vu | None => true end) eqn:C;
    intros H; injection H as <- <- <-.
  - assert (forall k d, seen_ge seen k d -> seen_ge (dset u vu seen) k d) as Mono.
    { intros k d (x & H1 & H2). unfold seen_ge. rewrite dget_dset.
      destruct (String.eqb_spec k u) as [->|N].
      - exists vu. split; auto. rewrite H1 in C.
        apply lt_iff in C; [lra|eapply L_gseen; eauto|apply G].
      - exists x; auto. }
    assert (seen_ge (dset u vu seen) u (rv vu)) as Here.
    { exists vu. rewrite dget_dset_same. split; auto. lra. }
    split; [|repeat split; auto; simpl; auto].
    destruct L. constructor; auto.
    + intros u0 x. rewrite dget_dset. destruct (String.eqb_spec u0 u) as [->|N]; eauto.
      intros H; inversion H; subst; auto.
    + intros d c0 u0 [H|H]; [inversion H; subst; auto|eauto].
    + intros d c0 u0 [H|H]; [inversion H; subst; auto|eauto].
    + intros u0 x Nu. rewrite dget_dset. destruct (String.eqb_spec u0 u) as [->|N].
      * intros H; inversion H; subst. left. exists vu, c. simpl. split; auto.
      * intros H. destruct (L_seen0 u0 x Nu H) as [(d & c0 & A & B)|]; auto.
        left. exists d, c0. simpl; auto.
    + intros u0 x Nu. rewrite dget_dset. destruct (String.eqb_spec u0 u) as [->|N]; eauto.
      intros H; inversion H; subst; auto.
    + intros d c0 u0 Nu [H|H]; [inversion H; subst; auto|eauto].
  - split; [auto|]. split; [auto|]. split; [|auto].
    destruct (dget u seen) as [x|] eqn:D; [|discriminate]. exists x. split; auto.
    apply lt_false in C; auto; [eapply L_gseen; eauto|apply G].
Qed.

Lemma fold_relax_labels n dist dv l : forall seen fringe c seen' fringe' c',
  labels n dist seen fringe -> (forall u w, In (u, w) l -> good n (b64_mul dv w)) ->
  (forall u w, In (u, w) l -> fwalk E s u (b64_mul dv w)) ->
  fold_left (frelax dv) l (seen, fringe, c) = (seen', fringe', c') ->
  labels n dist seen' fringe' /\ (forall k d, seen_ge seen k d -> seen_ge seen' k d) /\
  (forall u w, In (u, w) l -> seen_ge seen' u (rv (b64_mul dv w))) /\ (forall x, In x fringe -> In x fringe').
Proof.
  induction l as [|[u w] l IH]; intros seen fringe c seen' fringe' c' L G W H.
  - simpl in H. inversion H; subst. split; [auto|]. split; [auto|]. split; [|auto]. intros ? ? [].
  - cbn [fold_left] in H. destruct (frelax dv (seen, fringe, c) (u, w)) as [[s1 f1] c1] eqn:R.
    destruct (relax_labels _ _ _ _ _ _ _ _ _ _ _ L (G u w (or_introl eq_refl)) (W u w (or_introl eq_refl)) R)
      as (L1 & M1 & H1 & F1).
    destruct (IH s1 f1 c1 seen' fringe' c' L1) as (L2 & M2 & H2 & F2); auto.
    { intros u0 w0 Hi; apply (G u0); simpl; auto. } { intros; apply W; simpl; auto. }
    split; [auto|]. split; [auto|]. split; [|auto].
    intros u0 w0 [A|A]; [inversion A; subst|]; auto.
Qed.

Definition inv n dist seen fringe := labels n dist seen fringe /\ closed dist seen /\ started dist fringe.

Lemma good_zero n : good n fzero.
Proof. split; [exact I|]. rewrite fzero_rv. pose proof (bnd_mono 0 n ltac:(lia)). lra. Qed.

Lemma good_one n : good n fone.
Proof. split; [exact fone_fin|]. rewrite fone_rv. pose proof (bnd_mono 0 n ltac:(lia)). lra. Qed.

Lemma inv_init : inv 0 nil [(s, fzero)] [(fzero, 0%nat, s)].
Proof.
  split; [|split].
  - constructor; simpl.
    + intros u x H. destruct (String.eqb_spec u s); inversion H; subst. apply good_zero.
    + intros d c u [H|[]]; inversion H; subst. apply good_zero.
    + discriminate.
    + intros d c u [H|[]]; inversion H; subst. exists fzero. simpl. rewrite String.eqb_refl. split; auto. lra.
    + intros u x N H. destruct (String.eqb_spec u s) as [e|e]; [contradiction|discriminate].
    + discriminate.
    + discriminate.
    + intros u x N H. rewrite (proj2 (String.eqb_neq _ _)) in H; [discriminate|congruence].
    + intros d c u N [H|[]]; inversion H; subst. contradiction.
    + discriminate.
  - intros v d u w H. discriminate.
  - right. exists 0%nat. simpl; auto.
Qed.

Lemma inv_up n m dist seen fringe : (n <= m)%nat -> inv n dist seen fringe -> inv m dist seen fringe.
Proof. intros H (A & B & C). split; [eapply labels_up; eauto|auto]. Qed.

Lemma inv_skip n dist seen fringe d c v fringe' :
  inv n dist seen fringe -> fpop_min fringe = Some ((d, c, v), fringe') ->
  match dget v dist with Some dv => b64_lt d dv | None => false end = true ->
  inv n dist seen fringe'.
Proof.
  intros (L & C & S) P B. apply fpop_some in P. destruct P as [P _].
  destruct (dget v dist) as [dv|] eqn:D; [|discriminate].
  apply lt_iff in B; [|eapply L_gentry; eauto; apply P; auto|eapply L_gdist; eauto].
  split; [|split; auto].
  - destruct L. constructor; auto.
    + intros d0 c0 u0 H. eapply L_gentry0. apply P; eauto.
    + intros d0 c0 u0 H. eapply L_entry0. apply P; eauto.
    + intros u x N H. destruct (L_seen0 u x N H) as [(d0 & c0 & A & Q0)|]; auto.
      apply P in A. destruct A as [A|A]; [|left; eauto].
      inversion A; subst. exfalso.
      destruct (L_dist0 v dv N D) as (y & Y1 & Y2). rewrite H in Y1. inversion Y1; subst. lra.
    + intros d0 c0 u0 N H. eapply L_wentry0; eauto. apply P; eauto.
  - destruct S as [|[c0 A]]; [left; auto|]. apply P in A. destruct A as [A|A].
    + inversion A; subst. left; eauto.
    + right; eauto.
Qed.

Lemma inv_step n dist seen fringe d c v fringe' c1 seen' fringe'' c' :
  (n < top)%nat ->
  inv n dist seen fringe -> fpop_min fringe = Some ((d, c, v), fringe') ->
  match dget v dist with Some dv => b64_lt d dv | None => false end = false ->
  let d' := if String.eqb v s then fone else d in
  fold_left (frelax d') (fsucc g v) (seen, fringe', c1) = (seen', fringe'', c') ->
  inv (S n) (dset v d' dist) seen' fringe''.
Proof.
  intros Ln (L & C & S) P B d' F. apply fpop_some in P. destruct P as [P _].
  assert (good n d) as Gd by (eapply L_gentry; eauto; apply P; auto).
  assert (good n d') as Gd' by (unfold d'; destruct (v =? s)%string; auto using good_one).
  assert (fwalk E s v d') as W.
  { unfold d'. destruct (String.eqb_spec v s) as [->|N]; [constructor|].
    eapply (L_wentry _ _ _ _ L); eauto. apply P; auto. }
  assert (labels n (dset v d' dist) seen fringe') as L1.
  { destruct L. constructor; auto.
    - intros d0 c0 u0 H. eapply L_gentry0. apply P; eauto.
    - intros u x. rewrite dget_dset. destruct (String.eqb_spec u v) as [->|Nv]; eauto.
      intros H; inversion H; subst; auto.
    - intros d0 c0 u0 H. eapply L_entry0. apply P; eauto.
    - intros u x N H. rewrite dget_dset. destruct (String.eqb_spec u v) as [->|Nv].
      + destruct (L_seen0 v x N H) as [(d0 & c0 & A & Q0)|(y & Y1 & Y2)].
        * apply P in A. destruct A as [A|A]; [|left; eauto]. injection A as -> ->.
          right. exists d'. split; auto. unfold d'. rewrite (proj2 (String.eqb_neq _ _)); auto.
        * right. exists d'. split; auto. unfold d'. rewrite (proj2 (String.eqb_neq _ _)) by auto.
          rewrite Y1 in B. apply lt_false in B; [|apply Gd|eapply L_gdist0; eauto].
          destruct (L_entry0 d c v) as (z & Z1 & Z2); [apply P; auto|].
          rewrite H in Z1. inversion Z1; subst. lra.
      + destruct (L_seen0 u x N H) as [(d0 & c0 & A & Q0)|]; auto.
        apply P in A. destruct A as [A|A]; [inversion A; subst; contradiction|left; eauto].
    - intros u x N. rewrite dget_dset. destruct (String.eqb_spec u v) as [->|Nv]; eauto.
      intros H; inversion H; subst. unfold d'. rewrite (proj2 (String.eqb_neq _ _)) by auto.
      apply L_entry0 with c. apply P; auto.
    - intros x. rewrite dget_dset. destruct (String.eqb_spec s v) as [<-|Nv]; eauto.
      intros H; inversion H; subst. unfold d'. now rewrite ?String.eqb_refl.
    - intros d0 c0 u0 N H. eapply L_wentry0; eauto. apply P; eauto.
    - intros u x. rewrite dget_dset. destruct (String.eqb_spec u v) as [->|Nv]; eauto.
      intros H; inversion H; subst; auto. }
  assert (forall u w, In (u, w) (fsucc g v) -> fwalk E s u (b64_mul d' w)) as Ws.
  { intros u w Hu. econstructor; eauto. now apply fsucc_in. }
  assert (forall u w, In (u, w) (fsucc g v) -> good (Datatypes.S n) (b64_mul d' w)) as Gs.
  { intros u w Hu. eapply mul_good; eauto. apply fsucc_in; eauto. }
  assert (labels (Datatypes.S n) (dset v d' dist) seen fringe') as L1' by (eapply labels_up; [|exact L1]; lia).
  destruct (fold_relax_labels _ _ _ _ _ _ _ _ _ _ L1' Gs Ws F) as (L2 & M2 & H2 & F2).
  split; [auto|]. split.
  - intros v0 d0 u w H Ed. rewrite dget_dset in H. destruct (String.eqb_spec v0 v) as [->|N].
    + inversion H; subst. apply H2. now apply fsucc_in.
    + apply M2. eapply C; eauto.
  - unfold started.
    destruct (String.eqb_spec v s) as [->|N].
    + left. exists d'. now rewrite dget_dset_same.
    + destruct S as [[x Hx]|[c0 A]].
      * left. exists x. now rewrite dget_dset_other.
      * apply P in A. destruct A as [A|A]; [inversion A; subst; contradiction|].
        right. exists c0. auto.
Qed.

(** When the loop ends, the labels are closed under the edges. *)
Definition final (dist : dict b64) : Prop :=
  dget s dist = Some fone /\
  (forall v d u w, dget v dist = Some d -> In (v, u, w) E -> u <> s -> seen_ge dist u (rv (b64_mul d w))) /\
  (forall v d, dget v dist = Some d -> fwalk E s v d) /\
  (forall v d, dget v dist = Some d -> good top d).

Lemma inv_final n dist seen : (n <= top)%nat -> inv n dist seen nil -> final dist.
Proof.
  intros Ln (L & C & S). destruct L. split; [|split; [|split]]; auto.
  - destruct S as [[d H]|[c []]]. rewrite H. f_equal. eauto.
  - intros v d u w H Ed N. destruct (C v d u w H Ed) as (x & X1 & X2).
    destruct (L_seen0 u x N X1) as [(? & ? & [] & _)|(y & Y1 & Y2)].
    exists y. split; auto. lra.
  - intros v d H. eapply good_up; [exact Ln|eauto].
Qed.

Lemma fdij_partial : forall fuel n dist seen fringe c r,
  (n + fuel <= top)%nat ->
  inv n dist seen fringe -> fdij_loop fuel g s dist seen fringe c = Ok r -> final r.
Proof.
  induction fuel; intros n dist seen fringe c r Ln I H; cbn [fdij_loop] in H.
  - destruct (fpop_min fringe) as [[[[d c0] v] f']|] eqn:P; [discriminate|].
    apply fpop_none in P. subst. inversion H; subst. apply (inv_final n r seen); [lia|exact I].
  - destruct (fpop_min fringe) as [[[[d c0] v] f']|] eqn:P.
    + destruct (match dget v dist with Some dv => b64_lt d dv | None => false end) eqn:B.
      * eapply IHfuel with (n := S n); [lia| |exact H]. eapply inv_up with (n := n); [lia|]. eapply inv_skip; eauto.
      * destruct (str_in v (fg_nodes g)); [|discriminate].
        destruct (fold_left (frelax (if (v =? s)%string then fone else d)) (fsucc g v) (seen, f', c))
          as [[s1 f1] c1] eqn:F.
        eapply IHfuel with (n := S n); [lia| |exact H]. eapply inv_step; eauto. lia.
    + apply fpop_none in P. subst. inversion H; subst. apply (inv_final n r seen); [lia|exact I].
Qed.

Lemma fss_partial fuel r : (fuel <= top)%nat -> fss_dijkstra fuel g s = Ok r -> final r.
Proof. intros L. apply fdij_partial with (n := 0%nat); [lia|]. apply inv_init. Qed.

(** The search only fails with KeyError when the source is not a node. *)
Definition known (fringe : list fentry) := forall d c u, In (d, c, u) fringe -> In u (fg_nodes g).

Lemma relax_known dv seen fringe c u w seen' fringe' c' :
  known fringe -> In u (fg_nodes g) ->
  frelax dv (seen, fringe, c) (u, w) = (seen', fringe', c') -> known fringe'.
Proof.
  unfold frelax. intros K Hu.
  destruct (match dget u seen with Some x => b64_lt x (b64_mul dv w) | None => true end);
    intros H; injection H as <- <- <-; auto.
  intros d c0 u0 [A|A]; [inversion A; subst; auto|eapply K; eauto].
Qed.

Lemma fold_relax_known dv l : forall seen fringe c seen' fringe' c',
  known fringe -> (forall u w, In (u, w) l -> In u (fg_nodes g)) ->
  fold_left (frelax dv) l (seen, fringe, c) = (seen', fringe', c') -> known fringe'.
Proof.
  induction l as [|[u w] l IH]; intros seen fringe c seen' fringe' c' K W H.
  - simpl in H. inversion H; subst; auto.
  - cbn [fold_left] in H. destruct (frelax dv (seen, fringe, c) (u, w)) as [[s1 f1] c1] eqn:R.
    eapply IH; [| |exact H].
    + eapply relax_known; eauto. eapply W; simpl; eauto.
    + intros; eapply W; simpl; eauto.
Qed.

Hypothesis EW : fedges_within (fg_nodes g) E.

Lemma fdij_no_raise : forall fuel dist seen fringe c e,
  known fringe -> fdij_loop fuel g s dist seen fringe c <> Raise e.
Proof.
  induction fuel; intros dist seen fringe c e K H; cbn [fdij_loop] in H.
  - destruct (fpop_min fringe) as [[[[d c0] v] f']|] eqn:P; discriminate.
  - destruct (fpop_min fringe) as [[[[d c0] v] f']|] eqn:P; [|discriminate].
    apply fpop_some in P. destruct P as [P _].
    assert (known f') as K'. { intros d0 c1 u0 A. eapply K. apply P; eauto. }
    destruct (match dget v dist with Some dv => b64_lt d dv | None => false end) eqn:B.
    + eapply IHfuel; eauto.
    + assert (In v (fg_nodes g)) as Hv. { eapply K. apply P; eauto. }
      apply str_in_iff in Hv. rewrite Hv in H.
      destruct (fold_left (frelax (if (v =? s)%string then fone else d)) (fsucc g v) (seen, f', c))
          as [[s1 f1] c1] eqn:F.
      eapply IHfuel; [|exact H]. eapply fold_relax_known; eauto.
      intros u w Hu. apply fsucc_in in Hu. now apply EW in Hu.
Qed.
End Dij.

(** ** Termination with weights in [0,1] *)

Lemma unit_rv x : unit_b64 x <-> fin x /\ 0 <= rv x <= 1.
Proof.
  unfold unit_b64, rv. assert (Q2R 0 = 0 /\ Q2R 1 = 1) as [Z O] by (unfold Q2R; simpl; lra).
  split; intros [F [A B]]; split; auto; split.
  - apply Qle_Rle in A. lra.
  - apply Qle_Rle in B. lra.
  - apply Rle_Qle. lra.
  - apply Rle_Qle. lra.
Qed.

Section Unit.
Variable g : fgraph.
Variable s : string.
Let E := fg_edges g.
Hypothesis EW : fedges_within (fg_nodes g) E.
Hypothesis U : unit_fweights E.
Hypothesis Hs : In s (fg_nodes g).

Notation one := (fun _ : nat => 1%R).
Notation ok := (fun x => unit_b64 x).

Lemma one_one : 1 <= one 0%nat. Proof. lra. Qed.
Lemma one_up n : one n <= one (S n). Proof. lra. Qed.
Lemma one_big t n : (n <= t)%nat -> one n <= bpow radix2 900.
Proof. intros _. change 1 with (bpow radix2 0). apply bpow_le. lia. Qed.
Lemma unit_w a b w : In (a, b, w) E -> fin w /\ 0 <= rv w <= 2.
Proof. intros H. apply U in H. apply unit_rv in H. destruct H as [F B]. split; auto. lra. Qed.
Lemma one_step t a b w n : In (a, b, w) E -> (n < t)%nat -> rnd (one n * rv w) <= one (S n).
Proof.
  intros H _. apply U in H. apply unit_rv in H. destruct H as [F B].
  pose proof (rnd_bounds (1 * rv w) 0 ltac:(lia)) as R. simpl in R. apply R. lra.
Qed.

Lemma mul_unit x a b w : unit_b64 x -> In (a, b, w) E ->
  unit_b64 (b64_mul x w) /\ rv (b64_mul x w) <= rv x /\ rv (b64_mul x w) = rnd (rv x * rv w).
Proof.
  intros Ux H. pose proof Ux as Ux'. apply unit_rv in Ux. destruct Ux as [Fx Bx].
  pose proof (U _ _ _ H) as Uw. apply unit_rv in Uw. destruct Uw as [Fw Bw].
  destruct (fin_mul x w Fx Fw) as [F V].
  { rewrite Rabs_pos_eq by (apply Rmult_le_pos; lra). apply Rle_trans with (1 * 1); [apply Rmult_le_compat; lra|].
    rewrite Rmult_1_l. change 1 with (bpow radix2 0). apply bpow_le. lia. }
  assert (0 <= rv x * rv w <= rv x) as B by (split; [apply Rmult_le_pos; lra|nra]).
  assert (rnd (rv x * rv w) <= rv x) as B2.
  { rewrite <- (rnd_id (rv x)) at 2 by now apply fin_format. apply rnd_le. lra. }
  assert (0 <= rnd (rv x * rv w)) as B1.
  { rewrite <- (rnd_id 0) by apply generic_format_0. apply rnd_le. lra. }
  rewrite V. split; [apply unit_rv; rewrite V; split; auto; lra|auto].
Qed.

Lemma fwalk_unit v p : fwalk E s v p -> unit_b64 p.
Proof.
  induction 1.
  - apply unit_rv. change (b64_of_Z 1) with fone. rewrite fone_rv. split; [exact fone_fin|lra].
  - eapply mul_unit; eauto.
Qed.

Inductive spath : string -> b64 -> list string -> Prop :=
| sp_src : spath s fone [s]
| sp_step v p l u w : spath v p l -> In (v, u, w) E -> ~ In u l -> spath u (b64_mul p w) (u :: l).

Lemma spath_walk v p l : spath v p l -> fwalk E s v p.
Proof. induction 1; econstructor; eauto. Qed.

Lemma spath_nodup v p l : spath v p l -> NoDup l.
Proof. induction 1; constructor; auto. constructor. Qed.

Lemma spath_in v p l : spath v p l -> incl l (fg_nodes g).
Proof.
  induction 1; intros x.
  - intros [<-|[]]; auto.
  - intros [<-|Hx]; auto. now apply EW in H0.
Qed.

Lemma spath_last v p l : spath v p l -> In v l.
Proof. destruct 1; simpl; auto. Qed.

Fixpoint walks (k : nat) : list (string * b64) :=
  match k with
  | O => [(s, fone)]
  | S k => flat_map (fun vp => map (fun uw => (fst uw, b64_mul (snd vp) (snd uw))) (fsucc g (fst vp))) (walks k)
  end.

Definition values : list b64 :=
  flat_map (fun k => map snd (walks k)) (seq 0 (S (length (fg_nodes g)))).

Lemma walks_step k v p u w : In (v, p) (walks k) -> In (v, u, w) E -> In (u, b64_mul p w) (walks (S k)).
Proof.
  intros H1 H2. simpl. apply in_flat_map. exists (v, p). split; auto. apply in_map_iff.
  exists (u, w). split; auto. now apply fsucc_in.
Qed.

Lemma walks_walk k : forall v p, In (v, p) (walks k) -> fwalk E s v p.
Proof.
  induction k as [|k IH]; intros v p H.
  - destruct H as [H|[]]. inversion H; subst. constructor.
  - simpl in H. apply in_flat_map in H. destruct H as ([v' p'] & H1 & H2). apply in_map_iff in H2.
    destruct H2 as ([u w] & H2 & H3). simpl in *. inversion H2; subst. apply fsucc_in in H3.
    econstructor; eauto.
Qed.

Lemma values_fin x : In x values -> fin x.
Proof.
  intros H. apply in_flat_map in H. destruct H as (k & _ & H). apply in_map_iff in H.
  destruct H as ([v p] & <- & H). apply walks_walk in H. apply fwalk_unit in H. apply H.
Qed.

Lemma spath_walks v p l : spath v p l -> In (v, p) (walks (Nat.pred (length l))).
Proof.
  induction 1; simpl; auto. pose proof (spath_last _ _ _ H).
  destruct l as [|y l]; [destruct H2|]. apply (walks_step (length l) v p u w); auto.
Qed.

Lemma spath_value v p l u w : spath v p l -> In (v, u, w) E -> In (b64_mul p w) values.
Proof.
  intros H Ed. pose proof (spath_walks _ _ _ H) as W.
  pose proof (NoDup_incl_length (spath_nodup _ _ _ H) (spath_in _ _ _ H)) as Len.
  pose proof (spath_last _ _ _ H) as La.
  pose proof (walks_step _ _ _ _ _ W Ed) as W'.
  unfold values. apply in_flat_map. exists (S (Nat.pred (length l))). split.
  - apply in_seq. destruct l; [destruct La|]. simpl in *. lia.
  - apply in_map_iff. exists (u, b64_mul p w). auto.
Qed.

Definition tracked (seen : dict b64) (l : list string) (r : R) : Prop :=
  forall y, In y l -> y <> s -> seen_ge seen y r.

Definition labelled (seen : dict b64) (u : string) (x : b64) : Prop :=
  exists l, spath u x l /\ tracked seen l (rv x).

Definition mono (seen seen' : dict b64) : Prop := forall k d, seen_ge seen k d -> seen_ge seen' k d.

Lemma labelled_mono seen seen' u x : mono seen seen' -> labelled seen u x -> labelled seen' u x.
Proof. intros M (l & H1 & H2). exists l. split; auto. intros y Hy N. apply M. auto. Qed.

Record plabels (seen : dict b64) (fringe : list fentry) : Prop := mkPlabels {
  P_entry : forall d c u, u <> s -> In (d, c, u) fringe -> labelled seen u d;
  P_seen : forall u x, dget u seen = Some x -> fin x
}.

Definition rank (seen : dict b64) (u : string) : nat :=
  match dget u seen with
  | None => S (length values)
  | Some x => length (filter (fun y => b64_lt x y) values)
  end.

Definition total (seen : dict b64) (l : list string) : nat :=
  fold_right (fun u n => (rank seen u + n)%nat) 0%nat l.

Lemma rank_drop seen u x : In x values ->
  match dget u seen with None => True | Some y => fin y /\ rv y < rv x end ->
  (S (rank (dset u x seen) u) <= rank seen u)%nat.
Proof.
  intros V H. unfold rank. rewrite dget_dset_same. destruct (dget u seen) as [y|].
  - destruct H as [Fy H]. apply filter_length_lt with x; auto.
    + intros z Hz Lz. apply lt_iff in Lz; auto using values_fin. apply lt_iff; auto using values_fin. lra.
    + apply lt_false; auto using values_fin. lra.
    + apply lt_iff; auto using values_fin.
  - pose proof (filter_len (fun y => b64_lt x y) values). lia.
Qed.

Lemma rank_other seen u x k : k <> u -> rank (dset u x seen) k = rank seen k.
Proof. intros N. unfold rank. rewrite dget_dset_other; auto. Qed.

Lemma total_le seen u x l : In x values ->
  match dget u seen with None => True | Some y => fin y /\ rv y < rv x end ->
  (total (dset u x seen) l <= total seen l)%nat.
Proof.
  intros V H. induction l as [|a l IH]; simpl; auto. destruct (string_dec a u) as [->|N].
  - pose proof (rank_drop seen u x V H). lia.
  - rewrite rank_other by auto. lia.
Qed.

Lemma total_drop seen u x l : In u l -> In x values ->
  match dget u seen with None => True | Some y => fin y /\ rv y < rv x end ->
  (S (total (dset u x seen) l) <= total seen l)%nat.
Proof.
  intros Hu V H. induction l as [|a l IH]; simpl; [destruct Hu|].
  destruct (string_dec a u) as [->|N].
  - pose proof (rank_drop seen u x V H). pose proof (total_le seen u x l V H). lia.
  - destruct Hu as [|Hu]; [contradiction|]. rewrite rank_other by auto. specialize (IH Hu). lia.
Qed.

Lemma relax_measure seen fringe c v dv u w seen' fringe' c' :
  plabels seen fringe -> labelled seen v dv -> In (v, u, w) E ->
  frelax dv (seen, fringe, c) (u, w) = (seen', fringe', c') ->
  plabels seen' fringe' /\ mono seen seen' /\
  (total seen' (fg_nodes g) + length fringe' <= total seen (fg_nodes g) + length fringe)%nat.
Proof.
  intros L (l & SP & T) Ed. unfold frelax.
  pose proof (fwalk_unit _ _ (spath_walk _ _ _ SP)) as Udv.
  destruct (mul_unit dv v u w Udv Ed) as (Uvu & Lvu & _). set (vu := b64_mul dv w) in *.
  pose proof (proj1 Uvu) as Fvu.
  destruct (match dget u seen with Some x => b64_lt x vu | None => true end) eqn:C;
    intros H; injection H as <- <- <-.
  - assert (match dget u seen with None => True | Some y => fin y /\ rv y < rv vu end) as C'.
    { destruct (dget u seen) as [y|] eqn:D; auto. pose proof (P_seen _ _ L u y D) as Fy. split; auto.
      now apply lt_iff in C. }
    assert (mono seen (dset u vu seen)) as Mono.
    { intros k d (x & H1 & H2). unfold seen_ge. rewrite dget_dset.
      destruct (String.eqb_spec k u) as [->|N].
      - exists vu. split; auto. rewrite H1 in C'. destruct C'. lra.
      - exists x; auto. }
    split; [|split; auto].
    + constructor.
      * intros d c0 u0 N [A|A].
        -- inversion A; subst.
           assert (~ In u0 l) as NI.
           { intros I. destruct (T u0 I N) as (x & X1 & X2). rewrite X1 in C'. destruct C'. lra. }
           exists (u0 :: l). split; [econstructor; eauto|].
           intros y [<-|Hy] Ny.
           ++ exists vu. rewrite dget_dset_same. split; auto. lra.
           ++ apply Mono. destruct (T y Hy Ny) as (x & X1 & X2). exists x. split; auto. lra.
        -- eapply labelled_mono; eauto. eapply (P_entry _ _ L); eauto.
      * intros u0 x. rewrite dget_dset. destruct (String.eqb_spec u0 u) as [->|N].
        -- intros H; inversion H; subst; auto.
        -- apply (P_seen _ _ L).
    + cbn [length]. assert (S (total (dset u vu seen) (fg_nodes g)) <= total seen (fg_nodes g))%nat; [|lia].
      apply total_drop; auto.
      * now apply EW in Ed.
      * eapply spath_value; eauto.
  - split; [auto|]. split; [|auto]. intros k d; auto.
Qed.

Lemma fold_relax_measure v dv l : forall seen fringe c seen' fringe' c',
  plabels seen fringe -> labelled seen v dv -> (forall u w, In (u, w) l -> In (v, u, w) E) ->
  fold_left (frelax dv) l (seen, fringe, c) = (seen', fringe', c') ->
  plabels seen' fringe' /\
  (total seen' (fg_nodes g) + length fringe' <= total seen (fg_nodes g) + length fringe)%nat.
Proof.
  induction l as [|[u w] l IH]; intros seen fringe c seen' fringe' c' L W Ed H.
  - simpl in H. inversion H; subst. split; auto.
  - cbn [fold_left] in H. destruct (frelax dv (seen, fringe, c) (u, w)) as [[s1 f1] c1] eqn:R.
    destruct (relax_measure _ _ _ _ _ _ _ _ _ _ L W (Ed u w (or_introl eq_refl)) R) as (L1 & M1 & D1).
    destruct (IH s1 f1 c1 seen' fringe' c') as (L2 & D2); auto.
    { eapply labelled_mono; eauto. }
    { intros; apply Ed; simpl; auto. }
    split; auto. lia.
Qed.

Lemma fdij_total : forall fuel dist seen fringe c,
  known g fringe -> plabels seen fringe ->
  (total seen (fg_nodes g) + length fringe <= fuel)%nat ->
  exists r, fdij_loop fuel g s dist seen fringe c = Ok r.
Proof.
  induction fuel; intros dist seen fringe c K L F; cbn [fdij_loop].
  - destruct fringe; [|cbn [length] in F; lia]. simpl. eauto.
  - destruct (fpop_min fringe) as [[[[d c0] v] f']|] eqn:P; [|eauto].
    apply fpop_some in P. destruct P as [P Len].
    assert (known g f') as K'. { intros d0 c1 u0 A. eapply K. apply P; eauto. }
    assert (plabels seen f') as L'.
    { constructor; [|apply (P_seen _ _ L)]. intros d0 c1 u0 N A. eapply (P_entry _ _ L); eauto. apply P; eauto. }
    destruct (match dget v dist with Some dv => b64_lt d dv | None => false end) eqn:B.
    + apply IHfuel; auto. lia.
    + assert (In v (fg_nodes g)) as Hv. { eapply K. apply P; eauto. }
      apply str_in_iff in Hv. rewrite Hv.
      destruct (fold_left (frelax (if (v =? s)%string then fone else d)) (fsucc g v) (seen, f', c))
          as [[s1 f1] c1] eqn:Fo.
      assert (labelled seen v (if (v =? s)%string then fone else d)) as Lv.
      { destruct (String.eqb_spec v s) as [->|N].
        - exists [s]. split; [constructor|]. intros y [<-|[]] Ny; contradiction.
        - eapply (P_entry _ _ L); eauto. apply P; eauto. }
      assert (forall u w, In (u, w) (fsucc g v) -> In (v, u, w) E) as Es.
      { intros u w Hu. now apply fsucc_in. }
      destruct (fold_relax_measure _ _ _ _ _ _ _ _ _ L' Lv Es Fo) as (L1 & D1).
      apply IHfuel; [|auto|lia].
      eapply fold_relax_known; [exact K'| |exact Fo].
      intros u w Hu. apply fsucc_in in Hu. now apply EW in Hu.
Qed.

Lemma fss_total fuel : (total [(s, fzero)] (fg_nodes g) + 1 <= fuel)%nat ->
  exists r, fss_dijkstra fuel g s = Ok r.
Proof.
  intros F. apply fdij_total; auto.
  - intros d c0 u [A|[]]. inversion A; subst; auto.
  - constructor.
    + intros d c u N [A|[]]. inversion A; subst. contradiction.
    + intros u x H. simpl in H. destruct (String.eqb_spec u s); inversion H; subst. exact I.
Qed.

Lemma final_max t r : final g s one t r -> forall v p, fwalk E s v p -> seen_ge r v (rv p).
Proof.
  intros (F1 & F2 & F3 & F4) v p W. induction W.
  - exists fone. split; [auto|]. change (b64_of_Z 1) with fone. lra.
  - destruct IHW as (d & D1 & D2). destruct (string_dec x s) as [->|N].
    + exists fone. split; [auto|]. rewrite fone_rv.
      assert (unit_b64 (b64_mul p w)) as X by (eapply fwalk_unit; econstructor; eauto).
      apply unit_rv in X. lra.
    + destruct (F2 v d x w D1 H N) as (y & Y1 & Y2). exists y. split; auto.
      eapply Rle_trans; [|exact Y2].
      pose proof (fwalk_unit _ _ W) as Up. destruct (mul_unit p v x w Up H) as (_ & _ & ->).
      pose proof (fwalk_unit _ _ (F3 v d D1)) as Ud. destruct (mul_unit d v x w Ud H) as (_ & _ & ->).
      pose proof (U _ _ _ H) as Uw. apply unit_rv in Uw. apply rnd_le. apply Rmult_le_compat_r; lra.
Qed.
End Unit.

Lemma fdij_more : forall f k g s dist seen fringe c r,
  fdij_loop f g s dist seen fringe c = Ok r ->
  fdij_loop (f + k) g s dist seen fringe c = Ok r.
Proof.
  induction f; intros k g s dist seen fringe c r H.
  - cbn [fdij_loop] in H. destruct (fpop_min fringe) as [[[[d c0] v] f']|] eqn:P; [discriminate|].
    destruct k; simpl; rewrite P; auto.
  - cbn [fdij_loop Nat.add] in *. destruct (fpop_min fringe) as [[[[d c0] v] f']|] eqn:P; auto.
    destruct (match dget v dist with Some dv => b64_lt d dv | None => false end); auto.
    destruct (str_in v (fg_nodes g)); auto.
    destruct (fold_left (frelax (if (v =? s)%string then fone else d)) (fsucc g v) (seen, f', c))
      as [[s1 f1] c1]. auto.
Qed.

Lemma fss_more f f' g s r : (f <= f')%nat -> fss_dijkstra f g s = Ok r -> fss_dijkstra f' g s = Ok r.
Proof.
  intros L H. replace f' with (f + (f' - f))%nat by lia. now apply fdij_more.
Qed.

Lemma float_dijkstra_correct g s :
  In s (fg_nodes g) -> fedges_within (fg_nodes g) (fg_edges g) -> unit_fweights (fg_edges g) ->
  exists r N, (forall fuel, (N <= fuel)%nat -> fss_dijkstra fuel g s = Ok r) /\
    dget s r = Some (b64_of_Z 1) /\
    (forall v m, dget v r = Some m -> is_max_fproduct (fg_edges g) s v m) /\
    (forall v, (exists m, dget v r = Some m) <-> (exists p, fwalk (fg_edges g) s v p)).
Proof.
  intros Hs EW U. set (N := (total g s [(s, fzero)] (fg_nodes g) + 1)%nat).
  destruct (fss_total g s EW U Hs N) as [r R]; [unfold N; lia|].
  exists r, N.
  pose proof (fss_partial g s (fun _ => 1) N (one_one) (one_up) (one_big N) (unit_w g U) (one_step g U N) N r (le_n _) R) as F.
  pose proof (final_max g s U N r F) as FM. destruct F as (F1 & F2 & F3 & F4).
  split; [intros; eapply fss_more; eauto|]. split; auto. split.
  - intros v m H. split; auto.
    intros p W. destruct (FM v p W) as (x & X1 & X2). rewrite H in X1. inversion X1; subst; auto.
    apply le_iff; auto; [apply (fwalk_unit g s U v p W)|apply (F4 v x H)].
  - intros v. split.
    + intros [m H]. exists m. auto.
    + intros [p W]. destruct (FM v p W) as (x & X1 & X2). eauto.
Qed.
