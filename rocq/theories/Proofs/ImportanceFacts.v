(** DRGEP overall importance coefficients. *)
From Coq Require Import String List QArith Bool Arith Lia Lqa.
From Verif.Base Require Import Py Num.
From Verif.Model Require Import Graph.
From Verif.Spec Require Import GraphSpec.
From Verif.Proofs Require Import PyFacts NumFacts DfsFacts DijkstraFacts.
Import ListNotations.
Local Open Scope Q_scope.

Lemma dij_loop_nodup : forall fuel g s cut dist seen fringe c r,
  NoDup (dkeys dist) -> dij_loop fuel g s cut dist seen fringe c = Ok r -> NoDup (dkeys r).
Proof.
  induction fuel; intros g s cut dist seen fringe c r ND H; cbn [dij_loop] in H.
  - destruct (pop_min fringe) as [[[[d c0] v] f']|]; [discriminate|]. now inversion H; subst.
  - destruct (pop_min fringe) as [[[[d c0] v] f']|]; [|now inversion H; subst].
    destruct (match dget v dist with Some dv => Qlt_bool d dv | None => false end); [eauto|].
    destruct (str_in v (g_nodes g)); [|discriminate].
    destruct (fold_left (relax cut (if (v =? s)%string then 1 else d)) (succ g v) (seen, f', c))
      as [[s1 f1] c1]. eapply IHfuel; [|exact H]. now apply dset_nodup.
Qed.

Lemma ss_dijkstra_nodup fuel g s cut r : ss_dijkstra fuel g s cut = Ok r -> NoDup (dkeys r).
Proof. apply dij_loop_nodup. constructor. Qed.

Lemma pymax_spec a b : (pymax a b == a \/ pymax a b == b) /\ a <= pymax a b /\ b <= pymax a b.
Proof.
  unfold pymax. destruct (Qlt_bool a b) eqn:E.
  - apply Qlt_bool_iff in E. split; [right; reflexivity|lra].
  - apply Qlt_bool_false in E. split; [left; reflexivity|lra].
Qed.

Definition merge (o : dict Q) (spv : string * Q) :=
  dset (fst spv) (pymax (dget_or (fst spv) 0 o) (snd spv)) o.

Lemma merge_fold l : NoDup (dkeys l) -> forall o k,
  dget k (fold_left merge l o) =
  match dget k l with
  | None => dget k o
  | Some v => Some (pymax (dget_or k 0 o) v)
  end.
Proof.
  induction l as [|[a v] l IH]; intros ND o k; auto. simpl in ND. inversion ND; subst.
  cbn [fold_left]. rewrite IH by auto. simpl. destruct (String.eqb_spec k a) as [->|N].
  - assert (dget a l = None) as -> by now apply dget_none. unfold merge. simpl. now rewrite dget_dset_same.
  - unfold merge, dget_or. simpl. rewrite dget_dset_other by congruence. reflexivity.
Qed.

(** [o] holds the best product over the targets [ts]. *)
Definition best (E : list (string * string * Q)) (ts : list string) (o : dict Q) : Prop :=
  (forall t k p, In t ts -> walk E t k p -> exists m, dget k o = Some m /\ p <= m) /\
  (forall k m, dget k o = Some m -> exists t p, In t ts /\ walk E t k p /\ p == m).

Lemma dset_same_value s v (d : dict Q) k : dget s d = Some v -> dget k (dset s v d) = dget k d.
Proof. intros H. rewrite dget_dset. destruct (String.eqb_spec k s); subst; auto. Qed.

Lemma graph_search_drgep_spec g :
  edges_within (g_nodes g) (g_edges g) -> unit_weights (g_edges g) ->
  forall ts done o, incl ts (g_nodes g) -> best (g_edges g) done o ->
  exists r N, (forall fuel, (N <= fuel)%nat -> graph_search_drgep fuel g ts o = Ok r) /\
    best (g_edges g) (done ++ ts) r.
Proof.
  intros EW U. induction ts as [|t ts IH]; intros done o I B.
  - exists o, 0%nat. split; auto. now rewrite app_nil_r.
  - destruct (dijkstra_correct g t) as (d & N1 & R1 & S1 & M1 & K1); auto.
    { apply I; simpl; auto. }
    assert (NoDup (dkeys d)) as NDd by (eapply ss_dijkstra_nodup; apply (R1 N1); auto).
    set (o' := fold_left merge (dset t 1 d) o).
    assert (forall k, dget k o' = match dget k d with None => dget k o | Some v => Some (pymax (dget_or k 0 o) v) end) as HO.
    { intros k. unfold o'. rewrite merge_fold by now apply dset_nodup. now rewrite dset_same_value. }
    assert (best (g_edges g) (done ++ [t]) o') as B'.
    { destruct B as [B1 B2]. split.
      - intros t' k p Ht W. rewrite HO. apply in_app_iff in Ht. destruct Ht as [Ht|[<-|[]]].
        + destruct (B1 t' k p Ht W) as (m & X1 & X2). unfold dget_or. rewrite X1.
          destruct (dget k d) as [v|]; [|exists m; auto].
          eexists; split; [reflexivity|]. destruct (pymax_spec m v) as (_ & A & _). lra.
        + destruct (proj2 (K1 k)) as [v Hv]; [eauto|]. rewrite Hv.
          eexists; split; [reflexivity|]. destruct (M1 k v Hv) as [_ Mx]. pose proof (Mx p W).
          destruct (pymax_spec (dget_or k 0 o) v) as (_ & _ & A). lra.
      - intros k m. rewrite HO. destruct (dget k d) as [v|] eqn:Dk.
        + intros H. inversion H; subst m; clear H. destruct (M1 k v Dk) as [(p & W & Hp) _].
          pose proof (walk_unit g t U k p W) as [P0 _].
          destruct (pymax_spec (dget_or k 0 o) v) as ([A|A] & A1 & A2).
          * unfold dget_or in *. destruct (dget k o) as [x|] eqn:Ok.
            -- destruct (B2 k x Ok) as (t' & p' & T1 & T2 & T3). exists t', p'.
               split; [apply in_app_iff; auto|]. split; auto. lra.
            -- exists t, p. split; [apply in_app_iff; simpl; auto|]. split; auto. lra.
          * exists t, p. split; [apply in_app_iff; simpl; auto|]. split; auto. lra.
        + intros H. destruct (B2 k m H) as (t' & p' & T1 & T2 & T3). exists t', p'.
          split; [apply in_app_iff; auto|]. auto. }
    destruct (IH (done ++ [t]) o') as (r & N2 & R2 & B2); auto.
    { intros x Hx; apply I; simpl; auto. }
    exists r, (N1 + N2)%nat. split.
    + intros fuel F. simpl. rewrite (R1 fuel) by lia. simpl. apply R2. lia.
    + rewrite <- app_assoc in B2. exact B2.
Qed.

Lemma chain_walk names M t x p : In t names ->
  walk (g_edges (graph_of names M)) t x p <-> chain names M t x p.
Proof.
  intros Ht. split.
  - induction 1; [now constructor|]. apply graph_of_edges in H0. destruct H0. econstructor; eauto.
  - induction 1; [constructor|]. econstructor; eauto. now apply graph_of_edges.
Qed.

Lemma graph_of_within names M : edges_within (g_nodes (graph_of names M)) (g_edges (graph_of names M)).
Proof.
  intros a b w H. apply graph_of_edges in H. destruct H as [(i & j & H1 & H2 & _) _]. simpl.
  split; eapply nth_error_In; eauto.
Qed.

Lemma graph_of_unit names M : unit_matrix (length names) M -> unit_weights (g_edges (graph_of names M)).
Proof.
  intros U a b w H. apply graph_of_edges in H. destruct H as [(i & j & H1 & H2 & <-) _].
  apply U; apply nth_error_Some; congruence.
Qed.

Lemma dget_map_pairs (f : string -> Q -> Q) (d : dict Q) k :
  dget k (map (fun spv => (fst spv, f (fst spv) (snd spv))) d) =
  match dget k d with Some v => Some (f k v) | None => None end.
Proof.
  induction d as [|[a v] d IH]; simpl; auto. destruct (String.eqb_spec k a); subst; auto.
Qed.

Lemma chain_bounds names M t k p : unit_matrix (length names) M -> chain names M t k p ->
  0 <= p <= 1.
Proof.
  intros U C. induction C; [lra|]. destruct H as (i & j & H1 & H2 & <-).
  assert (0 <= mget M i j <= 1). { apply U; apply nth_error_Some; congruence. }
  split; nra.
Qed.

Lemma importance_loop_spec names targets :
  incl targets names ->
  forall Ms done imp, (forall M, In M Ms -> unit_matrix (length names) M) ->
  (forall M, In M done -> unit_matrix (length names) M) ->
  (forall k m, dget k imp = Some m -> is_importance names targets done k m) ->
  exists r N, (forall fuel, (N <= fuel)%nat -> importance_loop fuel names targets Ms imp = Ok r) /\
    dkeys r = dkeys imp /\
    (forall k m, dget k r = Some m -> is_importance names targets (done ++ Ms) k m).
Proof.
  intros I. induction Ms as [|M Ms IH]; intros done imp U Ud B.
  - exists imp, 0%nat. split; [auto|]. split; auto. now rewrite app_nil_r.
  - destruct (graph_search_drgep_spec (graph_of names M)) with (ts := targets) (done := @nil string) (o := @nil (string * Q))
      as (co & N1 & R1 & [B1 B2]); auto.
    { apply graph_of_within. } { apply graph_of_unit. apply U; simpl; auto. }
    { split; [intros ? ? ? []|discriminate]. }
    set (imp' := map (fun spv => (fst spv, pymax (dget_or (fst spv) 0 co) (snd spv))) imp).
    assert (dkeys imp' = dkeys imp) as K'.
    { unfold imp', dkeys. rewrite map_map. reflexivity. }
    destruct (IH (done ++ [M]) imp') as (r & N2 & R2 & K2 & B3).
    { intros; apply U; simpl; auto. }
    { intros M' H. apply in_app_iff in H. destruct H as [H|[<-|[]]]; auto. apply U; simpl; auto. }
    { intros k m. unfold imp'. rewrite (dget_map_pairs (fun k v => pymax (dget_or k 0 co) v)).
      destruct (dget k imp) as [v|] eqn:Dk; [|discriminate]. intros H; inversion H; subst m; clear H.
      destruct (B k v Dk) as [Bu Bw]. destruct (pymax_spec (dget_or k 0 co) v) as (P1 & P2 & P3).
      simpl in B1, B2.
      assert (forall t, In t targets -> In t names) as TI by auto.
      split.
      - intros M' t p HM Ht C. apply in_app_iff in HM. destruct HM as [HM|[<-|[]]].
        + pose proof (Bu M' t p HM Ht C). lra.
        + apply chain_walk in C; auto. destruct (B1 t k p Ht C) as (m & D1 & D2).
          unfold dget_or in *. rewrite D1 in *. lra.
      - assert (0 <= v) as V0.
        { destruct Bw as [(M' & t & p & HM & Ht & C & E)|[_ E]]; [|lra].
          pose proof (chain_bounds names M' t k p (Ud M' HM) C). lra. }
        destruct (dget k co) as [m|] eqn:Ck.
        + left. destruct (B2 k m Ck) as (t & p & Ht & W & E).
          destruct P1 as [P1|P1]; unfold dget_or in P1, P2; rewrite Ck in *.
          * exists M, t, p. split; [apply in_app_iff; simpl; auto|]. split; auto.
            split; [apply chain_walk; auto|]. unfold dget_or. rewrite Ck. lra.
          * destruct Bw as [(M' & t' & p' & HM & Ht' & C & E')|[Bn E']].
            -- exists M', t', p'. split; [apply in_app_iff; auto|]. split; auto. split; auto.
               unfold dget_or. rewrite Ck. lra.
            -- exists M, t, p. split; [apply in_app_iff; simpl; auto|]. split; auto.
               assert (chain names M t k p) as C by (apply chain_walk; auto). split; auto.
               pose proof (chain_bounds names M t k p (U M (or_introl eq_refl)) C).
               unfold dget_or. rewrite Ck. lra.
        + unfold dget_or in *. rewrite Ck in *.
          destruct Bw as [(M' & t' & p' & HM & Ht' & C & E')|[Bn E']].
          * left. exists M', t', p'. split; [apply in_app_iff; auto|]. split; auto. split; auto. lra.
          * right. split; [|lra]. intros M' t p HM Ht C. apply in_app_iff in HM.
            destruct HM as [HM|[<-|[]]]; [eapply Bn; eauto|].
            apply chain_walk in C; auto. destruct (B1 t k p Ht C) as (m & D1 & _). congruence. }
    exists r, (N1 + N2)%nat. split; [|split].
    + intros fuel F. simpl. rewrite R1 by lia. simpl. apply R2. lia.
    + congruence.
    + rewrite <- app_assoc in B3. exact B3.
Qed.

Lemma importance_spec names targets Ms :
  NoDup names -> incl targets names -> (forall M, In M Ms -> unit_matrix (length names) M) ->
  exists r N, (forall fuel, (N <= fuel)%nat -> get_importance_coeffs fuel names targets Ms = Ok r) /\
    dkeys r = names /\
    (forall k m, dget k r = Some m -> is_importance names targets Ms k m).
Proof.
  intros ND I U. destruct (importance_loop_spec names targets I Ms nil (map (fun s => (s, 0)) names))
    as (r & N & R & K & B); auto.
  - intros M [].
  - intros k m H. assert (m = 0) as ->.
    { apply dget_in in H. apply in_map_iff in H. destruct H as (x & E & _). now inversion E. }
    split; [intros M t p []|]. right. split; [intros M t p []|reflexivity].
  - exists r, N. split; auto. split; auto. rewrite K. unfold dkeys. rewrite map_map. apply map_id.
Qed.

Lemma importance_bounds names targets Ms k m :
  (forall M, In M Ms -> unit_matrix (length names) M) ->
  is_importance names targets Ms k m -> 0 <= m <= 1.
Proof.
  intros U [_ [(M & t & p & HM & Ht & C & E)|[_ E]]]; [|lra].
  pose proof (chain_bounds names M t k p (U M HM) C). lra.
Qed.

Lemma importance_target names targets Ms t m :
  (forall M, In M Ms -> unit_matrix (length names) M) -> Ms <> nil ->
  In t targets -> In t names -> is_importance names targets Ms t m -> m == 1.
Proof.
  intros U NE Ht Hn B. pose proof (importance_bounds _ _ _ _ _ U B). destruct B as [B _].
  destruct Ms as [|M Ms]; [contradiction|].
  assert (1 <= m). { apply (B M t); simpl; auto. now constructor. }
  lra.
Qed.
