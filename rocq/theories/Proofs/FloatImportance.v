(** DRGEP importance coefficients in binary64, and how far they are from the
    exact ones. *)
From Coq Require Import String List ZArith QArith Qabs Qreals Reals Bool Arith Lia Lra Psatz.
From Flocq Require Import Core.
From Verif.Base Require Import Py Num B64.
From Verif.Model Require Import FloatDrivers FloatMatrix Graph.
From Verif.Spec Require Import GraphSpec FloatMatrixSpec.
From Verif.Proofs Require Import PyFacts NumFacts DfsFacts DijkstraFacts ImportanceFacts FloatFacts FloatArith FloatSums FloatDijkstra.
Import ListNotations.
Local Open Scope R_scope.
Local Existing Instance prec53.
Local Existing Instance emax1024.

Lemma fdij_nodup : forall fuel g s dist seen fringe c r,
  NoDup (dkeys dist) -> fdij_loop fuel g s dist seen fringe c = Ok r -> NoDup (dkeys r).
Proof.
  induction fuel; intros g s dist seen fringe c r ND H; cbn [fdij_loop] in H.
  - destruct (fpop_min fringe) as [[[[d c0] v] f']|]; [discriminate|]. now inversion H; subst.
  - destruct (fpop_min fringe) as [[[[d c0] v] f']|]; [|now inversion H; subst].
    destruct (match dget v dist with Some dv => b64_lt d dv | None => false end); [eauto|].
    destruct (str_in v (fg_nodes g)); [|discriminate].
    destruct (fold_left (frelax (if (v =? s)%string then fone else d)) (fsucc g v) (seen, f', c))
      as [[s1 f1] c1]. eapply IHfuel; [|exact H]. now apply dset_nodup.
Qed.

Lemma fss_nodup fuel g s r : fss_dijkstra fuel g s = Ok r -> NoDup (dkeys r).
Proof. apply fdij_nodup. constructor. Qed.

Lemma fpymax_spec a b : fin a -> fin b ->
  (fpymax a b = a \/ fpymax a b = b) /\ rv a <= rv (fpymax a b) /\ rv b <= rv (fpymax a b).
Proof.
  intros Fa Fb. unfold fpymax. destruct (b64_lt a b) eqn:E.
  - apply lt_iff in E; auto. split; auto. lra.
  - apply lt_false in E; auto. split; auto. lra.
Qed.

Definition fmerge (o : dict b64) (spv : string * b64) :=
  dset (fst spv) (fpymax (fget_or (fst spv) fzero o) (snd spv)) o.

Lemma fmerge_fold l : NoDup (dkeys l) -> forall o k,
  dget k (fold_left fmerge l o) =
  match dget k l with
  | None => dget k o
  | Some v => Some (fpymax (fget_or k fzero o) v)
  end.
Proof.
  induction l as [|[a v] l IH]; intros ND o k; auto. simpl in ND. inversion ND; subst.
  cbn [fold_left]. rewrite IH by auto. simpl. destruct (String.eqb_spec k a) as [->|N].
  - assert (dget a l = None) as -> by now apply dget_none. unfold fmerge. simpl. now rewrite dget_dset_same.
  - unfold fmerge, fget_or. simpl. rewrite dget_dset_other by congruence. reflexivity.
Qed.

Definition fbest (E : list (string * string * b64)) (ts : list string) (o : dict b64) : Prop :=
  (forall t k p, In t ts -> fwalk E t k p -> exists m, dget k o = Some m /\ rv p <= rv m) /\
  (forall k m, dget k o = Some m -> unit_b64 m /\ exists t p, In t ts /\ fwalk E t k p /\ rv p = rv m).

Lemma dset_same_fvalue s v (d : dict b64) k : dget s d = Some v -> dget k (dset s v d) = dget k d.
Proof. intros H. rewrite dget_dset. destruct (String.eqb_spec k s); subst; auto. Qed.

Lemma unit_zero : unit_b64 fzero.
Proof. apply unit_rv. rewrite fzero_rv. split; [exact I|lra]. Qed.

Lemma unit_max a b : unit_b64 a -> unit_b64 b -> unit_b64 (fpymax a b).
Proof. intros A B. unfold fpymax. destruct (b64_lt a b); auto. Qed.

Lemma unit_le a b : unit_b64 a -> unit_b64 b -> (b64_le a b = true <-> rv a <= rv b).
Proof. intros [A _] [B _]. now apply le_iff. Qed.

Lemma fsearch_spec g :
  fedges_within (fg_nodes g) (fg_edges g) -> unit_fweights (fg_edges g) ->
  forall ts done o, incl ts (fg_nodes g) -> fbest (fg_edges g) done o ->
  exists r N, (forall fuel, (N <= fuel)%nat -> fgraph_search_drgep fuel g ts o = Ok r) /\
    fbest (fg_edges g) (done ++ ts) r.
Proof.
  intros EW U. induction ts as [|t ts IH]; intros done o I B.
  - exists o, 0%nat. split; auto. now rewrite app_nil_r.
  - destruct (float_dijkstra_correct g t) as (d & N1 & R1 & S1 & M1 & K1); auto.
    { apply I; simpl; auto. }
    assert (NoDup (dkeys d)) as NDd by (eapply fss_nodup; apply (R1 N1); auto).
    set (o' := fold_left fmerge (dset t fone d) o).
    assert (forall k, dget k o' = match dget k d with None => dget k o | Some v => Some (fpymax (fget_or k fzero o) v) end) as HO.
    { intros k. unfold o'. rewrite fmerge_fold by now apply dset_nodup. now rewrite dset_same_fvalue. }
    assert (forall t k p, fwalk (fg_edges g) t k p -> unit_b64 p) as UW by (intros; eapply fwalk_unit; eauto).
    assert (fbest (fg_edges g) (done ++ [t]) o') as B'.
    { destruct B as [B1 B2].
      assert (forall k, unit_b64 (fget_or k fzero o)) as UO.
      { intros k. unfold fget_or. destruct (dget k o) eqn:Ek; [apply (B2 k b Ek)|apply unit_zero]. }
      split.
      - intros t' k p Ht W. rewrite HO. apply in_app_iff in Ht. destruct Ht as [Ht|[<-|[]]].
        + destruct (B1 t' k p Ht W) as (m & X1 & X2). unfold fget_or. rewrite X1.
          destruct (dget k d) as [v|] eqn:Dk; [|exists m; auto].
          eexists; split; [reflexivity|].
          pose proof (UW _ _ _ (proj1 (M1 k v Dk))) as Uv. pose proof (proj1 (B2 k m X1)) as Um.
          destruct (fpymax_spec m v (proj1 Um) (proj1 Uv)) as (_ & A & _). lra.
        + destruct (proj2 (K1 k)) as [v Hv]; [eauto|]. rewrite Hv.
          eexists; split; [reflexivity|]. destruct (M1 k v Hv) as [Wv Mx]. pose proof (Mx p W) as L.
          apply unit_le in L; eauto.
          destruct (fpymax_spec (fget_or k fzero o) v (proj1 (UO k)) (proj1 (UW _ _ _ Wv))) as (_ & _ & A). lra.
      - intros k m. rewrite HO. destruct (dget k d) as [v|] eqn:Dk.
        + intros H. inversion H; subst m; clear H. destruct (M1 k v Dk) as [W _].
          pose proof (UW _ _ _ W) as Uv. split; [apply unit_max; auto|].
          destruct (fpymax_spec (fget_or k fzero o) v (proj1 (UO k)) (proj1 Uv)) as ([A|A] & A1 & A2); rewrite A in *.
          * unfold fget_or in *. destruct (dget k o) as [x|] eqn:Ok.
            -- destruct (B2 k x Ok) as (_ & t' & p' & T1 & T2 & T3). exists t', p'.
               split; [apply in_app_iff; auto|]. auto.
            -- exists t, v. split; [apply in_app_iff; simpl; auto|]. split; auto.
               apply unit_rv in Uv. rewrite fzero_rv in *. lra.
          * exists t, v. split; [apply in_app_iff; simpl; auto|]. auto.
        + intros H. destruct (B2 k m H) as (Um & t' & p' & T1 & T2 & T3). split; auto. exists t', p'.
          split; [apply in_app_iff; auto|]. auto. }
    destruct (IH (done ++ [t]) o') as (r & N2 & R2 & B2); auto.
    { intros x Hx; apply I; simpl; auto. }
    exists r, (N1 + N2)%nat. split.
    + intros fuel F. simpl. rewrite (R1 fuel) by lia. simpl. apply R2. lia.
    + rewrite <- app_assoc in B2. exact B2.
Qed.

Lemma fenum_in {A} (l : list A) i a : In (i, a) (fenum l) <-> nth_error l i = Some a.
Proof. exact (enum_in l i a). Qed.

Lemma val_zero x : (b64_val x == 0)%Q <-> rv x = 0.
Proof.
  assert (Q2R 0 = 0) as Z by (unfold Q2R; simpl; lra). unfold rv. split; intros H.
  - rewrite <- Z. now apply Qeq_eqR.
  - apply eqR_Qeq. lra.
Qed.

Section Arr.
Variable names : list string.
Variable M : fmatrix.
Hypothesis UM : unit_fmatrix (length names) M.
Let E := fg_edges (fgraph_of names M).

Lemma fdepends_unit a b w : fdepends names M a b w -> unit_b64 w.
Proof.
  intros (i & j & H1 & H2 & <-). apply UM; apply nth_error_Some; congruence.
Qed.

Lemma fgraph_of_edges a b w : In (a, b, w) E <-> fdepends names M a b w /\ ~ (b64_val w == 0)%Q.
Proof.
  unfold E, fgraph_of; simpl. rewrite in_flat_map. split.
  - intros ([i a'] & H1 & H2). apply in_flat_map in H2. destruct H2 as ([j b'] & H2 & H3).
    cbn [fst snd] in H3. apply fenum_in in H1. apply fenum_in in H2.
    destruct (b64_nz (fget M i j)) eqn:Ez; [|destruct H3].
    destruct H3 as [H3|[]]. injection H3 as <- <- <-.
    assert (fdepends names M a' b' (fget M i j)) as D by (exists i, j; auto).
    split; auto. rewrite val_zero. apply nz_iff in Ez; auto. apply (fdepends_unit _ _ _ D).
  - intros [D N]. pose proof (proj1 (fdepends_unit _ _ _ D)) as F. destruct D as (i & j & H1 & H2 & H3).
    exists (i, a). split; [now apply fenum_in|].
    apply in_flat_map. exists (j, b). split; [now apply fenum_in|]. cbn [fst snd].
    rewrite H3. rewrite val_zero in N. apply nz_iff in N; auto. rewrite N. simpl; auto.
Qed.

Lemma fchain_walk t x p : In t names -> (fwalk E t x p <-> fchain names M t x p).
Proof.
  intros Ht. split.
  - induction 1; [now constructor|]. apply fgraph_of_edges in H0. destruct H0. econstructor; eauto.
  - induction 1; [constructor|]. econstructor; eauto. now apply fgraph_of_edges.
Qed.

Lemma fgraph_within : fedges_within (fg_nodes (fgraph_of names M)) E.
Proof.
  intros a b w H. apply fgraph_of_edges in H. destruct H as [(i & j & H1 & H2 & _) _]. simpl.
  split; eapply nth_error_In; eauto.
Qed.

Lemma fgraph_unit : unit_fweights E.
Proof. intros a b w H. apply fgraph_of_edges in H. destruct H as [H _]. eapply fdepends_unit; eauto. Qed.

Lemma fchain_unit t k p : fchain names M t k p -> unit_b64 p.
Proof.
  intros C. assert (In t names) as Ht by (induction C; auto).
  apply fchain_walk in C; auto. eapply fwalk_unit; [apply fgraph_unit|exact C].
Qed.
End Arr.

Lemma val_le x y : (b64_val x <= b64_val y)%Q <-> rv x <= rv y.
Proof. unfold rv. split; [apply Qle_Rle|apply Rle_Qle]. Qed.
Lemma val_eq x y : (b64_val x == b64_val y)%Q <-> rv x = rv y.
Proof. unfold rv. split; [apply Qeq_eqR|apply eqR_Qeq]. Qed.

Lemma dget_map_fpairs (f : string -> b64 -> b64) (d : dict b64) k :
  dget k (map (fun spv => (fst spv, f (fst spv) (snd spv))) d) =
  match dget k d with Some v => Some (f k v) | None => None end.
Proof.
  induction d as [|[a v] d IH]; simpl; auto. destruct (String.eqb_spec k a); subst; auto.
Qed.

Lemma fimportance_loop_spec names targets :
  incl targets names ->
  forall Ms done imp, (forall M, In M Ms -> unit_fmatrix (length names) M) ->
  (forall k m, dget k imp = Some m -> unit_b64 m /\ is_fimportance names targets done k m) ->
  exists r N, (forall fuel, (N <= fuel)%nat -> fimportance_loop fuel names targets Ms imp = Ok r) /\
    dkeys r = dkeys imp /\
    (forall k m, dget k r = Some m -> unit_b64 m /\ is_fimportance names targets (done ++ Ms) k m).
Proof.
  intros I. induction Ms as [|M Ms IH]; intros done imp U B.
  - exists imp, 0%nat. split; [auto|]. split; auto. now rewrite app_nil_r.
  - assert (unit_fmatrix (length names) M) as UM by (apply U; simpl; auto).
    destruct (fsearch_spec (fgraph_of names M)) with (ts := targets) (done := @nil string) (o := @nil (string * b64))
      as (co & N1 & R1 & [B1 B2]); auto.
    { now apply fgraph_within. } { now apply fgraph_unit. }
    { split; [intros ? ? ? []|discriminate]. }
    set (imp' := map (fun spv => (fst spv, fpymax (fget_or (fst spv) fzero co) (snd spv))) imp).
    assert (dkeys imp' = dkeys imp) as K'.
    { unfold imp', dkeys. rewrite map_map. reflexivity. }
    destruct (IH (done ++ [M]) imp') as (r & N2 & R2 & K2 & B3).
    { intros; apply U; simpl; auto. }
    { intros k m. unfold imp'. rewrite (dget_map_fpairs (fun k v => fpymax (fget_or k fzero co) v)).
      destruct (dget k imp) as [v|] eqn:Dk; [|discriminate]. intros H; inversion H; subst m; clear H.
      destruct (B k v Dk) as [Uv [Bu Bw]]. simpl in B1, B2.
      assert (unit_b64 (fget_or k fzero co)) as UO.
      { unfold fget_or. destruct (dget k co) eqn:Ek; [apply (B2 k b Ek)|apply unit_zero]. }
      destruct (fpymax_spec (fget_or k fzero co) v (proj1 UO) (proj1 Uv)) as (P1 & P2 & P3).
      split; [apply unit_max; auto|].
      pose proof Uv as Uv'. apply unit_rv in Uv'.
      split.
      - intros M' t p HM Ht C. apply val_le. apply in_app_iff in HM. destruct HM as [HM|[<-|[]]].
        + pose proof (Bu M' t p HM Ht C) as L. apply val_le in L. lra.
        + apply fchain_walk in C; auto. destruct (B1 t k p Ht C) as (m & D1 & D2).
          unfold fget_or in *. rewrite D1 in *. lra.
      - destruct (dget k co) as [m|] eqn:Ck.
        + left. destruct (B2 k m Ck) as (Um & t & p & Ht & W & Ev).
          assert (fget_or k fzero co = m) as Em by (unfold fget_or; now rewrite Ck). rewrite Em in *.
          assert (fchain names M t k p) as C by (apply fchain_walk; auto).
          destruct P1 as [P1|P1]; rewrite P1 in *.
          * exists M, t, p. split; [apply in_app_iff; simpl; auto|]. split; auto. split; auto. now apply val_eq.
          * destruct Bw as [(M' & t' & p' & HM & Ht' & C' & E')|[Bn E']].
            -- exists M', t', p'. split; [apply in_app_iff; auto|]. auto.
            -- exists M, t, p. split; [apply in_app_iff; simpl; auto|]. split; auto. split; auto.
               apply val_zero in E'. apply val_eq. apply unit_rv in Um. lra.
        + assert (fget_or k fzero co = fzero) as Em by (unfold fget_or; now rewrite Ck). rewrite Em in *.
          rewrite fzero_rv in *.
          destruct Bw as [(M' & t' & p' & HM & Ht' & C' & E')|[Bn E']].
          * left. exists M', t', p'. split; [apply in_app_iff; auto|]. split; auto. split; auto.
            apply val_eq. apply val_eq in E'. destruct P1 as [P1|P1]; rewrite P1 in *; rewrite ?fzero_rv in *; lra.
          * right. split.
            -- intros M' t p HM Ht C. apply in_app_iff in HM.
               destruct HM as [HM|[<-|[]]]; [eapply Bn; eauto|].
               apply fchain_walk in C; auto. destruct (B1 t k p Ht C) as (m & D1 & _). congruence.
            -- apply val_zero in E'. apply val_zero.
               destruct P1 as [P1|P1]; rewrite P1 in *; rewrite ?fzero_rv in *; lra. }
    exists r, (N1 + N2)%nat. split; [|split].
    + intros fuel F. simpl. rewrite R1 by lia. simpl. apply R2. lia.
    + congruence.
    + rewrite <- app_assoc in B3. exact B3.
Qed.

Lemma fimportance_spec names targets Ms :
  incl targets names -> (forall M, In M Ms -> unit_fmatrix (length names) M) ->
  exists r N, (forall fuel, (N <= fuel)%nat -> f_importance_coeffs fuel names targets Ms = Ok r) /\
    dkeys r = names /\
    (forall k c, dget k r = Some c -> unit_b64 c /\ is_fimportance names targets Ms k c).
Proof.
  intros I U. destruct (fimportance_loop_spec names targets I Ms nil (map (fun s => (s, fzero)) names))
    as (r & N & R & K & B); auto.
  - intros k m H. assert (m = fzero) as ->.
    { apply dget_in in H. apply in_map_iff in H. destruct H as (x & Ex & _). now inversion Ex. }
    split; [apply unit_zero|]. split; [intros M t p []|]. right. split; [intros M t p []|reflexivity].
  - exists r, N. split; auto. split; auto. rewrite K. unfold dkeys. rewrite map_map. apply map_id.
Qed.

Lemma fimportance_target names targets Ms t c :
  (forall M, In M Ms -> unit_fmatrix (length names) M) -> Ms <> nil ->
  In t targets -> In t names -> unit_b64 c -> is_fimportance names targets Ms t c -> (b64_val c == 1)%Q.
Proof.
  intros U NE Ht Hn Uc [B _]. destruct Ms as [|M Ms]; [contradiction|].
  assert (b64_val fone <= b64_val c)%Q as L. { apply (B M t); simpl; auto. now constructor. }
  destruct Uc as [_ [_ L2]]. assert (b64_val fone == 1)%Q as O by reflexivity. rewrite O in L.
  apply Qle_antisym; auto.
Qed.

(** ** Distance from the exact coefficients *)

(** Paths with real weights, their products taken with [op]. *)
Inductive rpath (op : R -> R -> R) (E : string -> string -> R -> Prop) (s : string) : string -> R -> list string -> Prop :=
| rp_here : rpath op E s s 1 [s]
| rp_step v p l u w : rpath op E s v p l -> E v u w -> rpath op E s u (op p w) (u :: l).

Definition unitR (x : R) := 0 <= x <= 1.
Record sound (op : R -> R -> R) (d : R) : Prop := mkSound {
  S_unit : forall x w, unitR x -> unitR w -> unitR (op x w);
  S_le : forall x w, unitR w -> unitR x -> (exists y z, unitR y /\ unitR z /\ x = op y z) \/ x = 1 -> op x w <= x;
  S_mono : forall x y w, unitR x -> unitR y -> unitR w -> x <= y -> op x w <= op y w;
  S_err : forall x w, unitR x -> unitR w -> Rabs (op x w - x * w) <= d }.
Arguments S_unit {op d}. Arguments S_le {op d}. Arguments S_mono {op d}. Arguments S_err {op d}.

Section Paths.
Variable op : R -> R -> R.
Variable d : R.
Hypothesis SO : sound op d.
Variable E : string -> string -> R -> Prop.
Hypothesis EU : forall a b w, E a b w -> unitR w.
Variable s : string.

Lemma rpath_unit v p l : rpath op E s v p l -> unitR p.
Proof.
  induction 1; [unfold unitR; lra|]. apply (S_unit SO); auto. eapply EU; eauto.
Qed.

Lemma rpath_val v p l : rpath op E s v p l -> (exists y z, unitR y /\ unitR z /\ p = op y z) \/ p = 1.
Proof.
  destruct 1; auto. left. exists p, w. split; [eapply rpath_unit; eauto|]. split; auto. eapply EU; eauto.
Qed.

Lemma rpath_head v p l : rpath op E s v p l -> exists t, l = v :: t.
Proof. destruct 1; eauto. Qed.

Lemma rpath_prefix v p l : rpath op E s v p l -> forall x, In x l -> NoDup l ->
  exists q l', rpath op E s x q l' /\ p <= q /\ NoDup l' /\ (forall y, In y l' -> In y l).
Proof.
  induction 1; intros x Hx ND.
  - destruct Hx as [<-|[]]. exists 1, [s]. split; [constructor|]. split; [lra|auto].
  - inversion ND; subst. destruct Hx as [<-|Hx].
    + exists (op p w), (u :: l). split; [econstructor; eauto|]. split; [lra|auto].
    + destruct (IHrpath x Hx) as (q & l' & R1 & R2 & R3 & R4); auto.
      exists q, l'. split; auto. split; [|split; auto; intros; right; auto].
      assert (op p w <= p); [|lra]. apply (S_le SO); [eapply EU; eauto|eapply rpath_unit; eauto|eapply rpath_val; eauto].
Qed.

Lemma rpath_simple v p l : rpath op E s v p l ->
  exists q l', rpath op E s v q l' /\ p <= q /\ NoDup l' /\ (forall y, In y l' -> In y l).
Proof.
  induction 1.
  - exists 1, [s]. split; [constructor|]. split; [lra|]. split; auto. repeat constructor; auto.
  - destruct IHrpath as (q & l' & R1 & R2 & R3 & R4).
    assert (op p w <= op q w) as LE.
    { apply (S_mono SO); [exact (rpath_unit _ _ _ H)|exact (rpath_unit _ _ _ R1)|exact (EU _ _ _ H0)|exact R2]. }
    destruct (in_dec string_dec u l') as [Hu|Hu].
    + destruct (rpath_prefix _ _ _ R1 u Hu R3) as (q' & l'' & P1 & P2 & P3 & P4).
      exists q', l''. split; auto. split; [|split; auto; intros; right; auto].
      assert (op q w <= q); [|lra].
      apply (S_le SO); [eapply EU; eauto|eapply rpath_unit; eauto|eapply rpath_val; eauto].
    + exists (op q w), (u :: l'). split; [econstructor; eauto|]. split; auto. split; [constructor; auto|].
      intros y [<-|Hy]; simpl; auto.
Qed.
End Paths.

(** Two ways of multiplying along the same path. *)
Lemma rpath_transfer op1 d1 op2 d2 (E1 E2 : string -> string -> R -> Prop) eps s : sound op1 d1 -> sound op2 d2 ->
  (forall a b w, E1 a b w -> unitR w) -> (forall a b w, E2 a b w -> unitR w) ->
  (forall a b w, E1 a b w -> exists w', E2 a b w' /\ Rabs (w - w') <= eps) ->
  forall v p l, rpath op1 E1 s v p l ->
  exists q, rpath op2 E2 s v q l /\ Rabs (p - q) <= INR (length l - 1) * (eps + d1 + d2).
Proof.
  intros S1 S2 U1 U2 T v p l H. induction H.
  - exists 1. split; [constructor|]. simpl. rewrite Rminus_diag_eq, Rabs_R0; auto. lra.
  - destruct IHrpath as (q & Q1 & Q2). destruct (T _ _ _ H0) as (w' & W1 & W2).
    exists (op2 q w'). split; [econstructor; eauto|].
    pose proof (rpath_unit _ _ S1 _ U1 _ _ _ _ H) as Up. pose proof (rpath_unit _ _ S2 _ U2 _ _ _ _ Q1) as Uq.
    pose proof (U1 _ _ _ H0) as Uw. pose proof (U2 _ _ _ W1) as Uw'.
    pose proof (S_err S1 _ _ Up Uw) as A1. pose proof (S_err S2 _ _ Uq Uw') as A2.
    destruct (rpath_head _ _ _ _ _ _ H) as [t ->].
    replace (length (u :: v :: t) - 1)%nat with (S (length (v :: t) - 1)) by (simpl; lia).
    rewrite S_INR.
    assert (Rabs (p * w - q * w') <= Rabs (p - q) + Rabs (w - w')) as A3.
    { replace (p * w - q * w') with ((p - q) * w + q * (w - w')) by ring.
      eapply Rle_trans; [apply Rabs_triang|]. rewrite !Rabs_mult.
      unfold unitR in *. rewrite (Rabs_pos_eq w), (Rabs_pos_eq q) by lra.
      pose proof (Rabs_pos (p - q)). pose proof (Rabs_pos (w - w')). nra. }
    replace (op1 p w - op2 q w') with ((op1 p w - p * w) + (p * w - q * w') + (q * w' - op2 q w')) by ring.
    rewrite Rabs_minus_sym in A2.
    eapply Rle_trans; [apply Rabs_triang|]. 
    pose proof (Rabs_triang (op1 p w - p * w) (p * w - q * w')). lra.
Qed.

Lemma sound_mult : sound Rmult 0.
Proof.
  constructor; unfold unitR; intros.
  - split; nra.
  - nra.
  - nra.
  - rewrite Rminus_diag_eq, Rabs_R0; auto; lra.
Qed.

Definition rmul (x w : R) : R := rnd (x * w).

Lemma sound_round : sound rmul u.
Proof.
  assert (forall x, 0 <= x <= 1 -> 0 <= rnd x <= 1) as B.
  { intros x H. split.
    - rewrite <- (rnd_id 0) by apply generic_format_0. apply rnd_le. lra.
    - pose proof (rnd_bounds x 0 ltac:(lia)) as R. simpl in R. apply R. lra. }
  constructor; unfold unitR, rmul; intros.
  - apply B. split; nra.
  - assert (generic_format radix2 fx x) as G.
    { destruct H1 as [(y & z & Y & Z & ->)| ->]; [apply generic_format_round; auto with typeclass_instances|].
      rewrite <- fone_rv. apply fin_format. exact fone_fin. }
    rewrite <- (rnd_id x) at 2 by auto. apply rnd_le. nra.
  - apply rnd_le. nra.
  - apply unit_err. rewrite Rabs_pos_eq; nra.
Qed.

(** All entries of an array, zero or not, as edges. *)
Definition fedge names (F : fmatrix) (a b : string) (w : R) : Prop :=
  exists x, fdepends names F a b x /\ w = rv x.
Definition qedge names (M : matrix) (a b : string) (w : R) : Prop :=
  exists x, depends names M a b x /\ w = Q2R x.

Lemma Q2R_unit x : (0 <= x <= 1)%Q -> unitR (Q2R x).
Proof.
  assert (Q2R 0 = 0 /\ Q2R 1 = 1) as [Z O] by (unfold Q2R; simpl; lra).
  intros [A B]. apply Qle_Rle in A. apply Qle_Rle in B. unfold unitR. lra.
Qed.

Section Compare.
Variable names : list string.
Variable F : fmatrix.
Variable M : matrix.
Variable eps : Q.
Hypothesis UF : unit_fmatrix (length names) F.
Hypothesis UM : unit_matrix (length names) M.
Hypothesis CL : close_to (length names) eps F M.

Lemma fedge_unit a b w : fedge names F a b w -> unitR w.
Proof. intros (x & D & ->). apply (fdepends_unit names F UF) in D. apply unit_rv in D. apply D. Qed.

Lemma qedge_unit a b w : qedge names M a b w -> unitR w.
Proof.
  intros (x & (i & j & H1 & H2 & <-) & ->). apply Q2R_unit. apply UM; apply nth_error_Some; congruence.
Qed.

Lemma close_R i j : (i < length names)%nat -> (j < length names)%nat ->
  Rabs (rv (fget F i j) - Q2R (mget M i j)) <= Q2R eps.
Proof.
  intros Hi Hj. pose proof (CL i j Hi Hj) as C. apply Qabs_Qle_condition in C. destruct C as [C1 C2].
  apply Qle_Rle in C1. apply Qle_Rle in C2. rewrite Q2R_opp in C1. rewrite Q2R_minus in *. unfold rv.
  apply Rabs_le. lra.
Qed.

Lemma fedge_close a b w : fedge names F a b w -> exists w', qedge names M a b w' /\ Rabs (w - w') <= Q2R eps.
Proof.
  intros (x & (i & j & H1 & H2 & <-) & ->). exists (Q2R (mget M i j)). split.
  - exists (mget M i j). split; auto. exists i, j. auto.
  - apply close_R; apply nth_error_Some; congruence.
Qed.

Lemma qedge_close a b w : qedge names M a b w -> exists w', fedge names F a b w' /\ Rabs (w - w') <= Q2R eps.
Proof.
  intros (x & (i & j & H1 & H2 & <-) & ->). exists (rv (fget F i j)). split.
  - exists (fget F i j). split; auto. exists i, j. auto.
  - rewrite Rabs_minus_sym. apply close_R; apply nth_error_Some; congruence.
Qed.

Lemma fchain_rpath t k p : fchain names F t k p -> exists l, rpath rmul (fedge names F) t k (rv p) l /\ incl l names.
Proof.
  induction 1.
  - exists [t]. change (b64_of_Z 1) with fone. rewrite fone_rv. split; [constructor|]. intros y [<-|[]]; auto.
  - destruct IHfchain as (l & R1 & R2). exists (c :: l).
    pose proof (fchain_unit names F UF _ _ _ H) as Up. pose proof (fdepends_unit names F UF _ _ _ H0) as Uw.
    assert (rv (b64_mul p w) = rmul (rv p) (rv w)) as ->.
    { assert (In (b, c, w) (fg_edges (fgraph_of names F))) as Ed by (apply fgraph_of_edges; auto).
      destruct (mul_unit (fgraph_of names F) (fgraph_unit names F UF) p b c w Up Ed) as (_ & _ & ->). reflexivity. }
    split; [econstructor; eauto; exists w; auto|].
    intros y [<-|Hy]; auto. destruct H0 as (i & j & _ & H2 & _). eapply nth_error_In; eauto.
Qed.

Lemma rpath_fchain t k p l : In t names -> rpath rmul (fedge names F) t k p l ->
  p = 0 \/ exists q, fchain names F t k q /\ rv q = p.
Proof.
  intros Ht. induction 1.
  - right. exists fone. split; [now constructor|]. apply fone_rv.
  - destruct H0 as (x & D & ->). destruct IHrpath as [ -> |(q & Q1 & Q2)].
    + left. unfold rmul. rewrite Rmult_0_l. apply rnd_id. apply generic_format_0.
    + destruct (Req_dec (rv x) 0) as [Z|N].
      * left. unfold rmul. rewrite Z, Rmult_0_r. apply rnd_id. apply generic_format_0.
      * right. exists (b64_mul q x). assert (~ (b64_val x == 0)%Q) as N' by (rewrite val_zero; auto).
        split; [econstructor; eauto|].
        assert (In (v, u, x) (fg_edges (fgraph_of names F))) as Ed by (apply fgraph_of_edges; auto).
        pose proof (fchain_unit names F UF _ _ _ Q1) as Uq.
        destruct (mul_unit (fgraph_of names F) (fgraph_unit names F UF) q v u x Uq Ed) as (_ & _ & ->).
        unfold rmul. now rewrite Q2.
Qed.

Lemma chain_rpath t k p : chain names M t k p -> exists l, rpath Rmult (qedge names M) t k (Q2R p) l /\ incl l names.
Proof.
  induction 1.
  - exists [t]. replace (Q2R 1) with 1 by (unfold Q2R; simpl; lra). split; [constructor|]. intros y [<-|[]]; auto.
  - destruct IHchain as (l & R1 & R2). exists (c :: l). rewrite Q2R_mult.
    split; [econstructor; eauto; exists w; auto|].
    intros y [<-|Hy]; auto. destruct H0 as (i & j & _ & H2 & _). eapply nth_error_In; eauto.
Qed.

Lemma rpath_chain t k p l : In t names -> rpath Rmult (qedge names M) t k p l ->
  p = 0 \/ exists q, chain names M t k q /\ Q2R q = p.
Proof.
  intros Ht. induction 1.
  - right. exists 1%Q. split; [now constructor|]. unfold Q2R; simpl; lra.
  - destruct H0 as (x & D & ->). destruct IHrpath as [ -> |(q & Q1 & Q2)].
    + left. ring.
    + destruct (Qeq_dec x 0) as [Z|N].
      * left. apply Qeq_eqR in Z. rewrite Z. unfold Q2R at 1; simpl; lra.
      * right. exists (q * x)%Q. split; [econstructor; eauto|]. now rewrite Q2R_mult, Q2.
Qed.

Lemma eps_nn : names <> nil -> 0 <= Q2R eps.
Proof.
  intros N. assert (0 < length names)%nat as L by (clear - N; destruct names; [contradiction|simpl; lia]).
  pose proof (close_R 0 0 L L). pose proof (Rabs_pos (rv (fget F 0 0) - Q2R (mget M 0 0))). lra.
Qed.

Let bound := INR (length names - 1) * (Q2R eps + u).

Lemma len_bound l : NoDup l -> incl l names -> names <> nil ->
  INR (length l - 1) * (Q2R eps + u) <= bound.
Proof.
  intros ND I N. unfold bound. pose proof (eps_nn N). pose proof u_pos.
  apply Rmult_le_compat_r; [lra|]. apply le_INR. pose proof (NoDup_incl_length ND I). lia.
Qed.

(** Every rounded product is at most an exact product plus the bound, and
    conversely. *)
Lemma fchain_exact t k p : fchain names F t k p ->
  (rv p <= bound) \/ exists q, chain names M t k q /\ rv p <= Q2R q + bound.
Proof.
  intros C. assert (In t names) as Ht by (induction C; auto).
  assert (names <> nil) as NN by (intros Z; rewrite Z in Ht; destruct Ht).
  destruct (fchain_rpath _ _ _ C) as (l & R & I).
  destruct (rpath_simple _ _ sound_round _ fedge_unit _ _ _ _ R) as (q & l' & R1 & R2 & R3 & R4).
  destruct (rpath_transfer _ _ _ _ _ _ _ _ sound_round sound_mult fedge_unit qedge_unit fedge_close _ _ _ R1) as (q' & T1 & T2).
  assert (incl l' names) as I' by (intros y Hy; auto).
  pose proof (len_bound l' R3 I' NN) as L. rewrite Rplus_0_r in T2.
  apply Rabs_le_inv in T2.
  destruct (rpath_chain _ _ _ _ Ht T1) as [ -> |(c & C1 & C2)].
  - left. lra.
  - right. exists c. split; auto. lra.
Qed.

Lemma chain_float t k p : chain names M t k p ->
  (Q2R p <= bound) \/ exists q, fchain names F t k q /\ Q2R p <= rv q + bound.
Proof.
  intros C. assert (In t names) as Ht by (induction C; auto).
  assert (names <> nil) as NN by (intros Z; rewrite Z in Ht; destruct Ht).
  destruct (chain_rpath _ _ _ C) as (l & R & I).
  destruct (rpath_simple _ _ sound_mult _ qedge_unit _ _ _ _ R) as (q & l' & R1 & R2 & R3 & R4).
  destruct (rpath_transfer _ _ _ _ _ _ _ _ sound_mult sound_round qedge_unit fedge_unit qedge_close _ _ _ R1) as (q' & T1 & T2).
  assert (incl l' names) as I' by (intros y Hy; auto).
  pose proof (len_bound l' R3 I' NN) as L. rewrite Rplus_0_r in T2.
  apply Rabs_le_inv in T2.
  destruct (rpath_fchain _ _ _ _ Ht T1) as [ -> |(c & C1 & C2)].
  - left. lra.
  - right. exists c. split; auto. lra.
Qed.
End Compare.

Lemma importance_close names targets Fs Ms eps k c m :
  names <> nil -> (0 <= eps)%Q ->
  (forall F, In F Fs -> unit_fmatrix (length names) F) ->
  (forall M, In M Ms -> unit_matrix (length names) M) ->
  Forall2 (close_to (length names) eps) Fs Ms ->
  unit_b64 c -> is_fimportance names targets Fs k c -> is_importance names targets Ms k m ->
  Rabs (rv c - Q2R m) <= INR (length names - 1) * (Q2R eps + u).
Proof.
  intros NN E0 UF UM CL Uc [B1 B2] Im.
  pose proof (importance_bounds names targets Ms k m UM Im) as Bm. apply Q2R_unit in Bm. unfold unitR in Bm.
  destruct Im as [I1 I2]. apply unit_rv in Uc. destruct Uc as [_ Uc].
  apply Qle_Rle in E0. replace (Q2R 0) with 0 in E0 by (unfold Q2R; simpl; lra).
  pose proof u_pos as U0. pose proof (pos_INR (length names - 1)) as N0.
  assert (0 <= INR (length names - 1) * (Q2R eps + u)) as P by (apply Rmult_le_pos; lra).
  set (bound := INR (length names - 1) * (Q2R eps + u)) in *.
  assert (forall F, In F Fs -> exists M, In M Ms /\ close_to (length names) eps F M) as C1.
  { clear - CL. induction CL; intros F H1; [destruct H1|]. destruct H1 as [<-|H1]; [exists y; simpl; auto|].
    destruct (IHCL F H1) as (M & A & B). exists M; simpl; auto. }
  assert (forall M, In M Ms -> exists F, In F Fs /\ close_to (length names) eps F M) as C2.
  { clear - CL. induction CL; intros M H1; [destruct H1|]. destruct H1 as [<-|H1]; [exists x; simpl; auto|].
    destruct (IHCL M H1) as (F & A & B). exists F; simpl; auto. }
  apply Rabs_le. split.
  - assert (Q2R m <= rv c + bound); [|lra].
    destruct I2 as [(M & t & p & HM & Ht & C & Ep)|[_ Ez]].
    + destruct (C2 M HM) as (F & HF & HC). apply Qeq_eqR in Ep. rewrite <- Ep.
      destruct (chain_float names F M eps (UF F HF) (UM M HM) HC t k p C) as [L|(q & Q1 & Q2)]; [fold bound in L|fold bound in Q2].
      * lra.
      * pose proof (B1 F t q HF Ht Q1) as L. apply val_le in L. lra.
    + apply Qeq_eqR in Ez. rewrite Ez. replace (Q2R 0) with 0 by (unfold Q2R; simpl; lra). lra.
  - assert (rv c <= Q2R m + bound); [|lra].
    destruct B2 as [(F & t & p & HF & Ht & C & Ep)|[_ Ez]].
    + destruct (C1 F HF) as (M & HM & HC). apply val_eq in Ep. rewrite <- Ep.
      destruct (fchain_exact names F M eps (UF F HF) (UM M HM) HC t k p C) as [L|(q & Q1 & Q2)]; [fold bound in L|fold bound in Q2].
      * lra.
      * pose proof (I1 M t q HM Ht Q1) as L. apply Qle_Rle in L. lra.
    + apply val_zero in Ez. lra.
Qed.
