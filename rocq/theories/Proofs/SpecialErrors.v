(** The error with doubles and the exact error on metrics that are not finite. *)
From Coq Require Import String List ZArith QArith Qabs Qpower Bool Arith Lia Lqa.
From Coq Require Import Floats.SpecFloat.
From Verif.Base Require Import Py Num XNum B64.
From Verif.Model Require Import Mech World Metrics Drivers Sensitivity FloatDrivers FloatMatrix FloatSampling SaveText DoubleError.
From Verif.Spec Require Import MetricSpec FloatMatrixSpec FloatSamplingSpec DoubleErrorSpec SensitivitySpec SaOrderSpec.
From Verif.Proofs Require Import NumFacts MetricFacts FloatErrorFacts FloatRunFacts DoubleErrorFacts SaOrderFloat.
Import ListNotations.
Local Open Scope Q_scope.

(** What the two computations have in common. *)
Inductive kind := KF | KI | KN.
Definition kmax (a b : kind) : kind :=
  match a, b with KN, _ | _, KN => KN | KI, _ | _, KI => KI | _, _ => KF end.
Definition bkind (k : kind) (x : b64) : Prop :=
  match k with KF => b64_finite x | KI => x = S754_infinity false | KN => x = S754_nan end.
Definition xkind (k : kind) (x : xnum) : Prop :=
  match k with KF => exists q, x = Fin q | KI => x = PInf | KN => x = NaN end.

Lemma bmax_kind k l a b : bkind k a -> bkind l b -> bkind (kmax k l) (b64_max a b).
Proof.
  destruct k, l; simpl; intros A B; subst; try reflexivity.
  - destruct a, b; try contradiction; unfold b64_max; destruct (b64_lt _ _); auto.
  - destruct a as [s|s| |s m e]; try contradiction; [destruct s; reflexivity|]. destruct s; reflexivity.
  - destruct a; try contradiction; reflexivity.
  - destruct b as [s|s| |s m e]; try contradiction; [destruct s; reflexivity|]. destruct s; reflexivity.
Qed.

Lemma xmax_kind k l a b : xkind k a -> xkind l b -> xkind (kmax k l) (xmax a b).
Proof.
  destruct k, l; simpl; intros A B; try destruct A as (p & A); try destruct B as (q & B); subst; try reflexivity.
  unfold xmax. simpl. destruct (Qlt_bool p q); eauto.
Qed.

Lemma fmax_kind ks : forall k e es, bkind k e -> Forall2 bkind ks es -> bkind (fold_left kmax ks k) (fmax_list e es).
Proof.
  induction ks as [|l ks IH]; intros k e es K F; inversion F; subst; simpl; auto using bmax_kind.
Qed.
Lemma xmaxl_kind ks : forall k e es, xkind k e -> Forall2 xkind ks es -> xkind (fold_left kmax ks k) (xmax_list e es).
Proof.
  unfold xmax_list. induction ks as [|l ks IH]; intros k e es K F; inversion F; subst; simpl; auto using xmax_kind.
Qed.

Lemma fold_nan ks : forall k, k = KN \/ In KN ks -> fold_left kmax ks k = KN.
Proof.
  induction ks as [|l ks IH]; intros k H; simpl in *; [destruct H as [->|[]]; auto|].
  apply IH. destruct H as [->|[->|H]]; auto. left. destruct k; reflexivity.
Qed.
Lemma fold_inf ks : forall k, k <> KN -> ~ In KN ks -> k = KI \/ In KI ks -> fold_left kmax ks k = KI.
Proof.
  induction ks as [|l ks IH]; intros k N M H; simpl in *; [destruct H as [->|[]]; auto|].
  apply IH; [destruct k, l; simpl; auto; discriminate|tauto|].
  destruct H as [->|[->|H]]; [|destruct k; auto; contradiction|auto].
  destruct l; auto. exfalso. auto.
Qed.

(** The kind of one deviation. *)
Definition tkind (t : xnum) : kind := match t with Fin _ => KF | NaN => KN | _ => KI end.

Lemma dev_kind o t : double_metric o -> any_metric t ->
  bkind (tkind t) (b64_div (b64_abs (b64_sub (b64_of_x o) (b64_of_x t))) (b64_of_x o)) /\
  xkind (tkind t) (xdiv (xabs (xsub o t)) o).
Proof.
  intros O T. destruct (metric_of_x o O) as (q & -> & P & M & E).
  destruct T as [T|T].
  - destruct (metric_of_x t T) as (r & -> & Pr & Mr & Er). cbn [tkind bkind xkind]. split.
    + exact (proj1 (dev_facts _ _ M Mr)).
    + unfold xsub, xabs, xneg, xadd, xdiv. destruct (Qeq_bool q 0) eqn:Z; [apply Qeq_bool_iff in Z; lra|eauto].
  - destruct M as (F & B). set (d := b64_of_x (Fin q)) in *.
    assert (exists m e, d = S754_finite false m e) as (m & e & ->).
    { destruct d as [s|s| |s m e]; try contradiction.
      - simpl in E. lra.
      - destruct s; [|eauto]. exfalso. rewrite <- E in P. revert P. clear. intros P.
        assert (0 <= (2 # 1) ^ e) as W by (apply Qpower_pos; discriminate). cbn [b64_val cond_Zopp] in P.
        assert (inject_Z (- Z.pos m) < 0) as V by reflexivity. nra. }
    assert (Qlt_bool q 0 = false) as G by (destruct (Qlt_bool q 0) eqn:L; auto; apply Qlt_bool_iff in L; lra).
    destruct T as [->|[->| ->]]; split; try reflexivity; simpl; rewrite ?G; reflexivity.
Qed.

Lemma combine_kinds os ts : length ts = length os -> (forall x, In x os -> double_metric x) -> (forall x, In x ts -> any_metric x) ->
  Forall2 bkind (map tkind ts)
    (map (fun ot => b64_div (b64_abs (b64_sub (fst ot) (snd ot))) (fst ot)) (combine (map b64_of_x os) (map b64_of_x ts))) /\
  Forall2 xkind (map tkind ts) (map (fun ot => xdiv (xabs (xsub (fst ot) (snd ot))) (fst ot)) (combine os ts)).
Proof.
  revert ts. induction os as [|o os IH]; intros [|t ts] L O T; try discriminate; cbn [map combine]; [split; constructor|].
  destruct (IH ts) as (A & B); [now injection L|intros; apply O; now right|intros; apply T; now right|].
  destruct (dev_kind o t) as (C & D); [apply O; now left|apply T; now left|].
  split; constructor; auto.
Qed.

Lemma not_zero t : any_metric t -> b64_eq (b64_of_x t) fzero = false /\ xeq t (Fin 0) = false.
Proof.
  intros [T|[->|[->| ->]]]; try (split; reflexivity).
  destruct (metric_of_x t T) as (q & -> & P & (F & B) & E). split.
  - set (d := b64_of_x (Fin q)) in *. destruct d as [s|s| |s m e]; try contradiction; [simpl in E; lra|destruct s; reflexivity].
  - unfold xeq, xle. destruct (Qle_bool q 0) eqn:L; auto. apply Qle_bool_iff in L. lra.
Qed.

Lemma special_errors os ts :
  os <> nil -> length ts = length os -> (forall x, In x os -> double_metric x) -> (forall x, In x ts -> any_metric x) ->
  (In NaN ts -> calculate_error os ts = Ok NaN /\ double_error os ts = Ok NaN) /\
  (~ In NaN ts -> In PInf ts \/ In NInf ts -> calculate_error os ts = Ok PInf /\ double_error os ts = Ok PInf).
Proof.
  intros N L O T. destruct (combine_kinds os ts L O T) as (A & B).
  assert (existsb (fun t => b64_eq t fzero) (map b64_of_x ts) = false) as Z1.
  { apply not_true_is_false. intros H. apply existsb_exists in H. destruct H as (x & I & H). apply in_map_iff in I.
    destruct I as (t & <- & I). rewrite (proj1 (not_zero t (T t I))) in H. discriminate. }
  assert (existsb (fun t => xeq t (Fin 0)) ts = false) as Z2.
  { apply not_true_is_false. intros H. apply existsb_exists in H. destruct H as (t & I & H).
    rewrite (proj2 (not_zero t (T t I))) in H. discriminate. }
  unfold double_error, f_calculate_error, calculate_error, bcast. rewrite !map_length, <- L, !Nat.eqb_refl, Z1, Z2. cbn [bind].
  destruct ts as [|t ts]; [destruct os; [contradiction|discriminate]|]. change (map tkind (t :: ts)) with (tkind t :: map tkind ts) in A, B.
  destruct (map _ (combine (map b64_of_x os) (map b64_of_x (t :: ts)))) as [|f fs]; [inversion A|].
  destruct (map _ (combine os (t :: ts))) as [|e es]; [inversion B|].
  inversion A as [|? ? ? ? A1 A2]; subst. inversion B as [|? ? ? ? B1 B2]; subst.
  pose proof (fmax_kind _ _ _ _ A1 A2) as KA. pose proof (xmaxl_kind _ _ _ _ B1 B2) as KB.
  split.
  - intros I. rewrite fold_nan in KA, KB.
    + simpl in KA, KB. rewrite KA, KB. split; reflexivity.
    + destruct I as [->|I]; [now left|right]. change KN with (tkind NaN). now apply in_map.
    + destruct I as [->|I]; [now left|right]. change KN with (tkind NaN). now apply in_map.
  - intros NN I.
    assert (fold_left kmax (map tkind ts) (tkind t) = KI) as K.
    { apply fold_inf.
      - intros X. apply NN. left. destruct t; try discriminate X; auto.
      - intros X. apply in_map_iff in X. destruct X as (y & X & Iy). apply NN. right. destruct y; try discriminate X; auto.
      - destruct I as [[->|I]|[->|I]]; auto; right; [change KI with (tkind PInf)|change KI with (tkind NInf)]; now apply in_map. }
    rewrite K in KA, KB. simpl in KA, KB. rewrite KA, KB. split; reflexivity.
Qed.

Lemma special_failed os ts :
  os <> nil -> length ts = length os -> (exists x, In x ts /\ failed_metric x) ->
  calculate_error os ts = Ok (Fin 100) /\ exists q, double_error os ts = Ok (Fin q) /\ q == 100.
Proof.
  intros N L (x & I & F). split.
  - destruct F as (q & -> & Z). eapply error_zero_metric; eauto.
  - unfold double_error. destruct (failed_of_x x F) as (Fx & Vx).
    destruct (failed_case (map b64_of_x os) (map b64_of_x ts) (b64_of_x x)) as (f & Ef & V); auto.
    { rewrite !map_length. congruence. } { now apply in_map. }
    rewrite Ef. cbn [bind]. destruct (fin_of_val f) as [Ff|X]; [rewrite V; discriminate|rewrite x_of_fin by auto|rewrite X]; eauto.
Qed.

(** Distances from a current error that is a double. *)

Lemma special_distance x now nowq : any_value x -> double_value now nowq ->
  match x with
  | Fin _ => exists d, double_distance x now = Fin d
  | NaN => double_distance x now = NaN
  | _ => double_distance x now = PInf
  end.
Proof.
  intros X N. destruct X as [(q & X)|X].
  - destruct (distance_R _ _ _ _ X N) as (d & E & _). destruct X as (? & -> & _). eauto.
  - unfold double_distance. destruct (double_val _ _ N) as (-> & F & _). set (d := b64_of_x (Fin nowq)) in *.
    destruct d as [s|s| |s m e]; try contradiction; destruct X as [->|[->| ->]]; try reflexivity.
Qed.

Lemma special_next K now nowq sc s others : s_far K = double_distance -> double_value now nowq ->
  (forall x, In x sc -> any_value (snd x)) -> next_tried K now sc s others ->
  ((exists s', In (s', NaN) sc) -> In (s, NaN) sc) /\
  ((forall s', ~ In (s', NaN) sc) -> (exists s' q, In (s', Fin q) sc) -> exists q, In (s, Fin q) sc).
Proof.
  intros FA DN DS (before & e & after & E & _ & B & C).
  assert (In (s, e) sc) as I by (rewrite E; apply in_or_app; simpl; auto).
  unfold away in B, C. rewrite FA in B, C. pose proof (special_distance e now nowq (DS _ I) DN) as D. split.
  - intros (s' & I'). destruct C as [C|(C & _)].
    + cbn [snd] in C. destruct e; [destruct D as (d & D)| | |]; try congruence; auto.
    + destruct (C _ I'). cbn [snd]. exact (special_distance NaN now nowq (DS _ I') DN).
  - intros NN (s' & q & I'). destruct (special_distance _ _ _ (DS _ I') DN) as (d' & D').
    assert (e = NaN \/ (exists q, e = Fin q) \/ e = PInf \/ e = NInf) as [->|[(p & ->)|e_inf]] by (destruct e; eauto).
    + destruct (NN _ I).
    + eauto.
    + exfalso. assert (double_distance e now = PInf) as De by (destruct e_inf as [->| ->]; exact D).
      cbn [snd] in *. rewrite De in C. destruct C as [C|(_ & C1 & C2)]; [discriminate|].
      rewrite E in I'. apply in_app_or in I'. destruct I' as [I'|[I'|I']].
      * specialize (C1 _ I'). cbn [snd] in C1. rewrite D' in C1. discriminate.
      * injection I' as _ ->. destruct e_inf; discriminate.
      * specialize (C2 _ I'). cbn [snd] in C2. rewrite D' in C2. discriminate.
Qed.
