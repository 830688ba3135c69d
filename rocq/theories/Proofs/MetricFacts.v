(** Facts about [calculate_error]. *)
From Coq Require Import List QArith Qabs Bool Arith Lia Lqa Permutation.
From Verif.Base Require Import Py Num XNum.
From Verif.Model Require Import Metrics.
From Verif.Spec Require Import MetricSpec.
From Verif.Proofs Require Import NumFacts.
Import ListNotations.
Local Open Scope Q_scope.

Definition term (ot : xnum * xnum) : xnum := xdiv (xabs (xsub (fst ot) (snd ot))) (fst ot).

Lemma calc_eq os ts : length os = length ts -> os <> nil ->
  exists e es, map term (combine os ts) = e :: es /\
    calculate_error os ts =
    Ok (if existsb (fun t => xeq t (Fin 0)) ts then Fin 100 else xmul (Fin 100) (xmax_list e es)).
Proof.
  intros L N. destruct os as [|o os]; [contradiction|]. destruct ts as [|t ts]; [discriminate|].
  simpl combine. simpl map. eexists. eexists. split; [reflexivity|].
  unfold calculate_error, bcast. rewrite L, Nat.eqb_refl. reflexivity.
Qed.

Lemma xeq_zero t : xeq t (Fin 0) = true <-> exists q, t = Fin q /\ q == 0.
Proof.
  unfold xeq, xle. destruct t as [q| | |]; simpl; split; intros H; try discriminate;
    try (destruct H as (q' & E & _); discriminate).
  - apply andb_true_iff in H. destruct H as [A B]. apply Qle_bool_iff in A. apply Qle_bool_iff in B.
    exists q. split; auto. lra.
  - destruct H as (q' & E & Z). inversion E; subst. apply andb_true_iff.
    split; apply Qle_bool_iff; lra.
Qed.

Lemma existsb_zero ts : existsb (fun t => xeq t (Fin 0)) ts = true <-> exists q, In (Fin q) ts /\ q == 0.
Proof.
  rewrite existsb_exists. split.
  - intros (t & I & Z). apply xeq_zero in Z. destruct Z as (q & -> & Z). eauto.
  - intros (q & I & Z). exists (Fin q). split; auto. apply xeq_zero. eauto.
Qed.

Lemma term_fin p q : 0 < p -> term (Fin p, Fin q) = Fin (Qabs (p + - q) / p).
Proof.
  intros P. unfold term. simpl. destruct (Qeq_bool p 0) eqn:E; auto.
  apply Qeq_bool_iff in E. lra.
Qed.

Lemma xmax_list_cons a x l : xmax_list a (x :: l) = xmax_list (xmax a x) l.
Proof. reflexivity. Qed.

(** The maximum of a list of finite numbers. *)
Lemma xmax_list_fin : forall l a, (forall x, In x l -> exists q, x = Fin q) ->
  exists m, xmax_list (Fin a) l = Fin m /\ a <= m /\ (forall q, In (Fin q) l -> q <= m) /\
    (m = a \/ In (Fin m) l).
Proof.
  induction l as [|x l IH]; intros a H.
  - exists a. simpl. repeat split; auto; try lra. intros q [].
  - destruct (H x) as [b ->]; [simpl; auto|]. rewrite xmax_list_cons. unfold xmax. simpl is_nan. cbv iota. simpl xlt.
    destruct (Qlt_bool a b) eqn:C.
    + apply Qlt_bool_iff in C. destruct (IH b) as (m & M1 & M2 & M3 & M4); [intros; apply H; simpl; auto|].
      exists m. repeat split; auto; try lra.
      * intros q [E|I]; [inversion E; subst; auto|auto].
      * destruct M4 as [->|]; simpl; auto.
    + apply Qlt_bool_false in C. destruct (IH a) as (m & M1 & M2 & M3 & M4); [intros; apply H; simpl; auto|].
      exists m. repeat split; auto; try lra.
      * intros q [E|I]; [inversion E; subst; lra|auto].
      * destruct M4 as [->|]; simpl; auto.
Qed.

Lemma xmax_nan_l l : xmax_list NaN l = NaN.
Proof. induction l; simpl; auto. Qed.

Lemma xmax_nan l : forall a, In NaN (a :: l) -> xmax_list a l = NaN.
Proof.
  induction l as [|x l IH]; intros a H.
  - destruct H as [->|[]]. reflexivity.
  - rewrite xmax_list_cons. destruct H as [->|[->|H]].
    + apply xmax_nan_l.
    + unfold xmax. destruct (is_nan a); simpl; apply xmax_nan_l.
    + apply IH. simpl; auto.
Qed.

Lemma xmax_list_not_nan l : forall a, ~ In NaN (a :: l) -> In (xmax_list a l) (a :: l) /\
  forall x, In x (a :: l) -> xle x (xmax_list a l) = true.
Proof.
  assert (xle_refl : forall x, x <> NaN -> xle x x = true).
  { intros [q| | |] H; simpl; auto. apply Qle_bool_iff. lra. }
  assert (xle_trans : forall x y z, xle x y = true -> xle y z = true -> xle x z = true).
  { intros [p| | |] [q| | |] [r| | |]; simpl; intros; try discriminate; auto.
    apply Qle_bool_iff in H. apply Qle_bool_iff in H0. apply Qle_bool_iff. lra. }
  assert (lt_le : forall x y, x <> NaN -> y <> NaN -> (if xlt x y then xle x y else xle y x) = true).
  { intros [p| | |] [q| | |] H1 H2; simpl; auto; try contradiction.
    destruct (Qlt_bool p q) eqn:C; apply Qle_bool_iff.
    - apply Qlt_bool_iff in C. lra.
    - apply Qlt_bool_false in C. lra. }
  induction l as [|x l IH]; intros a H.
  - simpl. split; auto. intros y [->|[]]. apply xle_refl. intros ->. apply H; simpl; auto.
  - assert (a <> NaN) as Na by (intros ->; apply H; simpl; auto).
    assert (x <> NaN) as Nx by (intros ->; apply H; simpl; auto).
    assert (xmax a x = if xlt a x then x else a) as E.
    { unfold xmax. destruct a, x; simpl; auto; contradiction. }
    specialize (lt_le a x Na Nx).
    rewrite xmax_list_cons, E. destruct (xlt a x) eqn:C.
    + destruct (IH x) as [I1 I2]; [intros I; apply H; simpl in *; tauto|]. split; [simpl in *; tauto|].
      intros y [->|[->|Hy]].
      * eapply xle_trans; [exact lt_le|]. apply I2; simpl; auto.
      * apply I2; simpl; auto.
      * apply I2; simpl; auto.
    + destruct (IH a) as [I1 I2]; [intros I; apply H; simpl in *; tauto|]. split; [simpl in *; tauto|].
      intros y [->|[->|Hy]].
      * apply I2; simpl; auto.
      * eapply xle_trans; [exact lt_le|]. apply I2; simpl; auto.
      * apply I2; simpl; auto.
Qed.

Lemma combine_in_l {A B} (l : list A) (l' : list B) : length l = length l' ->
  forall x, In x l -> exists y, In (x, y) (combine l l').
Proof.
  revert l'. induction l as [|a l IH]; intros [|b l'] L x H; try discriminate; [destruct H|].
  destruct H as [->|H]; [exists b; simpl; auto|].
  destruct (IH l' (f_equal pred L) x H) as [y Hy]. exists y; simpl; auto.
Qed.

Lemma combine_in_r {A B} (l : list A) (l' : list B) : length l = length l' ->
  forall y, In y l' -> exists x, In (x, y) (combine l l').
Proof.
  revert l'. induction l as [|a l IH]; intros [|b l'] L x H; try discriminate; [destruct H|].
  destruct H as [->|H]; [exists a; simpl; auto|].
  destruct (IH l' (f_equal pred L) x H) as [y Hy]. exists y; simpl; auto.
Qed.

(** Finite nonzero test metrics: the largest relative deviation. *)
Lemma error_is_worst os ts :
  length os = length ts -> os <> nil -> (forall o, In o os -> positive o) ->
  (forall t, In t ts -> usable t) ->
  exists e, calculate_error os ts = Ok (Fin e) /\
    (forall o t, In (o, t) (combine os ts) -> within e o t) /\
    (exists p q, In (Fin p, Fin q) (combine os ts) /\ 100 * Qabs (p - q) == e * p).
Proof.
  intros L N P U. destruct (calc_eq os ts L N) as (x & xs & E & C). rewrite C.
  assert (existsb (fun t => xeq t (Fin 0)) ts = false) as ->.
  { destruct (existsb (fun t => xeq t (Fin 0)) ts) eqn:X; auto. apply existsb_zero in X.
    destruct X as (q & I & Z). destruct (U _ I) as (q' & Eq & NZ). inversion Eq; subst. contradiction. }
  assert (forall y, In y (x :: xs) -> exists p q, In (Fin p, Fin q) (combine os ts) /\ 0 < p /\
            y = Fin (Qabs (p + - q) / p)) as T.
  { intros y Hy. rewrite <- E in Hy. apply in_map_iff in Hy. destruct Hy as ([o t] & <- & I).
    pose proof (in_combine_l _ _ _ _ I) as Io. pose proof (in_combine_r _ _ _ _ I) as It.
    destruct (P _ Io) as (p & -> & Pp). destruct (U _ It) as (q & -> & _).
    exists p, q. repeat split; auto. now apply term_fin. }
  destruct (T x) as (p0 & q0 & I0 & P0 & ->); [simpl; auto|].
  destruct (xmax_list_fin xs (Qabs (p0 + - q0) / p0)) as (m & M1 & M2 & M3 & M4).
  { intros y Hy. destruct (T y) as (p & q & _ & _ & ->); [simpl; auto|]. eauto. }
  rewrite M1. exists (100 * m). split; [reflexivity|]. split.
  - intros o t I. pose proof (in_combine_l _ _ _ _ I) as Io. pose proof (in_combine_r _ _ _ _ I) as It.
    destruct (P _ Io) as (p & -> & Pp). destruct (U _ It) as (q & -> & _).
    exists p, q. split; [auto|]. split; [auto|].
    assert (Qabs (p + - q) / p <= m) as B.
    { assert (In (term (Fin p, Fin q)) (Fin (Qabs (p0 + - q0) / p0) :: xs)) as J.
      { rewrite <- E. now apply in_map. }
      rewrite term_fin in J by auto. destruct J as [J|J]; [assert (J2 : Qabs (p0 + - q0) / p0 = Qabs (p + - q) / p) by congruence; rewrite <- J2; exact M2|auto]. }
    assert (Qabs (p + - q) <= m * p) as B'.
    { apply Qle_shift_div_r in B || idtac.
      setoid_replace (Qabs (p + - q)) with (Qabs (p + - q) / p * p) by (field; lra).
      apply Qmult_le_compat_r; lra. }
    unfold Qminus. lra.
  - assert (exists p q, In (Fin p, Fin q) (combine os ts) /\ 0 < p /\ m == Qabs (p + - q) / p) as (p & q & I & Pp & Em).
    { destruct M4 as [M4|M4].
      - exists p0, q0. repeat split; auto. rewrite M4. reflexivity.
      - destruct (T (Fin m)) as (p & q & I & Pp & Eq); [simpl; auto|]. exists p, q. inversion Eq; subst.
        repeat split; auto. }
    exists p, q. split; auto. unfold Qminus. rewrite Em. field. lra.
Qed.

Lemma error_zero_metric os ts q :
  length os = length ts -> In (Fin q) ts -> q == 0 ->
  calculate_error os ts = Ok (Fin 100).
Proof.
  intros L I Z. assert (os <> nil) as N. { intros ->. destruct ts; [destruct I|discriminate]. }
  destruct (calc_eq os ts L N) as (x & xs & E & C). rewrite C.
  assert (existsb (fun t => xeq t (Fin 0)) ts = true) as -> by (apply existsb_zero; eauto). reflexivity.
Qed.

Lemma error_nan_metric os ts :
  length os = length ts -> In NaN ts -> (forall q, In (Fin q) ts -> ~ q == 0) ->
  calculate_error os ts = Ok NaN.
Proof.
  intros L I Z. assert (os <> nil) as N. { intros ->. destruct ts; [destruct I|discriminate]. }
  destruct (calc_eq os ts L N) as (x & xs & E & C). rewrite C.
  assert (existsb (fun t => xeq t (Fin 0)) ts = false) as ->.
  { destruct (existsb (fun t => xeq t (Fin 0)) ts) eqn:X; auto. apply existsb_zero in X.
    destruct X as (q & J & Q0). exfalso. eapply Z; eauto. }
  rewrite xmax_nan; [reflexivity|]. rewrite <- E.
  destruct (combine_in_r os ts L NaN I) as [o Ho]. apply in_map_iff. exists (o, NaN). split; auto.
  unfold term. simpl. destruct o; reflexivity.
Qed.

(** [error <= l < 100] makes every metric usable and within [l] percent. *)
Lemma error_le_within os ts e l :
  length os = length ts -> (forall o, In o os -> positive o) -> l < 100 ->
  calculate_error os ts = Ok e -> xle e (Fin l) = true ->
  forall o t, In (o, t) (combine os ts) -> usable t /\ within l o t.
Proof.
  intros L P H100 C Le.
  assert (os <> nil -> forall t, In t ts -> usable t) as U.
  { intros N t It. destruct (calc_eq os ts L N) as (x & xs & E & C'). rewrite C' in C.
    destruct (existsb (fun t => xeq t (Fin 0)) ts) eqn:X.
    { inversion C; subst e. simpl in Le. apply Qle_bool_iff in Le. lra. }
    assert (~ In NaN (x :: xs)) as NN.
    { intros I. rewrite (xmax_nan xs x I) in C. inversion C; subst e. discriminate. }
    destruct (xmax_list_not_nan xs x NN) as [M1 M2].
    destruct (combine_in_r os ts L t It) as [o Ho].
    pose proof (in_combine_l _ _ _ _ Ho) as Io. destruct (P _ Io) as (p & -> & Pp).
    assert (In (term (Fin p, t)) (x :: xs)) as J. { rewrite <- E. now apply in_map. }
    pose proof (M2 _ J) as B.
    assert (xmax_list x xs <> PInf) as NP.
    { intros Q0. rewrite Q0 in C. simpl in C. inversion C; subst e. discriminate. }
    assert (forall t', t = t' -> t' = PInf \/ t' = NInf -> False) as NI.
    { intros t' -> [-> | ->]; unfold term in B, J; simpl in B, J;
        (assert (Qlt_bool p 0 = false) as Z by (apply Qlt_bool_false; lra)); rewrite Z in B;
        simpl in B; destruct (xmax_list x xs); try discriminate; contradiction. }
    destruct t as [q| | |].
    - exists q. split; auto. intros Z. assert (existsb (fun t => xeq t (Fin 0)) ts = true); [|congruence].
      apply existsb_zero. eauto.
    - exfalso. eapply NI; eauto.
    - exfalso. eapply NI; eauto.
    - exfalso. apply NN. assert (term (Fin p, NaN) = NaN) as T by reflexivity. now rewrite <- T. }
  intros o t I. assert (os <> nil) as N. { intros ->. destruct I. }
  specialize (U N). split; [apply U; eapply in_combine_r; eauto|].
  destruct (error_is_worst os ts L N P U) as (m & C' & W & _). rewrite C' in C. inversion C; subst e.
  simpl in Le. apply Qle_bool_iff in Le. destruct (W o t I) as (p & q & -> & -> & B).
  exists p, q. split; [auto|]. split; [auto|].
  destruct (P (Fin p)) as (p' & E & Pp); [eapply in_combine_l; eauto|]. inversion E; subst p'. nra.
Qed.

Lemma error_within_le os ts l :
  length os = length ts -> os <> nil -> (forall o, In o os -> positive o) -> l < 100 ->
  (forall o t, In (o, t) (combine os ts) -> within l o t) ->
  exists e, calculate_error os ts = Ok (Fin e) /\ e <= l.
Proof.
  intros L N P H100 W.
  assert (forall t, In t ts -> usable t) as U.
  { intros t It. destruct (combine_in_r os ts L t It) as [o Ho].
    destruct (W o t Ho) as (p & q & -> & -> & B). exists q. split; auto. intros Z.
    destruct (P (Fin p)) as (p' & E & Pp); [eapply in_combine_l; eauto|]. inversion E; subst p'.
    assert (Qabs (p - q) == p) as A.
    { assert (p - q == p) as -> by lra. rewrite Qabs_pos; lra. }
    rewrite A in B. nra. }
  destruct (error_is_worst os ts L N P U) as (m & C' & _ & (p & q & I & E)).
  exists m. split; auto. destruct (W _ _ I) as (p' & q' & E1 & E2 & B). inversion E1; inversion E2; subst.
  destruct (P (Fin p')) as (p'' & E3 & Pp); [eapply in_combine_l; eauto|]. inversion E3; subst p''.
  nra.
Qed.

Lemma error_zero_iff os ts :
  length os = length ts -> os <> nil -> (forall o, In o os -> positive o) ->
  (exists e, calculate_error os ts = Ok (Fin e) /\ e == 0) <->
  (forall o t, In (o, t) (combine os ts) -> same_num o t).
Proof.
  intros L N P. split.
  - intros (e & C & Z) o t I.
    destruct (error_le_within os ts (Fin e) 0 L P) with (o := o) (t := t) as [_ (p & q & -> & -> & B)]; auto.
    { lra. } { simpl. apply Qle_bool_iff. lra. }
    simpl. assert (Qabs (p - q) <= 0) as A by lra. apply Qabs_Qle_condition in A. lra.
  - intros W. destruct (error_within_le os ts 0 L N P) as (e & C & B).
    + lra.
    + intros o t I. specialize (W o t I). destruct (P o) as (p & -> & Pp); [eapply in_combine_l; eauto|].
      destruct t as [q| | |]; simpl in W; try contradiction.
      exists p, q. split; [auto|]. split; [auto|].
      assert (p - q == 0) as -> by lra. change (Qabs 0) with 0. lra.
    + exists e. split; auto.
      assert (forall t, In t ts -> usable t) as U.
      { intros t It. destruct (combine_in_r os ts L t It) as [o Ho]. specialize (W o t Ho).
        destruct (P o) as (p & -> & Pp); [eapply in_combine_l; eauto|].
        destruct t as [q| | |]; simpl in W; try contradiction. exists q. split; auto. lra. }
      destruct (error_is_worst os ts L N P U) as (m & C' & _ & (p & q & I & E)).
      rewrite C' in C. inversion C; subst m.
      destruct (P (Fin p)) as (p'' & E3 & Pp); [eapply in_combine_l; eauto|]. inversion E3; subst p''.
      pose proof (Qabs_nonneg (p - q)). nra.
Qed.

(** Order of the cases. *)
Lemma combine_map {A B} (l : list (A * B)) : combine (map fst l) (map snd l) = l.
Proof. induction l as [|[a b] l IH]; simpl; congruence. Qed.

Lemma Permutation_existsb {A} (f : A -> bool) l l' : Permutation l l' -> existsb f l = existsb f l'.
Proof.
  intros H. destruct (existsb f l) eqn:E; destruct (existsb f l') eqn:E'; auto.
  - apply existsb_exists in E. destruct E as (x & I & F).
    assert (existsb f l' = true); [|congruence]. apply existsb_exists. exists x. split; auto.
    eapply Permutation_in; eauto.
  - apply existsb_exists in E'. destruct E' as (x & I & F).
    assert (existsb f l = true); [|congruence]. apply existsb_exists. exists x. split; auto.
    eapply Permutation_in; [apply Permutation_sym|]; eauto.
Qed.

Lemma xle_antisym a b : xle a b = true -> xle b a = true -> same_num a b.
Proof.
  destruct a, b; simpl; intros; try discriminate; auto.
  apply Qle_bool_iff in H. apply Qle_bool_iff in H0. lra.
Qed.

Lemma xmax_perm a l b l' : Permutation (a :: l) (b :: l') -> same_num (xmax_list a l) (xmax_list b l').
Proof.
  intros H. destruct (in_dec (fun x y : xnum => ltac:(destruct x, y; try (right; discriminate); try (left; reflexivity);
     destruct (Z.eq_dec (Qnum q) (Qnum q0)); [destruct (Pos.eq_dec (Qden q) (Qden q0))|];
     [left; destruct q, q0; simpl in *; congruence|right; intros E; inversion E; subst; contradiction|right; intros E; inversion E; subst; contradiction])) NaN (a :: l)) as [I|I].
  - rewrite (xmax_nan l a I), (xmax_nan l' b). { simpl. auto. } eapply Permutation_in; eauto.
  - assert (~ In NaN (b :: l')) as I'.
    { intros J. apply I. eapply Permutation_in; [apply Permutation_sym|]; eauto. }
    destruct (xmax_list_not_nan l a I) as [A1 A2]. destruct (xmax_list_not_nan l' b I') as [B1 B2].
    apply xle_antisym.
    + apply B2. eapply Permutation_in; eauto.
    + apply A2. eapply Permutation_in; [apply Permutation_sym|]; eauto.
Qed.

Lemma same_mul a b : same_num a b -> same_num (xmul (Fin 100) a) (xmul (Fin 100) b).
Proof. destruct a, b; simpl; intros H; try contradiction; auto. rewrite H. reflexivity. Qed.

Lemma error_perm l l' : l <> nil -> Permutation l l' ->
  exists e e', calculate_error (map fst l) (map snd l) = Ok e /\
               calculate_error (map fst l') (map snd l') = Ok e' /\ same_num e e'.
Proof.
  intros N H.
  assert (l' <> nil) as N'. { intros ->. apply Permutation_sym, Permutation_nil in H. contradiction. }
  destruct (calc_eq (map fst l) (map snd l)) as (x & xs & E & C); [now rewrite !map_length|destruct l; [contradiction|discriminate]|].
  destruct (calc_eq (map fst l') (map snd l')) as (y & ys & E' & C'); [now rewrite !map_length|destruct l'; [contradiction|discriminate]|].
  do 2 eexists. split; [exact C|]. split; [exact C'|].
  rewrite combine_map in E, E'.
  rewrite (Permutation_existsb _ _ _ (Permutation_map snd H)).
  destruct (existsb (fun t => xeq t (Fin 0)) (map snd l')); [simpl; reflexivity|].
  apply same_mul. apply xmax_perm. rewrite <- E, <- E'. now apply Permutation_map.
Qed.

Lemma error_nan_pkg os ts limit :
  length os = length ts -> In NaN ts -> (forall q, In (Fin q) ts -> ~ q == 0) ->
  exists e, calculate_error os ts = Ok e /\ xgt e limit = false /\ xle e limit = false.
Proof.
  intros L I Z. exists NaN. split; [now apply error_nan_metric|]. split; destruct limit; reflexivity.
Qed.
