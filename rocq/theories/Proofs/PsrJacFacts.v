(** The analytic Jacobian is the derivative of the residual. *)
From Coq Require Import Reals Arith Lra Lia.
From Coq Require Import FunctionalExtensionality.
From Coquelicot Require Import Coquelicot.
From Verif.Model Require Import PsrJac.
From Verif.Spec Require Import PsrJacSpec PsrJacSamples.
Local Open Scope R_scope.

(** ** Sums *)

Lemma sum_ext n f h : (forall k, (k < n)%nat -> f k = h k) -> sum_to n f = sum_to n h.
Proof.
  induction n; intros E; simpl; [reflexivity|]. rewrite IHn by (intros; apply E; lia). rewrite E by lia. reflexivity.
Qed.

Lemma sum_plus n f h : sum_to n (fun k => f k + h k) = sum_to n f + sum_to n h.
Proof. induction n; simpl; [lra|]. rewrite IHn. lra. Qed.

Lemma sum_scal n c f : sum_to n (fun k => c * f k) = c * sum_to n f.
Proof. induction n; simpl; [lra|]. rewrite IHn. lra. Qed.

Lemma sum_zero n : sum_to n (fun _ => 0) = 0.
Proof. induction n; simpl; lra. Qed.

Lemma sum_swap n m (f : nat -> nat -> R) :
  sum_to n (fun i => sum_to m (fun j => f i j)) = sum_to m (fun j => sum_to n (fun i => f i j)).
Proof.
  induction n; simpl; [symmetry; apply sum_zero|]. rewrite IHn. rewrite <- sum_plus. reflexivity.
Qed.

Lemma sum_delta n i f : (i < n)%nat -> sum_to n (fun j => if Nat.eqb i j then f j else 0) = f i.
Proof.
  induction n; intros L; [lia|]. simpl. destruct (Nat.eq_dec i n) as [->|].
  - rewrite Nat.eqb_refl. rewrite (sum_ext _ _ (fun _ => 0)); [rewrite sum_zero; lra|].
    intros k K. destruct (Nat.eqb_spec n k); [lia|reflexivity].
  - rewrite IHn by lia. destruct (Nat.eqb_spec i n); [lia|lra].
Qed.

Lemma const_derive (c x : R) : is_derive (fun _ : R => c) x 0.
Proof. apply is_derive_Reals. apply derivable_pt_lim_const. Qed.

Lemma sum_derive n (f : R -> rvec) (f' : rvec) x :
  (forall k, (k < n)%nat -> is_derive (fun s => f s k) x (f' k)) ->
  is_derive (fun s => sum_to n (f s)) x (sum_to n f').
Proof.
  induction n; intros D; simpl.
  - apply const_derive.
  - apply (is_derive_plus (fun s => sum_to n (f s)) (fun s => f s n)); [apply IHn; intros; apply D; lia|apply D; lia].
Qed.

Lemma quot_derive (f h : R -> R) (f' h' p r x : R) :
  is_derive f x f' -> is_derive h x h' -> f x <> 0 -> h x <> 0 -> r <> 0 ->
  is_derive (fun s => p * (1 / f s) / (r * h s)) x
    (- (p * (1 / f x) / (r * h x)) * (f' / f x + h' / h x)).
Proof.
  intros D E F G K. evar_last.
  - auto_derive; [|reflexivity]. repeat split.
    + exists f'. exact D.
    + exact F.
    + exists h'. exact E.
    + apply Rmult_integral_contrapositive_currified; assumption.
  - rewrite (is_derive_unique (fun s : R => f s) x f' D), (is_derive_unique (fun s : R => h s) x h' E).
    field. auto.
Qed.

Lemma prod_derive (t v r : R -> R) (t' v' r' c x : R) :
  is_derive t x t' -> is_derive v x v' -> is_derive r x r' -> r x <> 0 ->
  is_derive (fun s => t s * v s * c / r s) x
    (t' * v x * c / r x + t x * v' * c / r x - t x * v x * c * r' / r x ^ 2).
Proof.
  intros D E F G. evar_last.
  - auto_derive; [|reflexivity]. repeat split.
    + exists t'. exact D.
    + exists v'. exact E.
    + exists r'. exact F.
    + assumption.
  - rewrite (is_derive_unique (fun s : R => t s) x t' D), (is_derive_unique (fun s : R => v s) x v' E),
      (is_derive_unique (fun s : R => r s) x r' F). field. auto.
Qed.

Section Path.
Variable g : rgas.
Variables P Rgas : R.
Variable rate : rvec -> R -> rvec.
Variable dC : rvec -> R -> nat -> rvec.
Variable dT : rvec -> R -> rvec.
Variables H Cp : nat -> R -> R.
Variable Yin : rvec.
Variables h_in h_scale : R.
Hypothesis IG : ideal_gas g P Rgas rate dC dT H Cp.
Hypothesis RD : rates_differentiable (j_n g) rate dC dT.
Hypothesis HD : forall k T, (k < j_n g)%nat -> 0 < T -> derivable_pt_lim (H k) T (Cp k T).
Hypothesis WP : forall k, (k < j_n g)%nat -> j_W g k <> 0.
Hypothesis PP : P <> 0.
Hypothesis RP : Rgas <> 0.

Notation n := (j_n g).
Notation W := (j_W g).

(** Paths of mass fractions, temperature and residence time. *)
Variable Y : R -> rvec.
Variable Y' : rvec.
Variable T : R -> R.
Variable T' : R.
Variable tau : R -> R.
Variable tau' : R.
Variable x : R.
Hypothesis DY : forall k, (k < n)%nat -> is_derive (fun s => Y s k) x (Y' k).
Hypothesis DT : is_derive T x T'.
Hypothesis Dtau : is_derive tau x tau'.
Hypothesis T0 : 0 < T x.
Hypothesis M0 : sum_to n (fun k => Y x k / W k) <> 0.

Let moles (s : R) : R := sum_to n (fun k => Y s k / W k).
Let moles' : R := sum_to n (fun k => Y' k / W k).
Let rho (s : R) : R := j_rho g (Y s) (T s).
Let rho' : R := sum_to n (fun j => drho_dY g (Y x) (T x) j * Y' j) + drho_dT g (Y x) (T x) * T'.

Lemma moles_derive : is_derive moles x moles'.
Proof.
  apply (sum_derive n (fun s k => Y s k / W k) (fun k => Y' k / W k)). intros k K.
  apply (is_derive_ext (fun s => scal (/ W k) (Y s k))).
  - intros t. unfold scal; simpl; unfold mult; simpl. unfold Rdiv. apply Rmult_comm.
  - unfold Rdiv. rewrite Rmult_comm. apply (is_derive_scal (fun s => Y s k)). apply DY. assumption.
Qed.

Lemma rho_val s : rho s = P * (1 / moles s) / (Rgas * T s).
Proof. unfold rho. destruct (IG (Y s) (T s)) as (A & B & _). rewrite B, A. reflexivity. Qed.

Lemma rho_nz : rho x <> 0.
Proof.
  rewrite rho_val. unfold Rdiv. rewrite Rmult_1_l.
  apply Rmult_integral_contrapositive_currified.
  - apply Rmult_integral_contrapositive_currified; [assumption|]. apply Rinv_neq_0_compat. exact M0.
  - apply Rinv_neq_0_compat. apply Rmult_integral_contrapositive_currified; [assumption|lra].
Qed.

Lemma rho_derive : is_derive rho x rho'.
Proof.
  apply (is_derive_ext (fun s => P * (1 / moles s) / (Rgas * T s))); [intros; symmetry; apply rho_val|].
  pose proof moles_derive as DM.
  evar_last.
  - apply (quot_derive moles T moles' T' P Rgas x DM DT M0); [lra|assumption].
  - unfold rho', drho_dY, drho_dT. fold (rho x).
    destruct (IG (Y x) (T x)) as (A & _). rewrite A. fold (moles x).
    rewrite (sum_ext n (fun j => - rho x * (1 / moles x) / W j * Y' j)
               (fun j => (- rho x * (1 / moles x)) * (Y' j / W j))).
    2: { intros k K. field. split; [apply WP; assumption|exact M0]. }
    rewrite sum_scal. fold moles'. rewrite rho_val. field. repeat split; first [assumption|exact M0|apply Rgt_not_eq; exact T0].
Qed.

Let conc (s : R) : rvec := fun k => rho s * Y s k / W k.
Let conc' : rvec := fun k => (rho' * Y x k + rho x * Y' k) / W k.

Lemma conc_derive k : (k < n)%nat -> is_derive (fun s => conc s k) x (conc' k).
Proof.
  intros K. unfold conc, conc'. pose proof rho_derive as DR. pose proof (DY k K) as D.
  evar_last.
  - apply (is_derive_ext (fun s => scal (/ W k) (mult (rho s) (Y s k)))).
    + intros t. unfold scal; simpl; unfold mult; simpl. unfold Rdiv. apply Rmult_comm.
    + apply (is_derive_scal (fun s => mult (rho s) (Y s k))).
      apply (is_derive_mult rho (fun s => Y s k) x rho' (Y' k) DR D). intros a b. apply Rmult_comm.
  - unfold scal; simpl; unfold mult, plus; simpl. unfold mult; simpl. field. apply WP. assumption.
Qed.

Let w (i : nat) (s : R) : R := j_wdot g (Y s) (T s) i.
Let w' (i : nat) : R :=
  sum_to n (fun m => j_ddC g (Y x) (T x) i m * conc' m) + j_ddT g (Y x) (T x) i * T'.

Lemma w_derive i : (i < n)%nat -> is_derive (w i) x (w' i).
Proof.
  intros I. apply is_derive_Reals.
  assert (forall s, w i s = rate (conc s) (T s) i) as E.
  { intros s. unfold w. destruct (IG (Y s) (T s)) as (_ & _ & A & _). apply A. }
  assert (w' i = sum_to n (fun m => dC (conc x) (T x) i m * conc' m) + dT (conc x) (T x) i * T') as ->.
  { unfold w'. destruct (IG (Y x) (T x)) as (_ & _ & _ & A & B & _).
    rewrite B. f_equal. apply sum_ext. intros k K. rewrite A. reflexivity. }
  apply is_derive_Reals. apply (is_derive_ext (fun s => rate (conc s) (T s) i)); [intros; symmetry; apply E|].
  apply is_derive_Reals. apply RD; auto.
  - intros m M. apply is_derive_Reals. apply conc_derive. assumption.
  - apply is_derive_Reals. exact DT.
Qed.

(** The derivative of a species row along the path, column by column. *)
Lemma species_row i : (i < n)%nat ->
  is_derive (fun s => residual g Yin h_in h_scale (Y s) (T s) (tau s) i) x
    (sum_to n (fun j => core_jacobian g h_scale (Y x) (T x) (tau x) i j * Y' j)
     + core_jacobian g h_scale (Y x) (T x) (tau x) i n * T'
     + core_jacobian g h_scale (Y x) (T x) (tau x) i (n + 1) * tau').
Proof.
  intros I. pose proof rho_derive as DR. pose proof (w_derive i I) as DW. pose proof (DY i I) as DYi.
  pose proof rho_nz as NZ.
  apply (is_derive_ext (fun s => (Y s i - Yin i) - tau s * w i s * W i / rho s)).
  { intros s. unfold residual. apply Nat.ltb_lt in I. rewrite I. reflexivity. }
  evar_last.
  - apply (is_derive_minus (fun s => Y s i - Yin i) (fun s => tau s * w i s * W i / rho s)).
    + apply (is_derive_minus (fun s => Y s i) (fun _ => Yin i)); [exact DYi|apply const_derive].
    + apply (prod_derive tau (w i) rho tau' (w' i) rho' (W i) x Dtau DW DR NZ).
  - unfold core_jacobian. pose proof I as I2. apply Nat.ltb_lt in I2. rewrite I2.
    rewrite Nat.ltb_irrefl, Nat.eqb_refl.
    replace ((n + 1 <? n)%nat) with false by (symmetry; apply Nat.ltb_ge; lia).
    replace (Nat.eqb (n + 1) n) with false by (symmetry; apply Nat.eqb_neq; lia).
    fold (w i x). fold (rho x).
    (* the columns of the mass fractions *)
    assert (sum_to n (fun j => (if (j <? n)%nat
        then (if Nat.eqb i j then 1 else 0) - tau x * ds_dY g (Y x) (T x) i j
        else if Nat.eqb j n then - tau x * ds_dT g (Y x) (T x) i else - (w i x * W i / rho x)) * Y' j)
      = Y' i - tau x * (W i * (sum_to n (fun m => j_ddC g (Y x) (T x) i m *
             (yow g (Y x) m * (rho' - drho_dT g (Y x) (T x) * T') + rho x / W m * Y' m)) / rho x
             - w i x * (rho' - drho_dT g (Y x) (T x) * T') / rho x ^ 2))) as ->.
    { assert (rho' - drho_dT g (Y x) (T x) * T' = sum_to n (fun j => drho_dY g (Y x) (T x) j * Y' j)) as ->
        by (unfold rho'; lra).
      rewrite (sum_ext n _ (fun j => (if Nat.eqb i j then Y' j else 0) +
         ((- tau x * W i / rho x) * sum_to n (fun m => j_ddC g (Y x) (T x) i m * (dCdY g (Y x) (T x) m j * Y' j))
          + (tau x * W i * w i x / rho x ^ 2) * (drho_dY g (Y x) (T x) j * Y' j)))).
      2: { intros j J. apply Nat.ltb_lt in J. rewrite J. unfold ds_dY. fold (w i x). fold (rho x).
           rewrite (sum_ext n (fun m => j_ddC g (Y x) (T x) i m * (dCdY g (Y x) (T x) m j * Y' j))
                      (fun m => Y' j * (j_ddC g (Y x) (T x) i m * dCdY g (Y x) (T x) m j)))
             by (intros; ring).
           rewrite sum_scal. destruct (Nat.eqb i j); field; exact NZ. }
      rewrite !sum_plus, !sum_scal. rewrite sum_delta by assumption.
      rewrite sum_swap.
      rewrite (sum_ext n (fun m => sum_to n (fun j => j_ddC g (Y x) (T x) i m * (dCdY g (Y x) (T x) m j * Y' j)))
        (fun m => j_ddC g (Y x) (T x) i m * (yow g (Y x) m * sum_to n (fun j => drho_dY g (Y x) (T x) j * Y' j) + rho x / W m * Y' m))).
      2: { intros m M. rewrite sum_scal. f_equal.
           rewrite (sum_ext n _ (fun j => yow g (Y x) m * (drho_dY g (Y x) (T x) j * Y' j)
                                   + (if Nat.eqb m j then rho x / W m * Y' j else 0))).
           2: { intros j J. unfold dCdY. fold (rho x). destruct (Nat.eqb m j); ring. }
           rewrite sum_plus, sum_scal, (sum_delta n m (fun j => rho x / W m * Y' j)) by assumption. reflexivity. }
      field. exact NZ. }
    (* the derivative of the rates in the same terms *)
    assert (w' i = sum_to n (fun m => j_ddC g (Y x) (T x) i m *
             (yow g (Y x) m * (rho' - drho_dT g (Y x) (T x) * T') + rho x / W m * Y' m))
           + (j_ddT g (Y x) (T x) i + sum_to n (fun m => j_ddC g (Y x) (T x) i m * (drho_dT g (Y x) (T x) * yow g (Y x) m))) * T') as ->.
    { unfold w'.
      rewrite (sum_ext n (fun m => j_ddC g (Y x) (T x) i m * conc' m)
        (fun m => j_ddC g (Y x) (T x) i m * (yow g (Y x) m * (rho' - drho_dT g (Y x) (T x) * T') + rho x / W m * Y' m)
                  + T' * (j_ddC g (Y x) (T x) i m * (drho_dT g (Y x) (T x) * yow g (Y x) m)))).
      2: { intros m M. unfold conc', yow. field. apply WP. assumption. }
      rewrite sum_plus, sum_scal. ring. }
    unfold ds_dT. fold (w i x). fold (rho x).
    unfold minus, plus, opp, zero; simpl. field. exact NZ.
Qed.

Lemma energy_row i : (n <= i)%nat ->
  is_derive (fun s => residual g Yin h_in h_scale (Y s) (T s) (tau s) i) x
    (sum_to n (fun j => core_jacobian g h_scale (Y x) (T x) (tau x) i j * Y' j)
     + core_jacobian g h_scale (Y x) (T x) (tau x) i n * T'
     + core_jacobian g h_scale (Y x) (T x) (tau x) i (n + 1) * tau').
Proof.
  intros I.
  assert ((i <? n)%nat = false) as IL by (apply Nat.ltb_ge; assumption).
  assert (is_derive (fun s => sum_to n (fun k => Y s k / W k * H k (T s))) x
            (sum_to n (fun k => Y' k / W k * H k (T x) + Y x k / W k * (Cp k (T x) * T')))) as D.
  { apply (sum_derive n (fun s k => Y s k / W k * H k (T s))). intros k K.
    pose proof (DY k K) as D1.
    assert (is_derive (fun s => H k (T s)) x (Cp k (T x) * T')) as D2.
    { pose proof (HD k (T x) K T0) as Q. apply is_derive_Reals in Q.
      pose proof (is_derive_comp (H k) T x _ _ Q DT) as E. unfold scal in E; simpl in E; unfold mult in E; simpl in E.
      rewrite Rmult_comm. exact E. }
    evar_last.
    - apply (is_derive_mult (fun s => Y s k / W k) (fun s => H k (T s)) x (Y' k / W k) (Cp k (T x) * T')); [|exact D2|intros a b; apply Rmult_comm].
      apply (is_derive_ext (fun s => scal (/ W k) (Y s k))).
      + intros t. unfold scal; simpl; unfold mult; simpl. unfold Rdiv. apply Rmult_comm.
      + unfold Rdiv. rewrite Rmult_comm. apply (is_derive_scal (fun s => Y s k)). exact D1.
    - unfold plus, mult; simpl. ring. }
  apply (is_derive_ext (fun s => scal (/ h_scale) (sum_to n (fun k => Y s k / W k * H k (T s)) - h_in))).
  { intros s. unfold residual. rewrite IL. destruct (IG (Y s) (T s)) as (_ & _ & _ & _ & _ & A & _). rewrite A.
    unfold scal; simpl; unfold mult; simpl. unfold Rdiv. apply Rmult_comm. }
  evar_last.
  - apply (is_derive_scal (fun s => sum_to n (fun k => Y s k / W k * H k (T s)) - h_in)).
    apply (is_derive_minus (fun s => sum_to n (fun k => Y s k / W k * H k (T s))) (fun _ => h_in)); [exact D|].
    apply const_derive.
  - unfold core_jacobian. rewrite IL, Nat.ltb_irrefl, Nat.eqb_refl.
    replace ((n + 1 <? n)%nat) with false by (symmetry; apply Nat.ltb_ge; lia).
    replace (Nat.eqb (n + 1) n) with false by (symmetry; apply Nat.eqb_neq; lia).
    destruct (IG (Y x) (T x)) as (_ & _ & _ & _ & _ & _ & A & B). rewrite B.
    rewrite (sum_ext n (fun j => (if (j <? n)%nat then j_hk g (Y x) (T x) j / W j / h_scale
        else if Nat.eqb j n then sum_to n (fun k => Y x k / W k * Cp k (T x)) / h_scale else 0) * Y' j)
        (fun j => / h_scale * (Y' j / W j * H j (T x)))).
    2: { intros k K. pose proof K as K2. apply Nat.ltb_lt in K2. rewrite K2, A. unfold Rdiv. ring. }
    rewrite sum_scal, sum_plus.
    rewrite (sum_ext n (fun k => Y x k / W k * (Cp k (T x) * T')) (fun k => T' * (Y x k / W k * Cp k (T x)))) by (intros; ring).
    rewrite sum_scal. unfold scal, minus, plus, opp, zero; simpl; unfold mult; simpl. unfold Rdiv. ring.
Qed.

Lemma any_row i :
  is_derive (fun s => residual g Yin h_in h_scale (Y s) (T s) (tau s) i) x
    (sum_to n (fun j => core_jacobian g h_scale (Y x) (T x) (tau x) i j * Y' j)
     + core_jacobian g h_scale (Y x) (T x) (tau x) i n * T'
     + core_jacobian g h_scale (Y x) (T x) (tau x) i (n + 1) * tau').
Proof. destruct (le_lt_dec n i); [apply energy_row|apply species_row]; assumption. Qed.
End Path.

(** ** Paths in the scaled unknowns *)

Section Scaled.
Variable g : rgas.
Variables P Rgas : R.
Variable rate : rvec -> R -> rvec.
Variable dC : rvec -> R -> nat -> rvec.
Variable dT : rvec -> R -> rvec.
Variables H Cp : nat -> R -> R.
Variable Yin : rvec.
Variables h_in h_scale : R.
Hypothesis IG : ideal_gas g P Rgas rate dC dT H Cp.
Hypothesis RD : rates_differentiable (j_n g) rate dC dT.
Hypothesis HD : forall k T, (k < j_n g)%nat -> 0 < T -> derivable_pt_lim (H k) T (Cp k T).
Hypothesis WP : forall k, (k < j_n g)%nat -> j_W g k <> 0.
Hypothesis PP : P <> 0.
Hypothesis RP : Rgas <> 0.

Notation n := (j_n g).
Notation W := (j_W g).

Lemma scaled_path (u : R -> rvec) (u' : rvec) x i :
  (forall j, (j < n + 2)%nat -> is_derive (fun s => u s j) x (u' j)) ->
  0 < u x n -> sum_to n (fun k => u x k / W k) <> 0 ->
  is_derive (fun s => scaled_residual g Yin h_in h_scale (u s) i) x
    (sum_to (n + 2) (fun j => scaled_jacobian g h_scale (u x) i j * u' j)).
Proof.
  intros D T0 M0.
  assert (is_derive (fun s => u_T g (u s)) x (u' n * 1000)) as DT.
  { pose proof (D n ltac:(lia)) as E. unfold u_T.
    rewrite Rmult_comm.
    apply (is_derive_ext (fun s => scal 1000 (u s n))).
    - intros t. unfold scal; simpl; unfold mult; simpl. apply Rmult_comm.
    - apply (is_derive_scal (fun s => u s n)). exact E. }
  assert (is_derive (fun s => u_tau g (u s)) x (u' (n + 1)%nat * u_tau g (u x))) as DS.
  { pose proof (D (n + 1)%nat ltac:(lia)) as E. unfold u_tau.
    apply (is_derive_comp exp (fun s => u s (n + 1)%nat) x); [|exact E].
    apply is_derive_Reals. apply derivable_pt_lim_exp. }
  evar_last.
  - apply (any_row g P Rgas rate dC dT H Cp Yin h_in h_scale IG RD HD WP PP RP
             u u' (fun s => u_T g (u s)) (u' n * 1000) (fun s => u_tau g (u s)) (u' (n + 1)%nat * u_tau g (u x)) x);
      auto.
    + intros k K. apply D. lia.
    + unfold u_T. lra.
  - replace (n + 2)%nat with (S (S n)) by lia. simpl.
    unfold scaled_jacobian at 2. rewrite Nat.eqb_refl.
    unfold scaled_jacobian at 2.
    replace (Nat.eqb (S n) n) with false by (symmetry; apply Nat.eqb_neq; lia).
    replace (S n) with (n + 1)%nat by lia. rewrite Nat.eqb_refl.
    rewrite (sum_ext n (fun j => scaled_jacobian g h_scale (u x) i j * u' j)
      (fun j => core_jacobian g h_scale (u x) (u_T g (u x)) (u_tau g (u x)) i j * u' j)).
    2: { intros k K. unfold scaled_jacobian.
         replace (Nat.eqb k n) with false by (symmetry; apply Nat.eqb_neq; lia).
         replace (Nat.eqb k (n + 1)) with false by (symmetry; apply Nat.eqb_neq; lia). reflexivity. }
    ring.
Qed.

Lemma augmented_path t up ds (u : R -> rvec) (u' : rvec) x i :
  (forall j, (j < n + 2)%nat -> is_derive (fun s => u s j) x (u' j)) ->
  0 < u x n -> sum_to n (fun k => u x k / W k) <> 0 ->
  is_derive (fun s => aug_residual g Yin h_in h_scale t up ds (u s) i) x
    (sum_to (n + 2) (fun j => aug_jacobian g h_scale t (u x) i j * u' j)).
Proof.
  intros D T0 M0. unfold aug_residual, aug_jacobian. destruct ((i <? n + 1)%nat).
  - apply scaled_path; assumption.
  - evar_last.
    + apply (is_derive_minus (fun s => sum_to (n + 2) (fun j => t j * (u s j - up j))) (fun _ => ds)); [|apply const_derive].
      apply (sum_derive (n + 2) (fun s j => t j * (u s j - up j)) (fun j => t j * u' j)). intros k K.
      apply (is_derive_scal (fun s => u s k - up k)).
      evar_last.
      * apply (is_derive_minus (fun s => u s k) (fun _ => up k)); [apply D; assumption|apply const_derive].
      * unfold minus, plus, opp; simpl. ring.
    + unfold minus, plus, opp; simpl. ring.
Qed.

Lemma put_same u j : put u j (u j) = u.
Proof.
  apply functional_extensionality. intros i. unfold put. destruct (Nat.eqb_spec i j); congruence.
Qed.

Lemma put_derive u j k x : is_derive (fun s => put u j s k) x (if Nat.eqb j k then 1 else 0).
Proof.
  unfold put. rewrite Nat.eqb_sym. destruct (Nat.eqb j k); [|apply const_derive].
  apply is_derive_Reals. apply derivable_pt_lim_id.
Qed.

Lemma augmented_entry t up ds u i j : (j < n + 2)%nat ->
  0 < u n -> sum_to n (fun k => u k / W k) <> 0 ->
  is_derive (fun s => aug_residual g Yin h_in h_scale t up ds (put u j s) i) (u j) (aug_jacobian g h_scale t u i j).
Proof.
  intros J T0 M0.
  pose proof (augmented_path t up ds (fun s => put u j s) (fun k => if Nat.eqb j k then 1 else 0) (u j) i) as A.
  simpl in A. rewrite put_same in A. evar_last.
  - apply A; auto. intros k _. apply put_derive.
  - rewrite (sum_ext (n + 2) _ (fun k => if Nat.eqb j k then aug_jacobian g h_scale t u i k else 0))
      by (intros k _; destruct (Nat.eqb j k); ring).
    apply sum_delta. assumption.
Qed.

(** The entries in the mass fractions, temperature and residence time. *)
Lemma core_entries Y T tau i : 0 < T -> sum_to n (fun k => Y k / W k) <> 0 ->
  (forall j, (j < n)%nat ->
     is_derive (fun s => residual g Yin h_in h_scale (put Y j s) T tau i) (Y j) (core_jacobian g h_scale Y T tau i j)) /\
  is_derive (fun s => residual g Yin h_in h_scale Y s tau i) T (core_jacobian g h_scale Y T tau i n) /\
  is_derive (fun s => residual g Yin h_in h_scale Y T s i) tau (core_jacobian g h_scale Y T tau i (n + 1)).
Proof.
  intros T0 M0.
  assert (forall x : R, is_derive (fun s : R => s) x 1) as ID by (intros; apply is_derive_Reals; apply derivable_pt_lim_id).
  split; [|split].
  - intros j J. evar_last.
    + apply (any_row g P Rgas rate dC dT H Cp Yin h_in h_scale IG RD HD WP PP RP
        (fun s => put Y j s) (fun k => if Nat.eqb j k then 1 else 0) (fun _ => T) 0 (fun _ => tau) 0 (Y j)); auto using const_derive.
      * intros k _. apply put_derive.
      * rewrite put_same. assumption.
    + simpl. rewrite put_same. rewrite !Rmult_0_r, !Rplus_0_r.
      rewrite (sum_ext n _ (fun k => if Nat.eqb j k then core_jacobian g h_scale Y T tau i k else 0))
        by (intros k _; destruct (Nat.eqb j k); ring).
      apply sum_delta. assumption.
  - evar_last.
    + apply (any_row g P Rgas rate dC dT H Cp Yin h_in h_scale IG RD HD WP PP RP
        (fun _ => Y) (fun _ => 0) (fun s => s) 1 (fun _ => tau) 0 T); auto using const_derive.
    + rewrite (sum_ext n _ (fun _ => 0)) by (intros; ring). rewrite sum_zero. ring.
  - evar_last.
    + apply (any_row g P Rgas rate dC dT H Cp Yin h_in h_scale IG RD HD WP PP RP
        (fun _ => Y) (fun _ => 0) (fun _ => T) 0 (fun s => s) 1 tau); auto using const_derive.
    + rewrite (sum_ext n _ (fun _ => 0)) by (intros; ring). rewrite sum_zero. ring.
Qed.
End Scaled.

(** ** A gas of two species with one Arrhenius reaction *)

Lemma two_ideal : ideal_gas two_gas 100 8 two_rate two_dC two_dT two_H two_Cp.
Proof. intros Y T. simpl. repeat split. Qed.

Lemma two_differentiable : rates_differentiable (j_n two_gas) two_rate two_dC two_dT.
Proof.
  intros C C' T T' x i I DC DT T0. simpl in I.
  pose proof (DC 0%nat ltac:(simpl; lia)) as D0. apply is_derive_Reals in D0. apply is_derive_Reals in DT.
  assert (is_derive (fun s => exp (- (1 / T s)) * C s 0%nat) x
    (exp (- (1 / T x)) * C' 0%nat + exp (- (1 / T x)) / T x ^ 2 * C x 0%nat * T')) as E.
  { set (c := fun s => C s 0%nat) in *.
    change (is_derive (fun s => exp (- (1 / T s)) * c s) x
      (exp (- (1 / T x)) * C' 0%nat + exp (- (1 / T x)) / T x ^ 2 * c x * T')).
    clearbody c. clear DC C. evar_last.
    - auto_derive; [|reflexivity]. repeat split.
      + exists T'. exact DT.
      + lra.
      + exists (C' 0%nat). exact D0.
    - rewrite (is_derive_unique (fun s : R => c s) x _ D0), (is_derive_unique (fun s : R => T s) x _ DT).
      unfold Rdiv. set (e := exp (- (1 * / T x))). field. lra. }
  destruct i as [|[|]]; [| |lia]; apply is_derive_Reals; simpl.
  - evar_last; [apply (is_derive_opp (fun s => exp (- (1 / T s)) * C s 0%nat)); exact E|].
    unfold opp; simpl. set (e := exp (- (1 / T x))). field. lra.
  - evar_last; [exact E|]. set (e := exp (- (1 / T x))). field. lra.
Qed.

Lemma two_heat : forall k T, (k < j_n two_gas)%nat -> 0 < T -> derivable_pt_lim (two_H k) T (two_Cp k T).
Proof.
  intros k T K _. apply is_derive_Reals. destruct k as [|[|]]; simpl in *; [| |lia]; unfold two_H, two_Cp;
    (evar_last; [auto_derive; [exact I|reflexivity]|ring]).
Qed.

Lemma two_weights : forall k, (k < j_n two_gas)%nat -> j_W two_gas k <> 0.
Proof. intros [|[|]] K; simpl in *; [lra|lra|lia]. Qed.

Lemma two_moles : sum_to (j_n two_gas) (fun k => two_Y k / j_W two_gas k) = 3 / 8.
Proof. simpl. unfold two_Y, two_W. simpl. lra. Qed.
