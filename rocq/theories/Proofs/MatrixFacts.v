(** Lemmas about the adjacency-matrix builders. *)
From Coq Require Import List QArith Qminmax Qabs Bool Arith Lia Lqa.
From Verif.Base Require Import Num.
From Verif.Model Require Import Matrices.
From Verif.Spec Require Import MatrixSpec.
From Verif.Proofs Require Import NumFacts.
Import ListNotations.
Local Open Scope Q_scope.

Lemma fill_diag_fold n M l :
  shape n n M -> (forall i, In i l -> (i < n)%nat) ->
  let M' := fold_left (fun M i => mset M i i 0) l M in
  shape n n M' /\
  forall a b, mget M' a b = if (Nat.eqb a b && existsb (Nat.eqb a) l)%bool then 0 else mget M a b.
Proof.
  revert M. induction l as [|i l IH]; simpl; intros M S H.
  - split; auto. intros a b. rewrite andb_false_r. reflexivity.
  - assert (i < n)%nat as Hi by (apply H; auto).
    destruct (IH (mset M i i 0)) as [S' E]; [now apply mset_shape|auto|].
    split; auto. intros a b. rewrite E. rewrite (mget_mset n n) by auto.
    destruct (Nat.eqb_spec a b); simpl.
    + subst. destruct (Nat.eqb_spec b i); simpl; auto.
      destruct (existsb (Nat.eqb b) l); auto.
    + destruct (Nat.eqb_spec a i); simpl; auto. destruct (Nat.eqb_spec b i); simpl; auto. lia.
Qed.

Lemma fill_diagonal_spec n M :
  shape n n M ->
  shape n n (fill_diagonal n M) /\
  forall a b, (a < n)%nat -> mget (fill_diagonal n M) a b = if Nat.eqb a b then 0 else mget M a b.
Proof.
  intros S. destruct (fill_diag_fold n M (seq 0 n) S) as [S' E].
  { intros i Hi. apply in_seq in Hi. lia. }
  split; auto. intros a b Ha. unfold fill_diagonal. rewrite E.
  assert (existsb (Nat.eqb a) (seq 0 n) = true) as ->.
  { apply existsb_exists. exists a. split; [apply in_seq; lia|apply Nat.eqb_refl]. }
  rewrite andb_true_r. reflexivity.
Qed.

Lemma zeros_shape n : shape n n (zeros n).
Proof. apply mtab_shape. Qed.

Lemma mget_zeros n a b : (a < n)%nat -> (b < n)%nat -> mget (zeros n) a b = 0.
Proof. intros. unfold zeros. now rewrite mget_mtab. Qed.

Lemma valid_in K i : In i (valid_reactions K) <-> (i < nrx K)%nat /\ ~ rop K i == 0.
Proof.
  unfold valid_reactions. rewrite filter_In, in_seq, Qnz_iff. unfold nrx. intuition lia.
Qed.

(** Summing over valid reactions is summing over all reactions. *)
Lemma sum_valid K f :
  (forall i, rop K i == 0 -> f i == 0) ->
  sumQ (map f (valid_reactions K)) == Qsum f (nrx K).
Proof.
  intros H. unfold valid_reactions. rewrite sumQ_filter, sumQ_seq.
  apply Qsum_ext. intros i _. destruct (Qnz (rop K i)) eqn:E; [lra|].
  apply Qnz_false in E. rewrite H by auto. lra.
Qed.

Lemma sum_valid_with K b f :
  (forall i, rop K i == 0 -> f i == 0) ->
  sumQ (map f (valid_with K b)) == Qsum (fun i => if flag K b i then f i else 0) (nrx K).
Proof.
  intros H. unfold valid_with. rewrite sumQ_filter. apply sum_valid.
  intros i Hi. destruct (flag K b i); [auto|lra].
Qed.

Lemma flag_iff K b i : flag K b i = true <-> involved K b i.
Proof.
  unfold flag, involved. rewrite orb_true_iff, !Qnz_iff. tauto.
Qed.

Lemma indicator_flag K d b i : indicator K d -> d b i == if flag K b i then 1 else 0.
Proof.
  intros H. destruct (H b i) as [H1 H2]. destruct (flag K b i) eqn:E.
  - apply H1. now apply flag_iff.
  - apply H2. rewrite <- flag_iff. congruence.
Qed.

Lemma base_rate K a i : net_stoich K a i * rop K i = rate K a i.
Proof. reflexivity. Qed.

Lemma rate_zero K a i : rop K i == 0 -> rate K a i == 0.
Proof. intros H. unfold rate. fold (rop K i). rewrite H. lra. Qed.

Lemma no_valid K : valid_reactions K = nil -> forall i, (i < nrx K)%nat -> rop K i == 0.
Proof.
  intros H i Hi. destruct (Qeq_dec (rop K i) 0); auto. exfalso.
  assert (In i (valid_reactions K)) as Hin by (apply valid_in; auto).
  rewrite H in Hin. destruct Hin.
Qed.

Lemma safe_div_ratio num den num' den' :
  num == num' -> den == den' -> is_ratio (safe_div num den) num' den'.
Proof.
  intros H1 H2. unfold safe_div, is_ratio. destruct (Qeq_bool den 0) eqn:E.
  - apply Qeq_bool_iff in E. split; [lra|]. intros H. exfalso. apply H. lra.
  - assert (~ den == 0) as N by (intros K; apply Qeq_bool_iff in K; congruence).
    split; intros H.
    + exfalso. apply N. lra.
    + rewrite <- H1, <- H2. field. auto.
Qed.

Lemma zero_ratio r num den : r == 0 -> num == 0 -> den == 0 -> is_ratio r num den.
Proof. intros; split; intros; auto. contradiction. Qed.

Lemma Qabs_0 x : x == 0 -> Qabs x == 0.
Proof. intros H. now rewrite H. Qed.

(** DRG *)
Lemma drg_shape K : shape (k_nsp K) (k_nsp K) (create_drg_matrix K) /\
  forall a, (a < k_nsp K)%nat -> mget (create_drg_matrix K) a a = 0.
Proof.
  unfold create_drg_matrix. set (A := match valid_reactions K with nil => _ | _ => _ end).
  assert (shape (k_nsp K) (k_nsp K) A) as S.
  { unfold A. destruct (valid_reactions K); [apply zeros_shape|apply mtab_shape]. }
  destruct (fill_diagonal_spec _ _ S) as [S' E]. split; auto.
  intros a Ha. rewrite E by auto. now rewrite Nat.eqb_refl.
Qed.

Lemma drg_entry K a b : (a < k_nsp K)%nat -> (b < k_nsp K)%nat -> a <> b ->
  is_ratio (mget (create_drg_matrix K) a b)
           (Qsum (fun i => if flag K b i then Qabs (rate K a i) else 0) (nrx K))
           (Qsum (fun i => Qabs (rate K a i)) (nrx K)).
Proof.
  intros Ha Hb Hab. unfold create_drg_matrix.
  set (A := match valid_reactions K with nil => _ | _ => _ end).
  assert (shape (k_nsp K) (k_nsp K) A) as S.
  { unfold A. destruct (valid_reactions K); [apply zeros_shape|apply mtab_shape]. }
  destruct (fill_diagonal_spec _ _ S) as [_ E]. rewrite E by auto.
  apply Nat.eqb_neq in Hab. rewrite Hab.
  assert (forall i, rop K i == 0 -> Qabs (net_stoich K a i * rop K i) == 0) as Z.
  { intros i Hi. rewrite base_rate. rewrite rate_zero; auto. reflexivity. }
  unfold A. destruct (valid_reactions K) as [|v vs] eqn:V.
  - rewrite mget_zeros by auto. apply zero_ratio; [lra| |];
      apply Qsum_zero; intros i Hi.
    + pose proof (no_valid K V i Hi). destruct (flag K b i); [|lra].
      apply Qabs_0, rate_zero; auto.
    + apply Qabs_0, rate_zero, (no_valid K V); auto.
  - rewrite mget_mtab by auto. rewrite <- V. apply safe_div_ratio.
    + rewrite sum_valid_with by auto. apply Qsum_ext. intros i _. reflexivity.
    + rewrite sum_valid by auto. reflexivity.
Qed.

Lemma drg_correct K d : indicator K d -> is_drg K d (mget (create_drg_matrix K)).
Proof.
  intros D a b Ha Hb Hab. destruct (drg_entry K a b Ha Hb Hab) as [H1 H2]. split; auto.
  intros H. rewrite H2 by auto. apply Qsum_ext. intros i _.
  rewrite (indicator_flag K d b i D). destruct (flag K b i); lra.
Qed.

Lemma ratio_bounds r num den : is_ratio r num den -> 0 <= num -> num <= den -> 0 <= r <= 1.
Proof.
  intros [H1 H2] A B. destruct (Qeq_dec den 0) as [E|E].
  - rewrite (H1 E). lra.
  - specialize (H2 E). assert (0 < den) by (apply Qnot_le_lt; intros K; apply E; lra).
    split.
    + apply Qnot_lt_le. intros K. assert (r * den < 0) by nra. lra.
    + apply Qnot_lt_le. intros K. assert (den < r * den) by nra. lra.
Qed.

Lemma drg_bounds K a b : (a < k_nsp K)%nat -> (b < k_nsp K)%nat ->
  0 <= mget (create_drg_matrix K) a b <= 1.
Proof.
  intros Ha Hb. destruct (Nat.eq_dec a b) as [->|N].
  - destruct (drg_shape K) as [_ H]. rewrite H by auto. lra.
  - eapply ratio_bounds; [apply drg_entry; auto| |].
    + apply Qsum_nonneg. intros i _. destruct (flag K b i); [apply Qabs_nonneg|lra].
    + apply Qsum_le. intros i _. destruct (flag K b i); [lra|apply Qabs_nonneg].
Qed.

(** DRGEP *)
Lemma drgep_shape K : shape (k_nsp K) (k_nsp K) (create_drgep_matrix K) /\
  forall a, (a < k_nsp K)%nat -> mget (create_drgep_matrix K) a a = 0.
Proof.
  unfold create_drgep_matrix. set (A := match valid_reactions K with nil => _ | _ => _ end).
  assert (shape (k_nsp K) (k_nsp K) A) as S.
  { unfold A. destruct (valid_reactions K); [apply zeros_shape|apply mtab_shape]. }
  destruct (fill_diagonal_spec _ _ S) as [S' E]. split; auto.
  intros a Ha. rewrite E by auto. now rewrite Nat.eqb_refl.
Qed.

Lemma max_zero_l x : Qmaxb 0 x == pos x.
Proof. rewrite Qmaxb_max. unfold pos. apply Q.max_comm. Qed.
Lemma max_zero_r x : Qmaxb x 0 == pos x.
Proof. rewrite Qmaxb_max. reflexivity. Qed.
Lemma pos_0 x : x == 0 -> pos x == 0.
Proof. intros H. unfold pos. rewrite H. apply Q.max_id. Qed.
Lemma neg_pos x : neg x = pos (- x).
Proof. reflexivity. Qed.
Lemma pos_nonneg x : 0 <= pos x.
Proof. unfold pos. apply Q.le_max_r. Qed.
Lemma pos_ge x : x <= pos x.
Proof. unfold pos. apply Q.le_max_l. Qed.

Lemma sum_prod_A K a :
  sumQ (map (fun i => Qmaxb 0 (net_stoich K a i * rop K i)) (valid_reactions K)) == PA K a.
Proof.
  rewrite sum_valid.
  - apply Qsum_ext. intros i _. apply max_zero_l.
  - intros i Hi. rewrite max_zero_l. apply pos_0. now apply rate_zero.
Qed.
Lemma sum_dest_A K a :
  sumQ (map (fun i => Qmaxb 0 (- (net_stoich K a i * rop K i))) (valid_reactions K)) == CA K a.
Proof.
  rewrite sum_valid.
  - apply Qsum_ext. intros i _. apply max_zero_l.
  - intros i Hi. rewrite max_zero_l. apply pos_0. rewrite base_rate, rate_zero by auto. lra.
Qed.

Lemma PA_zero K a : (forall i, (i < nrx K)%nat -> rop K i == 0) -> PA K a == 0.
Proof. intros H. apply Qsum_zero. intros i Hi. apply pos_0, rate_zero; auto. Qed.
Lemma CA_zero K a : (forall i, (i < nrx K)%nat -> rop K i == 0) -> CA K a == 0.
Proof.
  intros H. apply Qsum_zero. intros i Hi. rewrite neg_pos. apply pos_0.
  rewrite rate_zero by auto. lra.
Qed.

Lemma max_00 x y : x == 0 -> y == 0 -> Qmax x y == 0.
Proof. intros H1 H2. rewrite H1, H2. apply Q.max_id. Qed.

Lemma drgep_entry K a b : (a < k_nsp K)%nat -> (b < k_nsp K)%nat -> a <> b ->
  is_ratio (mget (create_drgep_matrix K) a b)
           (Qabs (Qsum (fun i => if flag K b i then rate K a i else 0) (nrx K)))
           (Qmax (PA K a) (CA K a)).
Proof.
  intros Ha Hb Hab. unfold create_drgep_matrix.
  set (A := match valid_reactions K with nil => _ | _ => _ end).
  assert (shape (k_nsp K) (k_nsp K) A) as S.
  { unfold A. destruct (valid_reactions K); [apply zeros_shape|apply mtab_shape]. }
  destruct (fill_diagonal_spec _ _ S) as [_ E]. rewrite E by auto.
  apply Nat.eqb_neq in Hab. rewrite Hab.
  unfold A. destruct (valid_reactions K) as [|v vs] eqn:V.
  - pose proof (no_valid K V) as N.
    rewrite mget_zeros by auto. apply zero_ratio; [lra| |].
    + apply Qabs_0. apply Qsum_zero. intros i Hi. destruct (flag K b i); [|lra].
      apply rate_zero; auto.
    + apply max_00; [apply PA_zero|apply CA_zero]; auto.
  - rewrite mget_mtab by auto. rewrite <- V. apply safe_div_ratio.
    + rewrite sum_valid_with.
      * reflexivity.
      * intros i Hi. rewrite base_rate. now apply rate_zero.
    + rewrite Qmaxb_max. rewrite sum_prod_A, sum_dest_A. reflexivity.
Qed.

Lemma drgep_correct K d : indicator K d -> is_drgep K d (mget (create_drgep_matrix K)).
Proof.
  intros D a b Ha Hb Hab. destruct (drgep_entry K a b Ha Hb Hab) as [H1 H2]. split; auto.
  intros H. rewrite H2 by auto. apply Qabs_wd. apply Qsum_ext. intros i _.
  rewrite (indicator_flag K d b i D). destruct (flag K b i); lra.
Qed.

Lemma drgep_bounds K a b : (a < k_nsp K)%nat -> (b < k_nsp K)%nat ->
  0 <= mget (create_drgep_matrix K) a b <= 1.
Proof.
  intros Ha Hb. destruct (Nat.eq_dec a b) as [->|N].
  - destruct (drgep_shape K) as [_ H]. rewrite H by auto. lra.
  - eapply ratio_bounds; [apply drgep_entry; auto| |].
    + apply Qabs_nonneg.
    + apply Qabs_Qle_condition.
      assert (Qsum (fun i => if flag K b i then rate K a i else 0) (nrx K) <= PA K a) as U.
      { apply Qsum_le. intros i _. destruct (flag K b i); [apply pos_ge|apply pos_nonneg]. }
      assert (- CA K a <= Qsum (fun i => if flag K b i then rate K a i else 0) (nrx K)) as L.
      { assert (- CA K a == Qsum (fun i => - neg (rate K a i)) (nrx K)) as ->.
        { unfold CA. generalize (nrx K). intros n. induction n; simpl; [lra|]. rewrite <- IHn. lra. }
        apply Qsum_le. intros i _. pose proof (pos_ge (- rate K a i)).
        pose proof (pos_nonneg (- rate K a i)). rewrite neg_pos.
        destruct (flag K b i); lra. }
      pose proof (Q.le_max_l (PA K a) (CA K a)).
      pose proof (Q.le_max_r (PA K a) (CA K a)). lra.
Qed.

(** PFA *)
Record pfa_inv (n : nat) (p c : nat -> nat -> Q) (k : nat) (st : pfa_arrays) : Prop := {
  pi_s1 : shape n n (pa_pro1 st); pi_s2 : shape n n (pa_con1 st);
  pi_p1 : forall a b, (a < n)%nat -> (b < n)%nat ->
          mget (pa_pro1 st) a b = if (Nat.eqb a b && Nat.ltb a k)%bool then 0 else p a b;
  pi_c1 : forall a b, (a < n)%nat -> (b < n)%nat ->
          mget (pa_con1 st) a b = if (Nat.eqb a b && Nat.ltb a k)%bool then 0 else c a b;
  pi_p2 : forall a b, (a < n)%nat -> (b < n)%nat -> a <> b -> mget (pa_pro2 st) a b ==
          Qsum (fun m => if Nat.eqb m a then 0 else if Nat.eqb m b then 0 else p a m * p m b) k;
  pi_c2 : forall a b, (a < n)%nat -> (b < n)%nat -> a <> b -> mget (pa_con2 st) a b ==
          Qsum (fun m => if Nat.eqb m a then 0 else if Nat.eqb m b then 0 else c a m * c m b) k
}.

Lemma pfa_diag n (p : nat -> nat -> Q) k M : shape n n M -> (k < n)%nat ->
  (forall a b, (a < n)%nat -> (b < n)%nat ->
     mget M a b = if (Nat.eqb a b && Nat.ltb a k)%bool then 0 else p a b) ->
  forall a b, (a < n)%nat -> (b < n)%nat ->
    mget (mset (mset M k k 0) k k 0) a b = if (Nat.eqb a b && Nat.ltb a (S k))%bool then 0 else p a b.
Proof.
  intros S Hk H a b Ha Hb. rewrite !(mget_mset n n) by (auto using mset_shape).
  rewrite H by auto. destruct (Nat.eqb_spec a k), (Nat.eqb_spec b k); simpl; subst.
  - rewrite Nat.eqb_refl. assert (Nat.ltb k (Datatypes.S k) = true) as -> by (apply Nat.ltb_lt; lia).
    reflexivity.
  - destruct (Nat.eqb_spec k b); [congruence|reflexivity].
  - destruct (Nat.eqb_spec a k); [congruence|reflexivity].
  - destruct (Nat.eqb_spec a b); simpl; auto. subst.
    destruct (Nat.ltb_spec b k), (Nat.ltb_spec b (Datatypes.S k)); auto; lia.
Qed.

Lemma pfa_outer n (p : nat -> nat -> Q) k M a b :
  (a < n)%nat -> (b < n)%nat -> (k < n)%nat -> a <> b ->
  (forall a b, (a < n)%nat -> (b < n)%nat ->
     mget M a b = if (Nat.eqb a b && Nat.ltb a (S k))%bool then 0 else p a b) ->
  mget M a k * mget M k b == if Nat.eqb k a then 0 else if Nat.eqb k b then 0 else p a k * p k b.
Proof.
  intros Ha Hb Hk Hab H. rewrite !H by auto.
  assert (Nat.ltb k (S k) = true) as L by (apply Nat.ltb_lt; lia).
  destruct (Nat.eqb_spec k a); subst.
  - rewrite Nat.eqb_refl, L. simpl. lra.
  - destruct (Nat.eqb_spec k b); subst.
    + rewrite L. simpl. lra.
    + destruct (Nat.eqb_spec a k); [congruence|]. simpl. lra.
Qed.

Lemma pfa_step_inv n p c k st :
  (k < n)%nat -> pfa_inv n p c k st -> pfa_inv n p c (S k) (pfa_step n st k).
Proof.
  intros Hk I. destruct I. unfold pfa_step.
  assert (DP := pfa_diag n p k _ pi_s3 Hk pi_p3).
  assert (DC := pfa_diag n c k _ pi_s4 Hk pi_c3).
  constructor; simpl; auto using mset_shape.
  - intros a b Ha Hb Hab. rewrite mget_mtab by auto.
    rewrite (pfa_outer n p k _ a b Ha Hb Hk Hab DP). rewrite pi_p4 by auto. reflexivity.
  - intros a b Ha Hb Hab. rewrite mget_mtab by auto.
    rewrite (pfa_outer n c k _ a b Ha Hb Hk Hab DC). rewrite pi_c4 by auto. reflexivity.
Qed.

Lemma pfa_loop_inv n p c k :
  (k <= n)%nat ->
  pfa_inv n p c k (fold_left (pfa_step n) (seq 0 k) (mkPfa (mtab n n p) (mtab n n c) (zeros n) (zeros n))).
Proof.
  induction k; intros H.
  - simpl. constructor; simpl; try apply mtab_shape; intros a b Ha Hb.
    + rewrite mget_mtab by auto. rewrite andb_false_r. reflexivity.
    + rewrite mget_mtab by auto. rewrite andb_false_r. reflexivity.
    + intros _. rewrite mget_zeros by auto. reflexivity.
    + intros _. rewrite mget_zeros by auto. reflexivity.
  - rewrite seq_S, fold_left_app. simpl. apply pfa_step_inv; [lia|]. apply IHk. lia.
Qed.

Lemma pfa_shape K : shape (k_nsp K) (k_nsp K) (create_pfa_matrix K) /\
  forall a, (a < k_nsp K)%nat -> mget (create_pfa_matrix K) a a = 0.
Proof.
  unfold create_pfa_matrix. set (A := match valid_reactions K with nil => _ | _ => _ end).
  assert (shape (k_nsp K) (k_nsp K) A) as S.
  { unfold A. destruct (valid_reactions K); [apply zeros_shape|apply mtab_shape]. }
  destruct (fill_diagonal_spec _ _ S) as [S' E]. split; auto.
  intros a Ha. rewrite E by auto. now rewrite Nat.eqb_refl.
Qed.

Lemma second_gen_zero n p a b : (forall a b, p a b == 0) -> second_gen n p a b == 0.
Proof.
  intros H. apply Qsum_zero. intros i _. destruct (Nat.eqb i a); [lra|].
  destruct (Nat.eqb i b); [lra|]. rewrite !H. lra.
Qed.

Lemma pfa_entry K : exists p c,
  (forall a b, 
    is_ratio (p a b) (Qsum (fun i => if flag K b i then pos (rate K a i) else 0) (nrx K))
             (Qmax (PA K a) (CA K a)) /\
    is_ratio (c a b) (Qsum (fun i => if flag K b i then neg (rate K a i) else 0) (nrx K))
             (Qmax (PA K a) (CA K a))) /\
  forall a b, (a < k_nsp K)%nat -> (b < k_nsp K)%nat -> a <> b ->
    mget (create_pfa_matrix K) a b ==
      p a b + c a b + second_gen (k_nsp K) p a b + second_gen (k_nsp K) c a b.
Proof.
  unfold create_pfa_matrix. set (A := match valid_reactions K with nil => _ | _ => _ end).
  assert (shape (k_nsp K) (k_nsp K) A) as S.
  { unfold A. destruct (valid_reactions K); [apply zeros_shape|apply mtab_shape]. }
  destruct (fill_diagonal_spec _ _ S) as [_ E].
  destruct (valid_reactions K) as [|v vs] eqn:V.
  - pose proof (no_valid K V) as N.
    exists (fun _ _ => 0), (fun _ _ => 0). split.
    + intros a b. split; apply zero_ratio; try lra;
        try (apply max_00; [apply PA_zero|apply CA_zero]; auto);
        apply Qsum_zero; intros i Hi; destruct (flag K b i); try lra.
      * apply pos_0, rate_zero; auto.
      * rewrite neg_pos. apply pos_0. rewrite rate_zero by auto. lra.
    + intros a b Ha Hb Hab. rewrite E by auto. apply Nat.eqb_neq in Hab. rewrite Hab.
      unfold A. rewrite mget_zeros by auto. rewrite !second_gen_zero by reflexivity. lra.
  -
    set (base := fun k i => net_stoich K k i * rop K i).
    set (den := fun k => Qmaxb (sumQ (map (fun i => Qmaxb (base k i) 0) (valid_reactions K)))
                           (sumQ (map (fun i => Qmaxb (- base k i) 0) (valid_reactions K)))).
    set (p := fun a b => safe_div (sumQ (map (fun i => Qmaxb (base a i) 0) (valid_with K b))) (den a)).
    set (c := fun a b => safe_div (sumQ (map (fun i => Qmaxb (- base a i) 0) (valid_with K b))) (den a)).
    assert (D : forall a, den a == Qmax (PA K a) (CA K a)).
    { intros a. unfold den. rewrite Qmaxb_max. apply Q.max_compat.
      - rewrite sum_valid.
        + apply Qsum_ext. intros i _. apply max_zero_r.
        + intros i Hi. rewrite max_zero_r. apply pos_0. now apply rate_zero.
      - rewrite sum_valid.
        + apply Qsum_ext. intros i _. apply max_zero_r.
        + intros i Hi. rewrite max_zero_r. apply pos_0. unfold base. rewrite base_rate, rate_zero by auto. lra. }
    exists p, c. split.
    + intros a b. split; apply safe_div_ratio; auto; rewrite sum_valid_with;
        try (apply Qsum_ext; intros i _; destruct (flag K b i); [apply max_zero_r|lra]).
      * intros i Hi. rewrite max_zero_r. apply pos_0. now apply rate_zero.
      * intros i Hi. rewrite max_zero_r. apply pos_0. unfold base. rewrite base_rate, rate_zero by auto. lra.
    + intros a b Ha Hb Hab. rewrite E by auto.
      pose proof Hab as Hab'. apply Nat.eqb_neq in Hab'. rewrite Hab'.
      unfold A. rewrite mget_mtab by auto. rewrite <- V.
      destruct (pfa_loop_inv (k_nsp K) p c (k_nsp K) (le_n _)).
      match goal with |- context [fold_left ?f ?l ?s0] =>
        change (fold_left f l s0) with (fold_left (pfa_step (k_nsp K)) (seq 0 (k_nsp K))
          (mkPfa (mtab (k_nsp K) (k_nsp K) p) (mtab (k_nsp K) (k_nsp K) c)
                 (zeros (k_nsp K)) (zeros (k_nsp K)))) end.
      rewrite (pi_p3 a b Ha Hb), (pi_c3 a b Ha Hb), (pi_p4 a b Ha Hb Hab), (pi_c4 a b Ha Hb Hab). rewrite Hab'. simpl. reflexivity.
Qed.

Lemma pos_mul_ind x e : e = true \/ e = false ->
  pos (x * if e then 1 else 0) == if e then pos x else 0.
Proof.
  intros _. destruct e.
  - assert (x * 1 == x) as H by lra. unfold pos. now rewrite H.
  - apply pos_0. lra.
Qed.

Lemma pos_wd x y : x == y -> pos x == pos y.
Proof. intros H. unfold pos. now rewrite H. Qed.

Lemma pfa_correct K d : indicator K d -> is_pfa K d (mget (create_pfa_matrix K)).
Proof.
  intros D. destruct (pfa_entry K) as (p & c & H1 & H2). exists p, c. split; auto.
  intros a b Ha Hb Hab. destruct (H1 a b) as [[A1 A2] [B1 B2]].
  split; split; auto; intros H.
  - rewrite A2 by auto. apply Qsum_ext. intros i _.
    rewrite <- (pos_mul_ind (rate K a i)) by (destruct (flag K b i); auto).
    apply pos_wd. rewrite (indicator_flag K d b i D). reflexivity.
  - rewrite B2 by auto. apply Qsum_ext. intros i _. rewrite !neg_pos.
    rewrite <- (pos_mul_ind (- rate K a i)) by (destruct (flag K b i); auto).
    apply pos_wd. rewrite (indicator_flag K d b i D). lra.
Qed.

Lemma pfa_first_bounds K p a b :
  is_ratio p (Qsum (fun i => if flag K b i then pos (rate K a i) else 0) (nrx K))
             (Qmax (PA K a) (CA K a)) -> 0 <= p <= 1.
Proof.
  intros H. eapply ratio_bounds; [exact H| |].
  - apply Qsum_nonneg. intros i _. destruct (flag K b i); [apply pos_nonneg|lra].
  - eapply Qle_trans; [|apply Q.le_max_l]. apply Qsum_le. intros i _.
    destruct (flag K b i); [lra|apply pos_nonneg].
Qed.
Lemma pfa_first_bounds_c K c a b :
  is_ratio c (Qsum (fun i => if flag K b i then neg (rate K a i) else 0) (nrx K))
             (Qmax (PA K a) (CA K a)) -> 0 <= c <= 1.
Proof.
  intros H. eapply ratio_bounds; [exact H| |].
  - apply Qsum_nonneg. intros i _. destruct (flag K b i); [apply pos_nonneg|lra].
  - eapply Qle_trans; [|apply Q.le_max_r]. apply Qsum_le. intros i _.
    destruct (flag K b i); [lra|apply pos_nonneg].
Qed.

Lemma second_gen_bounds n p a b : (forall a b, 0 <= p a b <= 1) ->
  0 <= second_gen n p a b <= inject_Z (Z.of_nat n).
Proof.
  intros H. unfold second_gen.
  set (f := fun m => if Nat.eqb m a then 0 else if Nat.eqb m b then 0 else p a m * p m b).
  assert (F : forall m, 0 <= f m <= 1).
  { intros m. unfold f. destruct (Nat.eqb m a); [lra|]. destruct (Nat.eqb m b); [lra|].
    pose proof (H a m). pose proof (H m b). nra. }
  clearbody f. induction n; simpl Qsum.
  - simpl. change (inject_Z 0) with 0. lra.
  - rewrite Nat2Z.inj_succ. unfold Z.succ. rewrite inject_Z_plus. specialize (F n).
    change (inject_Z 1) with 1. lra.
Qed.

Lemma pfa_bounds K a b : (a < k_nsp K)%nat -> (b < k_nsp K)%nat ->
  0 <= mget (create_pfa_matrix K) a b <= 2 + 2 * inject_Z (Z.of_nat (k_nsp K)).
Proof.
  intros Ha Hb. assert (0 <= inject_Z (Z.of_nat (k_nsp K))) as Z0.
  { change 0 with (inject_Z 0). rewrite <- Zle_Qle. lia. }
  destruct (Nat.eq_dec a b) as [->|N].
  - destruct (pfa_shape K) as [_ H]. rewrite H by auto. lra.
  - destruct (pfa_entry K) as (p & c & H1 & H2). rewrite H2 by auto.
    assert (P : forall a b, 0 <= p a b <= 1) by (intros x y; eapply pfa_first_bounds; apply H1).
    assert (C : forall a b, 0 <= c a b <= 1) by (intros x y; eapply pfa_first_bounds_c; apply H1).
    pose proof (P a b). pose proof (C a b).
    pose proof (second_gen_bounds (k_nsp K) p a b P).
    pose proof (second_gen_bounds (k_nsp K) c a b C). lra.
Qed.

(** Scale invariance. *)
Lemma rate_scale c K a i : rate (scale_rates c K) a i == c * rate K a i.
Proof.
  unfold rate, scale_rates; simpl.
  destruct (Nat.lt_ge_cases i (length (k_rop K))) as [L|L].
  - rewrite nth_indep with (d' := c * 0) by (rewrite map_length; auto).
    rewrite (map_nth (fun w => c * w)). lra.
  - rewrite !nth_overflow by (try rewrite map_length; auto). lra.
Qed.

Lemma nrx_scale c K : nrx (scale_rates c K) = nrx K.
Proof. unfold nrx, scale_rates; simpl. apply map_length. Qed.

Lemma flag_scale c K b i : flag (scale_rates c K) b i = flag K b i.
Proof. reflexivity. Qed.

Lemma ratio_unique r r' num den num' den' c :
  0 < c -> is_ratio r num den -> is_ratio r' num' den' -> num' == c * num -> den' == c * den -> r == r'.
Proof.
  intros Hc [A1 A2] [B1 B2] E1 E2. destruct (Qeq_dec den 0) as [Z|Z].
  - rewrite A1 by auto. symmetry. apply B1. rewrite E2, Z. lra.
  - assert (~ den' == 0) as Z'.
    { intros K. rewrite E2 in K. apply Qmult_integral in K. destruct K; auto. lra. }
    specialize (A2 Z). specialize (B2 Z'). rewrite E1, E2 in B2. rewrite <- A2 in B2.
    assert (c * den * (r' - r) == 0) as M by lra.
    apply Qmult_integral in M. destruct M as [M|M]; [|lra].
    apply Qmult_integral in M. destruct M; [lra|contradiction].
Qed.

Lemma drg_scale c K a b : ~ c == 0 -> (a < k_nsp K)%nat -> (b < k_nsp K)%nat ->
  mget (create_drg_matrix K) a b == mget (create_drg_matrix (scale_rates c K)) a b.
Proof.
  intros Hc Ha Hb. destruct (Nat.eq_dec a b) as [->|N].
  - destruct (drg_shape K) as [_ H]. destruct (drg_shape (scale_rates c K)) as [_ H'].
    rewrite H, H' by auto. reflexivity.
  - assert (0 < Qabs c) as P.
    { assert (0 <= Qabs c) by apply Qabs_nonneg.
      assert (~ Qabs c == 0). { intros K0. apply Hc. revert K0. apply Qabs_case; intros; lra. }
      apply Qnot_le_lt. intros K0. apply H0. lra. }
    eapply (ratio_unique _ _ _ _ _ _ (Qabs c) P); [apply drg_entry; auto|apply drg_entry; auto| |];
      rewrite nrx_scale, <- Qsum_scale; apply Qsum_ext; intros i _.
    + rewrite flag_scale. destruct (flag K b i); [|lra]. rewrite rate_scale. apply Qabs_Qmult.
    + rewrite rate_scale. apply Qabs_Qmult.
Qed.

Lemma pos_scale c x : 0 <= c -> pos (c * x) == c * pos x.
Proof.
  intros H. unfold pos. destruct (Qlt_le_dec x 0).
  - rewrite (Q.max_r x 0) by lra. rewrite Q.max_r; [lra|]. nra.
  - rewrite (Q.max_l x 0) by lra. rewrite Q.max_l; [lra|]. nra.
Qed.
Lemma pos_scale_neg c x : c <= 0 -> pos (c * x) == - c * neg x.
Proof.
  intros H. rewrite neg_pos. rewrite <- pos_scale by lra. apply pos_wd. lra.
Qed.
Lemma neg_scale_neg c x : c <= 0 -> neg (c * x) == - c * pos x.
Proof. intros H. rewrite neg_pos. rewrite <- pos_scale by lra. apply pos_wd. lra. Qed.
Lemma neg_scale c x : 0 <= c -> neg (c * x) == c * neg x.
Proof. intros H. rewrite !neg_pos. rewrite <- pos_scale by lra. apply pos_wd. lra. Qed.

Lemma max_scale c x y : 0 <= c -> Qmax (c * x) (c * y) == c * Qmax x y.
Proof.
  intros H. destruct (Qlt_le_dec x y).
  - rewrite (Q.max_r x y) by lra. apply Q.max_r. nra.
  - rewrite (Q.max_l x y) by lra. apply Q.max_l. nra.
Qed.

Lemma drgep_den_scale c K a :
  Qmax (PA (scale_rates c K) a) (CA (scale_rates c K) a) == Qabs c * Qmax (PA K a) (CA K a).
Proof.
  unfold PA, CA. rewrite nrx_scale. destruct (Qlt_le_dec c 0) as [L|L].
  - rewrite Qabs_neg by lra. rewrite Q.max_comm.
    rewrite <- max_scale by lra. apply Q.max_compat; rewrite <- Qsum_scale; apply Qsum_ext; intros i _.
    + transitivity (neg (c * rate K a i)).
      * rewrite !neg_pos. apply pos_wd. rewrite rate_scale. lra.
      * rewrite neg_scale_neg by lra. lra.
    + transitivity (pos (c * rate K a i)).
      * apply pos_wd. apply rate_scale.
      * rewrite pos_scale_neg by lra. lra.
  - rewrite Qabs_pos by lra.
    rewrite <- max_scale by lra. apply Q.max_compat; rewrite <- Qsum_scale; apply Qsum_ext; intros i _.
    + rewrite <- pos_scale by lra. apply pos_wd. apply rate_scale.
    + rewrite <- neg_scale by lra. rewrite !neg_pos. apply pos_wd. rewrite rate_scale. lra.
Qed.

Lemma drgep_scale c K a b : ~ c == 0 -> (a < k_nsp K)%nat -> (b < k_nsp K)%nat ->
  mget (create_drgep_matrix K) a b == mget (create_drgep_matrix (scale_rates c K)) a b.
Proof.
  intros Hc Ha Hb. destruct (Nat.eq_dec a b) as [->|N].
  - destruct (drgep_shape K) as [_ H]. destruct (drgep_shape (scale_rates c K)) as [_ H'].
    rewrite H, H' by auto. reflexivity.
  - assert (0 < Qabs c) as P.
    { assert (0 <= Qabs c) by apply Qabs_nonneg.
      assert (~ Qabs c == 0). { intros K0. apply Hc. revert K0. apply Qabs_case; intros; lra. }
      apply Qnot_le_lt. intros K0. apply H0. lra. }
    eapply (ratio_unique _ _ _ _ _ _ (Qabs c) P); [apply drgep_entry; auto|apply drgep_entry; auto| |].
    + rewrite nrx_scale, <- Qabs_Qmult, <- Qsum_scale. apply Qabs_wd. apply Qsum_ext. intros i _.
      rewrite flag_scale. destruct (flag K b i); [|lra]. apply rate_scale.
    + apply drgep_den_scale.
Qed.
