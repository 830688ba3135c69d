(** Facts about the ignition simulation. *)
From Coq Require Import String List QArith ZArith Bool Arith Lia Lqa.
From Verif.Base Require Import Py Num XNum.
From Verif.Model Require Import Mech World Metrics Simulation.
From Verif.Spec Require Import SimSpec.
From Verif.Proofs Require Import NumFacts.
Import ListNotations.

Section Calculations.
Context {CA : calc}.

Lemma hot_iff a b : hot a b = true <-> (c_plus a 400 <= b)%Q.
Proof. unfold hot. apply Qle_bool_iff. Qed.
Lemma hot_false a b : hot a b = false <-> (b < c_plus a 400)%Q.
Proof. unfold hot. apply Qle_bool_false. Qed.

Section Run.
  Variables (R : reactor) (T0 : Q).

  Definition start := mkRS [ra_init R] 0 false.

  (** The state after [n] steps. *)
  Fixpoint st (n : nat) : option run_state :=
    match n with
    | O => Some start
    | S n => match st n, ra_step R (S n) with
             | Some s, Some p => Some (after_step T0 p s)
             | _, _ => None
             end
    end.

  Lemma st_alive n s : st n = Some s -> alive R n.
  Proof.
    revert s. induction n as [|n IH]; intros s H k K; [lia|]. simpl in H.
    destruct (st n) as [s1|]; [|discriminate]. destruct (ra_step R (S n)) as [p|] eqn:E; [|discriminate].
    destruct (Nat.eq_dec k (S n)) as [->|]; [eauto|]. apply (IH s1 eq_refl). lia.
  Qed.
  Lemma alive_st n : alive R n -> exists s, st n = Some s.
  Proof.
    induction n as [|n IH]; intros A; simpl; [eauto|].
    destruct IH as (s & ->); [intros k K; apply A; lia|].
    destruct (A (S n)) as (p & ->); [lia|]. eauto.
  Qed.

  Lemma st_recorded n s : st n = Some s -> recorded R n (rs_points s).
  Proof.
    revert s. induction n as [|n IH]; intros s H; simpl in H.
    - injection H as <-. exists nil. simpl. repeat split; auto. intros; lia.
    - destruct (st n) as [s1|]; [|discriminate]. destruct (ra_step R (S n)) as [p|] eqn:E; [|discriminate].
      injection H as <-. destruct (IH s1 eq_refl) as (qs & Q1 & Q2 & Q3).
      exists (qs ++ [p]). simpl. rewrite Q1. split; [reflexivity|]. split; [rewrite app_length; simpl; lia|].
      intros k K. destruct (Nat.eq_dec k n) as [->|].
      + rewrite nth_error_app2 by lia. rewrite Q2, Nat.sub_diag, E. reflexivity.
      + rewrite nth_error_app1 by lia. apply Q3. lia.
  Qed.

  Definition cool (n : nat) := forall j, (1 <= j <= n)%nat -> exists p, ra_step R j = Some p /\ (p_T p < c_plus T0 400)%Q.

  Lemma st_flag n s : st n = Some s ->
    if rs_flag s then exists k, (k <= n)%nat /\ ignites R T0 k (rs_delay s)
    else rs_delay s = 0%Q /\ cool n.
  Proof.
    revert s. induction n as [|n IH]; intros s H; simpl in H.
    - injection H as <-. simpl. split; auto. intros j J. lia.
    - destruct (st n) as [s1|]; [|discriminate]. destruct (ra_step R (S n)) as [p|] eqn:E; [|discriminate].
      injection H as <-. specialize (IH s1 eq_refl). simpl.
      destruct (rs_flag s1); simpl.
      + destruct IH as (k & K & I). exists k. split; [lia|]. rewrite andb_false_r. exact I.
      + destruct IH as (D & C). destruct (hot T0 (p_T p)) eqn:HT; simpl.
        * exists (S n). split; [lia|]. split; [lia|]. split; [exists p; repeat split; auto; now apply hot_iff|].
          intros j J. apply C. lia.
        * split; auto. intros j J. destruct (Nat.eq_dec j (S n)) as [->|]; [|apply C; lia].
          exists p. split; auto. now apply hot_false.
  Qed.

  Lemma ignites_fun k t k' t' : ignites R T0 k t -> ignites R T0 k' t' -> k = k' /\ t = t'.
  Proof.
    intros (A1 & (p & B1 & C1 & D1) & E1) (A2 & (q & B2 & C2 & D2) & E2).
    destruct (Nat.lt_trichotomy k k') as [L|[->|L]].
    - destruct (E2 k) as (x & X1 & X2); [lia|]. rewrite B1 in X1. injection X1 as <-. lra.
    - split; auto. congruence.
    - destruct (E1 k') as (x & X1 & X2); [lia|]. rewrite B2 in X1. injection X1 as <-. lra.
  Qed.

  Lemma cool_not n k t : cool n -> (k <= n)%nat -> ~ ignites R T0 k t.
  Proof.
    intros C K (A & (p & B & D & _) & _). destruct (C k) as (q & X & Y); [lia|].
    rewrite B in X. injection X as <-. lra.
  Qed.

  Lemma st_ignited n s k t : st n = Some s -> ignites R T0 k t -> (k <= n)%nat ->
    rs_flag s = true /\ rs_delay s = t.
  Proof.
    intros H I K. pose proof (st_flag n s H) as F. destruct (rs_flag s).
    - destruct F as (k' & _ & I'). destruct (ignites_fun _ _ _ _ I I') as (_ & ->). auto.
    - destruct F as (_ & C). exfalso. eapply cool_not; eauto.
  Qed.

  Lemma time_fun n t t' : time_at R n t -> time_at R n t' -> t = t'.
  Proof.
    destruct n; simpl; [congruence|]. intros (p & A & B) (q & C & D). congruence.
  Qed.

  Lemma reaches_alive tend n : reaches R tend n -> alive R n.
  Proof.
    intros ((t & A & _) & B) k K. destruct (Nat.eq_dec k n) as [->|].
    - destruct n; [lia|]. destruct A as (p & A & _). eauto.
    - destruct (B k) as (t' & A' & _); [lia|]. destruct k; [lia|]. destruct A' as (p & A' & _). eauto.
  Qed.

  Lemma to_time_ok tend : forall fuel n t s s',
    st n = Some s -> time_at R n t -> (forall j, (j < n)%nat -> exists t, time_at R j t /\ (t < tend)%Q) ->
    run_to_time fuel R T0 tend n t s = Ok s' ->
    exists n', (n <= n' <= n + fuel)%nat /\ st n' = Some s' /\ reaches R tend n'.
  Proof.
    induction fuel as [|fuel IH]; intros n t s s' S1 TA B H; simpl in H.
    - destruct (Qlt_bool t tend) eqn:E; [discriminate|]. injection H as <-.
      exists n. split; [lia|]. split; auto. split; auto. exists t. split; auto. now apply Qlt_bool_false.
    - destruct (Qlt_bool t tend) eqn:E.
      + destruct (ra_step R (S n)) as [p|] eqn:EP; [|discriminate].
        destruct (IH (S n) (p_time p) (after_step T0 p s) s') as (n' & N1 & N2 & N3); auto.
        * simpl. now rewrite S1, EP.
        * simpl. eauto.
        * intros j J. destruct (Nat.eq_dec j n) as [->|]; [|apply B; lia].
          exists t. split; auto. now apply Qlt_bool_iff.
        * exists n'. split; [lia|auto].
      + injection H as <-. exists n. split; [lia|]. split; auto. split; auto. exists t. split; auto. now apply Qlt_bool_false.
  Qed.

  Lemma to_time_runs tend n' s' : reaches R tend n' -> st n' = Some s' -> forall fuel n t s,
    (n <= n' <= n + fuel)%nat -> st n = Some s -> time_at R n t ->
    run_to_time fuel R T0 tend n t s = Ok s'.
  Proof.
    intros (X & B) S'. induction fuel as [|fuel IH]; intros n t s L S1 TA; simpl.
    - assert (n = n') by lia. subst. destruct X as (t' & A' & C'). rewrite (time_fun _ _ _ TA A').
      apply Qlt_bool_false in C'. rewrite C'. congruence.
    - destruct (Nat.eq_dec n n') as [->|NE].
      + destruct X as (t' & A' & C'). rewrite (time_fun _ _ _ TA A'). apply Qlt_bool_false in C'. rewrite C'. congruence.
      + destruct (B n) as (t' & A' & C'); [lia|]. rewrite (time_fun _ _ _ TA A'). apply Qlt_bool_iff in C'. rewrite C'.
        destruct (reaches_alive tend n' (conj X B) (S n)) as (p & EP); [lia|]. rewrite EP.
        apply IH; [lia| |]. { simpl. now rewrite S1, EP. } { simpl. eauto. }
  Qed.

  Lemma to_steady_ok : forall m n s s' k,
    st n = Some s -> (forall j, (1 <= j <= n)%nat -> ra_small R j = false) ->
    run_to_steady m R T0 n s = Ok (s', k) ->
    (n <= k <= n + m)%nat /\ st k = Some s' /\
    ((k < n + m)%nat -> (n < k)%nat /\ ra_small R k = true) /\ (forall j, (1 <= j < k)%nat -> ra_small R j = false).
  Proof.
    induction m as [|m IH]; intros n s s' k S1 B H; simpl in H.
    - injection H as <- <-. split; [lia|]. split; auto. split; [lia|]. intros j J. apply B. lia.
    - destruct (ra_step R (S n)) as [p|] eqn:EP; [|discriminate].
      assert (st (S n) = Some (after_step T0 p s)) as S2 by (simpl; now rewrite S1, EP).
      destruct (ra_small R (S n)) eqn:ES.
      + injection H as <- <-. split; [lia|]. split; auto. split; [split; [lia|auto]|]. intros j J. apply B. lia.
      + destruct (IH (S n) _ s' k S2) as (A1 & A2 & A3 & A4); auto.
        * intros j J. destruct (Nat.eq_dec j (S n)) as [->|]; auto. apply B. lia.
        * split; [lia|]. split; auto. split; auto. intros L. destruct A3 as (A5 & A6); [lia|]. split; auto. lia.
  Qed.

  Lemma to_steady_runs N : forall m n s, st n = Some s -> settles R N -> (n < N <= n + m)%nat ->
    exists s', st N = Some s' /\ run_to_steady m R T0 n s = Ok (s', N).
  Proof.
    intros m n s S1 (P & A & SM & B). revert n s S1. induction m as [|m IH]; intros n s S1 L; [lia|]. simpl.
    destruct (A (S n)) as (p & EP); [lia|]. rewrite EP.
    assert (st (S n) = Some (after_step T0 p s)) as S2 by (simpl; now rewrite S1, EP).
    destruct (Nat.eq_dec N (S n)) as [->|NE].
    - rewrite SM. eauto.
    - rewrite (B (S n)) by lia. apply IH; auto. lia.
  Qed.

  Lemma calc_time_runs tend k t : ignites R T0 k t -> forall fuel n u, (n < k <= n + fuel)%nat ->
    time_at R n u -> (forall j, (j < k)%nat -> exists t, time_at R j t /\ (t < tend)%Q) ->
    calc_to_time fuel R T0 tend n u = Ok t.
  Proof.
    intros (P & (p & E & H & ET) & B). induction fuel as [|fuel IH]; intros n u L TA TB; [lia|]. simpl.
    destruct (TB n) as (u' & A' & C'); [lia|]. rewrite (time_fun _ _ _ TA A'). apply Qlt_bool_iff in C'. rewrite C'.
    destruct (Nat.eq_dec k (S n)) as [->|].
    - rewrite E. apply hot_iff in H. rewrite H. congruence.
    - destruct (B (S n)) as (q & EQ & HQ); [lia|]. rewrite EQ. apply hot_false in HQ. rewrite HQ.
      apply IH; auto; [lia|]. simpl. eauto.
  Qed.

  Lemma calc_steps_runs k t : ignites R T0 k t -> forall m n, (n < k <= n + m)%nat ->
    calc_steps m R T0 n = t.
  Proof.
    intros (P & (p & E & H & ET) & B). induction m as [|m IH]; intros n L; [lia|]. simpl.
    destruct (Nat.eq_dec k (S n)) as [->|].
    - rewrite E. apply hot_iff in H. rewrite H. congruence.
    - destruct (B (S n)) as (q & EQ & HQ); [lia|]. rewrite EQ. apply hot_false in HQ. rewrite HQ. apply IH. lia.
  Qed.

  (** Conversely, what the calculation for candidates finds. *)
  Lemma calc_steps_some : forall m n, cool n ->
    calc_steps m R T0 n = 0%Q \/ exists k, (n < k <= n + m)%nat /\ ignites R T0 k (calc_steps m R T0 n).
  Proof.
    induction m as [|m IH]; intros n C; simpl; auto.
    destruct (ra_step R (S n)) as [p|] eqn:EP; auto. destruct (hot T0 (p_T p)) eqn:H.
    - right. exists (S n). split; [lia|]. split; [lia|]. split.
      + exists p. repeat split; auto. now apply hot_iff.
      + intros j J. apply C. lia.
    - destruct (IH (S n)) as [->|(k & K & I)]; auto.
      + intros j J. destruct (Nat.eq_dec j (S n)) as [->|]; [|apply C; lia]. exists p. split; auto. now apply hot_false.
      + right. exists k. split; [lia|auto].
  Qed.

  Lemma calc_time_some tend : forall fuel n u, cool n ->
    calc_to_time fuel R T0 tend n u = NoFuel \/ calc_to_time fuel R T0 tend n u = Ok 0%Q \/
    exists k t, (n < k)%nat /\ ignites R T0 k t /\ calc_to_time fuel R T0 tend n u = Ok t.
  Proof.
    induction fuel as [|fuel IH]; intros n u C; simpl; destruct (Qlt_bool u tend); auto.
    destruct (ra_step R (S n)) as [p|] eqn:EP; auto. destruct (hot T0 (p_T p)) eqn:H.
    - right. right. exists (S n), (p_time p). split; [lia|]. split; auto. split; [lia|]. split.
      + exists p. repeat split; auto. now apply hot_iff.
      + intros j J. apply C. lia.
    - destruct (IH (S n) (p_time p)) as [E|[E|(k & t & K & I & E)]]; auto.
      + intros j J. destruct (Nat.eq_dec j (S n)) as [->|]; [|apply C; lia]. exists p. split; auto. now apply hot_false.
      + right. right. exists k, t. split; [lia|auto].
  Qed.
End Run.

Lemma first_hot_none T0 ps : (forall p, In p ps -> hot T0 (p_T p) = false) -> first_hot T0 ps = 0%Q.
Proof. induction ps as [|p ps IH]; simpl; intros H; auto. rewrite (H p) by auto. apply IH. auto. Qed.

Lemma first_hot_at T0 ps k p : nth_error ps k = Some p -> hot T0 (p_T p) = true ->
  (forall j q, (j < k)%nat -> nth_error ps j = Some q -> hot T0 (p_T q) = false) -> first_hot T0 ps = p_time p.
Proof.
  revert k. induction ps as [|x ps IH]; intros [|k] E H B; simpl in *; try discriminate.
  - injection E as ->. now rewrite H.
  - rewrite (B 0%nat x) by (auto; lia). apply (IH k); auto. intros j q J. apply (B (S j)). lia.
Qed.

Lemma hot_eq a b T : (c_plus a 400 == c_plus b 400)%Q -> hot a T = hot b T.
Proof.
  intros E. destruct (hot b T) eqn:H.
  - apply hot_iff. apply hot_iff in H. lra.
  - apply hot_false. apply hot_false in H. lra.
Qed.

Lemma first_hot_recorded R T0 n ps k t : recorded R n ps -> ignites R T0 k t -> (k <= n)%nat ->
  starts_at R T0 -> first_hot (p_T (ra_init R)) ps = t.
Proof.
  intros (qs & -> & L & N) (P & (p & E & H & ET) & B) K (EQ & LT). subst t.
  apply first_hot_at with (k := k).
  - destruct k; [lia|]. simpl. rewrite N by lia. auto.
  - rewrite (hot_eq _ _ _ EQ). now apply hot_iff.
  - intros j q J NE. rewrite (hot_eq _ _ _ EQ). apply hot_false. destruct j; simpl in NE.
    + injection NE as <-. exact LT.
    + rewrite N in NE by lia. destruct (B (S j)) as (x & X1 & X2); [lia|]. rewrite NE in X1. injection X1 as <-. auto.
Qed.

(** What an integration that ends normally has done. *)
Definition ended (fuel : nat) (R : reactor) (c : in_ign) (n : nat) : Prop :=
  if Qnz (ig_end c) then reaches R (ig_end c) n /\ (n <= fuel)%nat
  else (0 <= max_steps c)%Z /\ settles R n /\ (n < Z.to_nat (max_steps c))%nat.

Lemma integrate_ok fuel R c s : integrate fuel R c = Ok s ->
  exists n, st R (ig_T c) n = Some s /\ ended fuel R c n.
Proof.
  unfold integrate, ended. destruct (Qnz (ig_end c)).
  - intros H. destruct (to_time_ok R (ig_T c) (ig_end c) fuel 0 (p_time (ra_init R)) (start R) s) as (n & N & S & RE); auto.
    + reflexivity.
    + intros; lia.
    + exists n. split; auto. split; auto. lia.
  - destruct (Z.ltb_spec (max_steps c) 0) as [|LE]; [discriminate|].
    destruct (run_to_steady _ R (ig_T c) 0 _) as [[s1 k]| |] eqn:E; simpl; try discriminate.
    destruct (to_steady_ok R (ig_T c) (Z.to_nat (max_steps c)) 0 (start R) s1 k eq_refl) as (A1 & A2 & A3 & A4); [intros; lia|exact E|].
    destruct (Nat.eqb_spec k (Z.to_nat (max_steps c))) as [|NE]; [discriminate|]. intros H. injection H as <-.
    exists k. split; auto. split; auto. destruct A3 as (A5 & A6); [lia|]. split; [|lia].
    split; [lia|]. split; [eapply st_alive; eauto|]. auto.
Qed.

Lemma integrate_runs fuel R c n s : ended fuel R c n -> st R (ig_T c) n = Some s -> integrate fuel R c = Ok s.
Proof.
  unfold integrate, ended. destruct (Qnz (ig_end c)).
  - intros (RE & L) S. apply to_time_runs with (n' := n); auto; try reflexivity. lia.
  - intros (LE & SE & L) S. destruct (Z.ltb_spec (max_steps c) 0); [lia|].
    pose proof SE as (P & _).
    destruct (to_steady_runs R (ig_T c) n (Z.to_nat (max_steps c)) 0 (start R) eq_refl SE) as (s' & E1 & E2); [lia|].
    unfold start in E2. rewrite E2. simpl. destruct (Nat.eqb_spec n (Z.to_nat (max_steps c))); [lia|]. congruence.
Qed.

Lemma ended_alive fuel R c n : ended fuel R c n -> alive R n.
Proof.
  unfold ended. destruct (Qnz (ig_end c)); intros H; [apply reaches_alive with (ig_end c); tauto|].
  destruct H as (_ & (_ & A & _) & _). exact A.
Qed.

(** ** run_case *)
Lemma run_case_iff fuel R c f w d :
  fst (run_case fuel R c f w) = Ok d <->
  exists n k, ended fuel R c n /\ (k <= n)%nat /\ ignites R (ig_T c) k d.
Proof.
  unfold run_case, mbind, mlift, put_file, mret, mraise. split.
  - destruct (integrate fuel R c) as [s| |] eqn:E; try discriminate.
    destruct (integrate_ok _ _ _ _ E) as (n & S & EN). pose proof (st_flag _ _ _ _ S) as F.
    destruct (rs_flag s); [|discriminate]. simpl. intros H. injection H as <-.
    destruct F as (k & K & I). eauto 6.
  - intros (n & k & EN & K & I). destruct (alive_st R (ig_T c) n (ended_alive _ _ _ _ EN)) as (s & S).
    rewrite (integrate_runs _ _ _ _ _ EN S). destruct (st_ignited _ _ _ _ _ _ S I K) as (-> & ->). reflexivity.
Qed.

Lemma run_case_file fuel R c f w d w' : run_case fuel R c f w = (Ok d, w') ->
  exists n ps, ended fuel R c n /\ recorded R n ps /\
    w' = mkWorld (fs_set f (Some (FProfile ps)) (w_fs w)) (w_shared w).
Proof.
  unfold run_case, mbind, mlift, put_file, mret, mraise.
  destruct (integrate fuel R c) as [s| |] eqn:E; try discriminate.
  destruct (integrate_ok _ _ _ _ E) as (n & S & EN).
  destruct (rs_flag s); [|discriminate]. intros H. injection H as _ <-.
  exists n, (rs_points s). split; auto. split; auto. eapply st_recorded; eauto.
Qed.

(** ** calculate *)
Lemma calculate_same fuel R c n k d : ended fuel R c n -> (k <= n)%nat -> ignites R (ig_T c) k d ->
  calculate fuel R c = Ok d.
Proof.
  unfold calculate, ended. intros EN K I. pose proof I as (P & _). destruct (Qnz (ig_end c)).
  - destruct EN as (((t & TA & TB) & B) & L). apply calc_time_runs with (k := k); auto; [lia|reflexivity|].
    intros j J. apply B. lia.
  - destruct EN as (LE & SE & L). destruct (Z.ltb_spec (max_steps c) 0); [lia|]. f_equal.
    apply calc_steps_runs with (k := k); auto. lia.
Qed.

Lemma calculate_some fuel R c : (Qnz (ig_end c) = true \/ (0 <= max_steps c)%Z) ->
  calculate fuel R c = NoFuel \/ calculate fuel R c = Ok 0%Q \/
  exists k d, ignites R (ig_T c) k d /\ calculate fuel R c = Ok d.
Proof.
  unfold calculate. intros H. destruct (Qnz (ig_end c)).
  - destruct (calc_time_some R (ig_T c) (ig_end c) fuel 0 (p_time (ra_init R))) as [E|[E|(k & t & K & I & E)]]; auto.
    + intros j J. lia.
    + eauto 8.
  - destruct H as [|H]; [discriminate|]. destruct (Z.ltb_spec (max_steps c) 0); [lia|].
    destruct (calc_steps_some R (ig_T c) (Z.to_nat (max_steps c)) 0) as [E|(k & K & I)].
    + intros j J. lia.
    + right. left. now rewrite E.
    + right. right. eauto.
Qed.

(** ** process_results *)
Lemma process_ok f w ps p0 rest rows : ps = p0 :: rest -> w_fs w f = Some (FProfile ps) ->
  sample_profile ps = Ok rows ->
  process_results f w = (Ok (first_hot (p_T p0) ps, rows), w).
Proof.
  intros -> E S. unfold process_results, mbind, get_file, mlift. rewrite E, S. reflexivity.
Qed.

Lemma sample_profile_ok p0 rest : exists rows, sample_profile (p0 :: rest) = Ok rows.
Proof. unfold sample_profile. eauto. Qed.

Lemma fs_set_same f c fs : fs_set f c fs f = c.
Proof. unfold fs_set. now rewrite String.eqb_refl. Qed.

Lemma delay_same fuel R c f w d w' : run_case fuel R c f w = (Ok d, w') ->
  starts_at R (ig_T c) ->
  calculate fuel R c = Ok d /\ exists rows, process_results f w' = (Ok (d, rows), w').
Proof.
  intros H EQ. assert (fst (run_case fuel R c f w) = Ok d) as H1 by now rewrite H.
  apply run_case_iff in H1. destruct H1 as (n & k & EN & K & I).
  split; [eapply calculate_same; eauto|].
  unfold run_case, mbind, mlift, put_file, mret, mraise in H.
  destruct (integrate fuel R c) as [s| |] eqn:E; try discriminate.
  destruct (integrate_ok _ _ _ _ E) as (n1 & S1 & EN1).
  pose proof (st_recorded _ _ _ _ S1) as RC. pose proof RC as (qs & EPS & _).
  destruct (rs_flag s) eqn:EF; [|discriminate]. injection H as ED <-.
  pose proof (st_flag _ _ _ _ S1) as F. rewrite EF in F. destruct F as (k1 & K1 & I1). rewrite ED in I1.
  destruct (sample_profile_ok (ra_init R) qs) as (rows & ER). exists rows.
  rewrite (process_ok f _ (rs_points s) (ra_init R) qs rows EPS); [|simpl; apply fs_set_same|now rewrite EPS].
  rewrite (first_hot_recorded R (ig_T c) n1 (rs_points s) k1 d RC I1 K1 EQ). reflexivity.
Qed.

(** ** sampling a profile *)
Lemma loop_rows T0 diff : forall ps idx, (idx <= num_sample_points)%nat ->
  (idx + length (sample_loop T0 diff idx ps) <= num_sample_points)%nat /\
  forall r, In r (sample_loop T0 diff idx ps) -> exists p, In p ps /\ r = row_of p.
Proof.
  induction ps as [|p ps IH]; intros idx L; cbn [sample_loop].
  - split; [simpl; lia|intros r []].
  - destruct (Nat.leb_spec num_sample_points idx) as [K|K]; [split; [simpl; lia|intros r []]|].
    destruct (Qle_bool _ _).
    + destruct (IH (S idx) K) as (A & B). split; [simpl in *; lia|]. intros r [<-|I]; [exists p; simpl; auto|].
      destruct (B r I) as (q & Q & E). exists q. simpl. auto.
    + destruct (IH idx L) as (A & B). split; [exact A|]. intros r I. destruct (B r I) as (q & Q & E). exists q. simpl. auto.
Qed.
Lemma profile_rows ps rows : sample_profile ps = Ok rows -> length rows = num_sample_points /\
  exists p0, In p0 ps /\ forall r, In r rows -> r = repeat 0%Q (2 + length (p_Y p0)) \/ exists p, In p ps /\ r = row_of p.
Proof.
  unfold sample_profile. destruct ps as [|p0 rest]; [discriminate|]. set (ps := p0 :: rest). intros H. assert (forall (X : Type) (a b : X), Ok a = Ok b -> a = b) as OI by congruence. apply OI in H. subst rows.
  destruct (loop_rows (p_T p0) (c_minus (p_T (last ps p0)) (p_T p0)) ps 0 ltac:(apply Nat.le_0_l)) as (A & B). split.
  - rewrite app_length, repeat_length. lia.
  - exists p0. split; [left; reflexivity|]. intros r I. apply in_app_or in I. destruct I as [I|I]; [right; apply B, I|left].
    apply repeat_spec in I. exact I.
Qed.

Lemma reached_iff a b k T : Qle_bool (c_plus a (c_times (c_share k) (c_minus b a))) T = true <-> reached a b k T.
Proof. apply Qle_bool_iff. Qed.

Lemma sample_loop_spec a b all : forall ps k from, skipn from all = ps -> (k <= num_sample_points)%nat ->
  exists is, Forall2 (fun i row => exists p, nth_error all i = Some p /\ row = row_of p) is (sample_loop a (c_minus b a) k ps) /\
    picks (reached a b) all k from is /\ (length is = length (sample_loop a (c_minus b a) k ps)) /\
    (k + length is <= num_sample_points)%nat /\
    ((k + length is < num_sample_points)%nat -> forall j p, (match rev is with nil => from | i :: _ => S i end <= j)%nat ->
       nth_error all j = Some p -> ~ reached a b (k + length is) (p_T p)).
Proof.
  induction ps as [|p ps IH]; intros k from E K.
  - exists nil. split; [constructor|]. split; [exact I|]. split; [reflexivity|]. simpl length. rewrite Nat.add_0_r. split; [exact K|]. simpl rev. intros _ j q J NE.
    assert (nth_error (skipn from all) (j - from) = Some q) as X.
    { rewrite <- NE. rewrite <- (firstn_skipn from all) at 2. 
      assert (length (firstn from all) <= from)%nat by apply firstn_le_length.
      destruct (le_lt_dec from (length all)) as [L|L].
      - rewrite nth_error_app2; rewrite firstn_length_le; auto.
      - rewrite (skipn_all2 all) by lia. rewrite app_nil_r. rewrite (firstn_all2 all) by lia.
        assert (nth_error all j = None) by (apply nth_error_None; lia). rewrite H0. now destruct (j - from)%nat. }
    rewrite E in X. now destruct (j - from)%nat.
  - cbn [sample_loop]. assert (nth_error all from = Some p) as NP.
    { rewrite <- (firstn_skipn from all). rewrite E.
      assert (from < length all)%nat by (pose proof (skipn_length from all); rewrite E in H; simpl in H; lia).
      rewrite nth_error_app2; rewrite firstn_length_le by lia; [|lia]. now rewrite Nat.sub_diag. }
    assert (skipn (S from) all = ps) as E'.
    { clear - E. revert all E. induction from as [|f IHf]; intros all E; [simpl in E; subst; reflexivity|].
      destruct all as [|x all]; [discriminate|]. simpl in E. apply (IHf all E). }
    destruct (Nat.leb_spec num_sample_points k) as [L|L].
    { exists nil. split; [constructor|]. split; [exact I|]. split; [reflexivity|]. simpl length. rewrite Nat.add_0_r. split; [exact K|]. intros; lia. }
    destruct (Qle_bool (c_plus a (c_times (c_share k) (c_minus b a))) (p_T p)) eqn:C.
    + destruct (IH (S k) (S from) E') as (is & A1 & A2 & A3 & A4 & A5); [lia|].
      exists (from :: is). split; [|split; [|split; [|split]]].
      * constructor; eauto.
      * simpl. split; [lia|]. split; [exists p; split; auto; now apply reached_iff|]. split; [intros; lia|exact A2].
      * simpl. now rewrite A3.
      * simpl. lia.
      * simpl. intros L2 j q J NE. replace (k + S (length is))%nat with (S k + length is)%nat by lia.
        apply (A5 ltac:(lia) j q); auto. destruct (rev is) as [|x l] eqn:ER; simpl in J; auto.
    + destruct (IH k (S from) E' K) as (is & A1 & A2 & A3 & A4 & A5).
      assert (~ reached a b k (p_T p)) as NC by (intros X; apply reached_iff in X; congruence).
      exists is. split; auto. split; [|split; [|split]]; auto.
      * destruct is as [|i is]; simpl in *; auto. destruct A2 as (B1 & B2 & B3 & B4). split; [lia|]. split; auto. split; auto.
        intros j q J NE. destruct (Nat.eq_dec j from) as [->|]; [rewrite NP in NE; injection NE as <-; auto|].
        apply (B3 j q); auto. lia.
      * intros L2 j q J NE. destruct (rev is) as [|x l] eqn:ER.
        { assert (is = nil) as -> by (rewrite <- (rev_involutive is), ER; reflexivity). simpl in *.
          destruct (Nat.eq_dec j from) as [->|]; [rewrite NP in NE; injection NE as <-; rewrite Nat.add_0_r; auto|].
          apply (A5 L2 j q); auto. lia. }
        apply (A5 L2 j q); auto.
Qed.

Lemma profile_sampled ps rows : sample_profile ps = Ok rows -> sampled_from ps rows.
Proof.
  destruct ps as [|p0 rest]; [discriminate|]. intros H.
  remember (p0 :: rest) as ps eqn:EP. set (b := p_T (last ps p0)).
  destruct (sample_loop_spec (p_T p0) b ps ps 0 0 eq_refl) as (is & A1 & A2 & A3 & A4 & A5); [unfold num_sample_points; lia|].
  remember (sample_loop (p_T p0) (c_minus b (p_T p0)) 0 ps) as rs eqn:ERS.
  assert (rows = rs ++ repeat (repeat 0%Q (2 + length (p_Y p0))) (20 - length rs))%list as ->.
  { subst rs b. unfold sample_profile in H. rewrite EP in H |- *. injection H as <-. reflexivity. }
  exists p0, rest, is. split; [exact EP|]. unfold num_sample_points in *. simpl in A4.
  split; [rewrite app_length, repeat_length; lia|]. split; [lia|]. split; [exact A2|]. split; [|split].
  - intros k i N. generalize (repeat (repeat 0%Q (2 + length (p_Y p0))) (20 - length rs)). intros tl.
    clear - A1 N. revert k N. induction A1 as [|i' r is rows (p & P1 & P2) A1 IH]; intros [|k] N; simpl in *; try discriminate.
    + injection N as <-. exists p. subst. auto.
    + apply IH. auto.
  - intros k K. rewrite nth_error_app2 by lia.
    assert (forall n m (x : list Q), (m < n)%nat -> nth_error (repeat x n) m = Some x) as RP.
    { clear. induction n; intros [|m] x L; simpl; auto; try lia. apply IHn. lia. }
    apply RP. lia.
  - intros L j p J N. apply (A5 L j p J N).
Qed.

End Calculations.

Lemma exact_start R T0 : (p_T (ra_init R) == T0)%Q -> starts_at R T0.
Proof. intros E. unfold starts_at. cbn. split; lra. Qed.

Lemma fraction_eq k : (fraction k == Z.of_nat (S k) # 20)%Q.
Proof. unfold fraction, num_sample_points. unfold Qeq, Qdiv, inject_Z, Qmult, Qinv. simpl. lia. Qed.

Lemma completed_iff a b k T : Qle_bool (a + fraction k * (b - a))%Q T = true <-> completed a b k T.
Proof. unfold completed. rewrite Qle_bool_iff, fraction_eq. reflexivity. Qed.

Lemma chosen_length hit ps : forall is k from, (from <= length ps)%nat -> picks hit ps k from is ->
  (from + length is <= length ps)%nat.
Proof.
  induction is as [|i is IH]; intros k from L C; simpl in *; [lia|].
  destruct C as (A & (p & N & _) & _ & D).
  assert (i < length ps)%nat by (apply nth_error_Some; congruence).
  specialize (IH (S k) (S i) ltac:(lia) D). lia.
Qed.

Lemma after_rev is : after is = match rev is with nil => 0%nat | i :: _ => S i end.
Proof. reflexivity. Qed.

Definition last_of (from : nat) (is : list nat) : nat := match rev is with nil => from | i :: _ => S i end.

Lemma last_of_cons from i is : last_of from (i :: is) = last_of (S i) is.
Proof. unfold last_of. simpl. destruct (rev is); reflexivity. Qed.

Lemma picks_unique (h : nat -> Q -> Prop) ps : forall is is' k from,
  picks h ps k from is -> picks h ps k from is' -> (k + length is <= 20)%nat -> (k + length is' <= 20)%nat ->
  ((k + length is < 20)%nat -> forall j p, (last_of from is <= j)%nat -> nth_error ps j = Some p -> ~ h (k + length is)%nat (p_T p)) ->
  ((k + length is' < 20)%nat -> forall j p, (last_of from is' <= j)%nat -> nth_error ps j = Some p -> ~ h (k + length is')%nat (p_T p)) ->
  is = is'.
Proof.
  induction is as [|i is IH]; intros [|i' is'] k from C C' L L' N N'; auto.
  - exfalso. destruct C' as (F & (p & P & H) & _). simpl in N, L'. apply (N ltac:(lia) i' p F P). now rewrite Nat.add_0_r.
  - exfalso. destruct C as (F & (p & P & H) & _). simpl in N', L. apply (N' ltac:(lia) i p F P). now rewrite Nat.add_0_r.
  - destruct C as (F & (p & P & H) & B & C). destruct C' as (F' & (p' & P' & H') & B' & C').
    assert (i = i') as <-.
    { destruct (lt_eq_lt_dec i i') as [[G|G]|G]; auto; exfalso.
      - apply (B' i p); auto.
      - apply (B i' p'); auto. }
    simpl in L, L'. f_equal. apply (IH is' (S k) (S i)); auto; try lia.
    + rewrite last_of_cons in N. simpl length in N. rewrite Nat.add_succ_r in N. exact N.
    + rewrite last_of_cons in N'. simpl length in N'. rewrite Nat.add_succ_r in N'. exact N'.
Qed.

Lemma nth_error_eq {X} : forall (l l' : list X), length l = length l' ->
  (forall k, (k < length l)%nat -> nth_error l k = nth_error l' k) -> l = l'.
Proof.
  induction l as [|x l IH]; intros [|y l'] L H; simpl in L; try discriminate; auto.
  pose proof (H 0%nat ltac:(simpl; lia)) as E. simpl in E. f_equal; [congruence|].
  apply IH; [lia|]. intros k K. apply (H (S k)). simpl. lia.
Qed.

Lemma sampled_unique {CA : calc} ps rows rows' : sampled_from ps rows -> sampled_from ps rows' -> rows = rows'.
Proof.
  intros (p0 & rest & is & E & L & M & C & R & Z & N) (p0' & rest' & is' & E' & L' & M' & C' & R' & Z' & N').
  assert (p0' = p0) as -> by congruence. cbv zeta in *.
  assert (is = is') as <- by (eapply picks_unique; eauto; simpl; lia).
  apply nth_error_eq; [lia|]. intros k K. destruct (le_lt_dec (length is) k) as [G|G].
  - rewrite Z, Z' by lia. reflexivity.
  - destruct (nth_error is k) as [i|] eqn:I; [|apply nth_error_None in I; lia].
    destruct (R k i I) as (p & P & ->). destruct (R' k i I) as (p' & P' & ->). congruence.
Qed.

Lemma sampled_profile {CA : calc} ps rows : sample_profile ps = Ok rows <-> sampled_from ps rows.
Proof.
  split; [apply profile_sampled|]. intros H. destruct H as (p0 & rest & is & E & H).
  destruct (sample_profile_ok p0 rest) as (rows' & R). rewrite <- E in R. rewrite R. f_equal.
  apply (sampled_unique ps); [now apply profile_sampled|]. exists p0, rest, is. split; auto.
Qed.

Lemma reached_exact a b k T : reached (A := exact_calc) a b k T <-> completed a b k T.
Proof. unfold reached, completed. cbn. rewrite fraction_eq. reflexivity. Qed.

Lemma picks_ext (h h' : nat -> Q -> Prop) ps : (forall k T, h k T <-> h' k T) -> forall is k from,
  picks h ps k from is -> picks h' ps k from is.
Proof.
  intros E. induction is as [|i is IH]; intros k from C; simpl in *; auto.
  destruct C as (C1 & (p & C2 & C2') & C3 & C4). split; auto. split; [exists p; split; auto; now apply E|]. split; auto.
  intros j q J N H. apply (C3 j q J N). now apply E.
Qed.

Lemma profile_spec ps rows : sample_profile ps = Ok rows ->
  exists p0 rest is, ps = p0 :: rest /\ length rows = 20%nat /\ (length is <= 20)%nat /\
    chosen (p_T p0) (p_T (last ps p0)) ps 0 0 is /\
    (forall k i, nth_error is k = Some i -> exists p, nth_error ps i = Some p /\ nth_error rows k = Some (row_of p)) /\
    (forall k, (length is <= k < 20)%nat -> nth_error rows k = Some (repeat 0%Q (2 + length (p_Y p0)))) /\
    ((length is < 20)%nat -> forall j p, (after is <= j)%nat -> nth_error ps j = Some p ->
        ~ completed (p_T p0) (p_T (last ps p0)) (length is) (p_T p)).
Proof.
  intros H. destruct (profile_sampled _ _ H) as (p0 & rest & is & E & L1 & L2 & C & R & Z & N).
  exists p0, rest, is. repeat (split; auto).
  - eapply picks_ext; [|exact C]. intros. apply reached_exact.
  - intros L j p J K X. apply (N L j p J K). now apply reached_exact.
Qed.

Lemma coarse_zero {CA : calc} ps rows : sample_profile ps = Ok rows -> (length ps < 20)%nat ->
  exists p0, hd_error ps = Some p0 /\ nth_error rows 19 = Some (repeat 0%Q (2 + length (p_Y p0))).
Proof.
  intros H L. destruct (profile_sampled _ _ H) as (p0 & rest & is & -> & _ & _ & C & _ & Z & _).
  exists p0. split; auto. apply Z. apply chosen_length in C; simpl in *; lia.
Qed.

Definition fine (ps : list point) (step : Q) : Prop :=
  forall j p q, nth_error ps j = Some p -> nth_error ps (S j) = Some q -> (p_T q - p_T p < step)%Q.

Definition thr (a b : Q) (k : nat) : Q := (a + (Z.of_nat (S k) # 20) * (b - a))%Q.

Lemma thr_S a b k : (thr a b (S k) == thr a b k + (1 # 20) * (b - a))%Q.
Proof.
  unfold thr. assert (Z.of_nat (S (S k)) # 20 == (Z.of_nat (S k) # 20) + (1 # 20))%Q as ->; [|ring].
  unfold Qeq, Qplus. simpl Qnum. simpl Qden. lia.
Qed.

Lemma chosen_below a b ps : fine ps ((1 # 20) * (b - a))%Q ->
  forall is k from, chosen a b ps k from is ->
  match from with O => forall p, nth_error ps 0 = Some p -> (p_T p < thr a b k)%Q
                | S i => forall p, nth_error ps i = Some p -> (p_T p < thr a b k)%Q end ->
  match rev is with nil => True | i :: _ => forall p, nth_error ps i = Some p -> (p_T p < thr a b (k + length is))%Q end.
Proof.
  intros F is. induction is as [|i is IH]; intros k from C P; [exact I|].
  destruct C as (A & (p & N & CO) & B & D).
  assert (forall p, nth_error ps i = Some p -> (p_T p < thr a b (S k))%Q) as NX.
  { intros p' N'. rewrite thr_S. rewrite N in N'. injection N' as <-. destruct i as [|j].
    - destruct from; [|lia]. specialize (P p N). unfold completed in CO. unfold thr in P. lra.
    - assert (exists q, nth_error ps j = Some q) as (q & NQ).
      { destruct (nth_error ps j) eqn:X; eauto. apply nth_error_None in X.
        assert (S j < length ps)%nat by (apply nth_error_Some; congruence). lia. }
      pose proof (F j q p NQ N) as FX.
      assert (p_T q < thr a b k)%Q as LQ.
      { destruct (le_lt_dec from j) as [L|L].
        - destruct (Qlt_le_dec (p_T q) (thr a b k)); auto. exfalso. apply (B j q); auto. 
        - assert (from = S j) by lia. subst from. apply P. auto. }
      lra. }
  specialize (IH (S k) (S i) D NX). simpl rev. simpl length.
  replace (k + S (length is))%nat with (S k + length is)%nat by lia.
  destruct (rev is) as [|x l] eqn:ER; simpl app.
  - assert (is = nil) as -> by (rewrite <- (rev_involutive is), ER; reflexivity). simpl. rewrite Nat.add_0_r. exact NX.
  - exact IH.
Qed.

Lemma last_nth {A} (l : list A) d : l <> nil -> nth_error l (length l - 1) = Some (last l d).
Proof.
  induction l as [|x l IH]; intros H; [contradiction|]. destruct l as [|y l]; [reflexivity|].
  simpl length. replace (S (S (length l)) - 1)%nat with (S (length l)) by lia.
  specialize (IH ltac:(discriminate)). simpl length in IH. replace (S (length l) - 1)%nat with (length l) in IH by lia.
  simpl nth_error. rewrite IH. reflexivity.
Qed.

Lemma fine_fills ps rows p0 : sample_profile ps = Ok rows -> hd_error ps = Some p0 ->
  (p_T p0 < p_T (last ps p0))%Q -> fine ps ((1 # 20) * (p_T (last ps p0) - p_T p0))%Q ->
  forall k, (k < 20)%nat -> exists i p, nth_error ps i = Some p /\ nth_error rows k = Some (row_of p).
Proof.
  intros H HD R F k K. destruct (profile_spec _ _ H) as (p0' & rest & is & E & _ & L & C & RW & Z & ST).
  assert (p0' = p0) by (rewrite E in HD; simpl in HD; congruence). subst p0'.
  destruct (le_lt_dec 20 (length is)) as [L20|L20].
  - destruct (nth_error is k) as [i|] eqn:N; [|apply nth_error_None in N; lia].
    destruct (RW k i N) as (p & P1 & P2). eauto.
  - exfalso. specialize (ST L20). set (b := p_T (last ps p0)) in *. set (a := p_T p0) in *.
    assert (nth_error ps (length ps - 1) = Some (last ps p0)) as NL by (apply last_nth; rewrite E; discriminate).
    assert (completed a b (length is) (p_T (last ps p0))) as CO.
    { unfold completed. fold b. 
      assert ((Z.of_nat (S (length is)) # 20) <= 1)%Q by (unfold Qle; simpl; lia). nra. }
    assert (match is with nil => True | _ => True end) by (destruct is; exact I).
    pose proof (chosen_below a b ps F is 0 0 C) as CB. simpl in CB.
    assert (forall p, nth_error ps 0 = Some p -> (p_T p < thr a b 0)%Q) as B0.
    { intros p N. rewrite E in N. simpl in N. injection N as <-. unfold thr. fold a. simpl Z.of_nat. lra. }
    specialize (CB B0). unfold after in ST. destruct (rev is) as [|i l] eqn:ER.
    + apply (ST (length ps - 1)%nat (last ps p0)); auto. lia.
    + destruct (le_lt_dec (S i) (length ps - 1)) as [LE|LT].
      * apply (ST (length ps - 1)%nat (last ps p0)); auto.
      * assert (exists p, nth_error ps i = Some p) as (p & NI).
        { assert (In i is) as II by (apply in_rev; rewrite ER; left; reflexivity).
          destruct (In_nth_error _ _ II) as (kk & NK). destruct (RW _ _ NK) as (p & P1 & _). eauto. }
        assert (i < length ps)%nat by (apply nth_error_Some; congruence).
        assert (i = length ps - 1)%nat by lia. subst i. specialize (CB _ NL).
        unfold completed in CO. unfold thr in CB. lra.
Qed.

(** ** candidates *)
Lemma sets_iff x s : sets x s <-> In s (set_species x).
Proof.
  unfold sets, set_species, Qnz. destruct (Qeq_bool (x_phi x) 0) eqn:E; simpl.
  - apply Qeq_bool_iff in E. tauto.
  - apply Qeq_bool_neq in E. rewrite in_app_iff. tauto.
Qed.

Lemma setup_ok x m : supports x m -> setup_gas x m = Ok tt.
Proof.
  intros H. unfold setup_gas. assert (forallb (fun s => str_in s (species_names m)) (set_species x) = true) as ->; auto.
  apply forallb_forall. intros s I. apply existsb_exists. exists s. split; [apply H, sets_iff; auto|apply String.eqb_refl].
Qed.
Lemma setup_bad x m : ~ supports x m -> setup_gas x m = Raise CanteraError.
Proof.
  intros H. unfold setup_gas. destruct (forallb _ (set_species x)) eqn:E; auto. exfalso. apply H.
  intros s I. apply sets_iff in I. rewrite forallb_forall in E. specialize (E s I). apply existsb_exists in E.
  destruct E as (y & Y & EQ). apply String.eqb_eq in EQ. now subst.
Qed.
