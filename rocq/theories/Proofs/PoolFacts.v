(** Sampling with several processes ends as with one. *)
From Coq Require Import String List QArith ZArith Bool Arith Lia Permutation.
From Verif.Base Require Import Py Num XNum.
From Verif.Model Require Import Mech World Metrics Drivers Simulation Sampling Pool.
From Verif.Spec Require Import MetricSpec DriverSpec SimSpec SamplingSpec.
From Verif.Proofs Require Import ProgFacts SamplingFacts SamplingMore SamplingEnd SamplingTop.
Import ListNotations.

Lemma exec_same {A} (p : prog A) w v : same_files w v ->
  fst (exec p w) = fst (exec p v) /\ same_files (snd (exec p w)) (snd (exec p v)).
Proof.
  intros S. assert (within p (fun _ => True) (fun _ => True)) as W.
  { clear. induction p; simpl; auto. }
  destruct (exec_agree p _ _ W w v) as (E & F); [intros f _; apply S|]. split; [exact E|]. intros f. apply F. auto.
Qed.
Lemma same_refl w : same_files w w. Proof. intros f. reflexivity. Qed.
Lemma same_sym w v : same_files w v -> same_files v w. Proof. intros S f. symmetry. apply S. Qed.
Lemma same_trans w v u : same_files w v -> same_files v u -> same_files w u.
Proof. intros S T f. rewrite S. apply T. Qed.
Lemma same_holds w v model phase m : same_files w v -> holds w model phase m -> holds v model phase m.
Proof. intros S (ph & E & P). exists ph. rewrite <- S. auto. Qed.

(** A way to end and a program that ends like it. *)
Record sim {A} (Pre : world -> Prop) (e : ends A) (p : prog A) : Prop := {
  sim_ok : forall w v a w', Pre v -> same_files w v -> e w (Ok a) w' -> exists v', exec p v = (Ok a, v') /\ same_files w' v';
  sim_bad : forall w v x w', Pre v -> same_files w v -> e w (Raise x) w' -> forall a v', exec p v <> (Ok a, v');
  sim_can : forall w v a v', Pre v -> same_files w v -> exec p v = (Ok a, v') -> exists w', e w (Ok a) w'
}.

Lemma sim_prog {A} Pre (p : prog A) : sim Pre (of_prog p) p.
Proof.
  assert (forall w v, same_files w v -> forall r w', exec p w = (r, w') -> exists v', exec p v = (r, v') /\ same_files w' v') as G.
  { intros w v S r w' E. destruct (exec_same p w v S) as (E1 & E2). rewrite E in E1, E2. simpl in *. destruct (exec p v) as (r' & v'). simpl in *.
    subst r'. eauto. }
  constructor.
  - intros w v a w' _ S E. exact (G _ _ S _ _ E).
  - intros w v x w' _ S E a v' F. destruct (G _ _ S _ _ E) as (v1 & F1 & _). congruence.
  - intros w v a v' _ S E. destruct (G _ _ (same_sym _ _ S) _ _ E) as (w' & E' & _). exists w'. exact E'.
Qed.

Lemma sim_then {A B} Pre (e : ends A) p (k : A -> ends B) q : sim Pre e p -> (forall a, sim Pre (k a) (q a)) ->
  (forall v a v', Pre v -> exec p v = (Ok a, v') -> Pre v') -> sim Pre (ethen e k) (pbind p q).
Proof.
  intros S K F. constructor.
  - intros w v b w' P E H. inversion H as [a w1 r w2 H1 H2| |]; subst. destruct (sim_ok _ _ _ S _ _ _ _ P E H1) as (v1 & X1 & E1).
    destruct (sim_ok _ _ _ (K a) _ _ _ _ (F _ _ _ P X1) E1 H2) as (v2 & X2 & E2). exists v2. rewrite exec_bind, X1. auto.
  - intros w v x w' P E H b v' X. rewrite exec_bind in X. inversion H as [a w1 r w2 H1 H2|y w1 H1|]; subst.
    + destruct (sim_ok _ _ _ S _ _ _ _ P E H1) as (v1 & X1 & E1). rewrite X1 in X.
      exact (sim_bad _ _ _ (K a) _ _ _ _ (F _ _ _ P X1) E1 H2 _ _ X).
    + destruct (exec p v) as ([a| |] & v1) eqn:X1; try discriminate X. exact (sim_bad _ _ _ S _ _ _ _ P E H1 _ _ X1).
  - intros w v b v' P E X. rewrite exec_bind in X. destruct (exec p v) as ([a| |] & v1) eqn:X1; try discriminate X.
    destruct (sim_can _ _ _ S _ _ _ _ P E X1) as (w1 & H1). destruct (sim_ok _ _ _ S _ _ _ _ P E H1) as (v1' & X1' & E1).
    rewrite X1 in X1'. injection X1' as <-. destruct (sim_can _ _ _ (K a) _ _ _ _ (F _ _ _ P X1) E1 X) as (w2 & H2).
    exists w2. eapply et_ok; eauto.
Qed.

Lemma sim_same {A} Pre (e : ends A) p q : (forall v, exec p v = exec q v) -> sim Pre e p -> sim Pre e q.
Proof. intros E [a b c]. constructor; intros; rewrite <- E in *; eauto. Qed.

(** A process that has finished stays so. *)
Lemma ret_stays {A} (s t : list (prog A) * world) : steps s t -> forall i r, nth_error (fst s) i = Some (Ret r) -> nth_error (fst t) i = Some (Ret r).
Proof.
  induction 1 as [s|s t u S ST IH]; intros i r N; [exact N|]. apply IH. clear - S N.
  inversion S as [l q f k w|l q f c p w]; subst; cbn [fst] in *;
    destruct (nth_mid _ _ _ _ _ N) as [(-> & X)|(_ & X)]; try discriminate X; apply X.
Qed.

Section Jobs.
  Context {A B D : Type}.
  Variables (worker : nat * A -> prog B) (pure : A -> res B) (model phase : string) (m : mech) (W : nat -> string -> Prop).
  Hypothesis runs : forall w i a, holds w model phase m ->
    exists w', exec (worker (i, a)) w = (pure a, w') /\ (forall f, ~ W i f -> w_fs w' f = w_fs w f) /\
               (forall x, pure a = Ok x -> forall f, W i f -> w_fs w' f = None).
  Hypothesis sep : forall i j f, W i f -> W j f -> i = j.
  Hypothesis foot : forall i a, within (worker (i, a)) (fun f => f = model) (W i).
  Hypothesis dec : forall i f, W i f \/ ~ W i f.
  Variable g : list B -> res D.

  Definition gather (rs : list (nat * B)) : res D := bind (collect rs) g.

  Lemma serial_fst cs w : (forall i, (i < length cs)%nat -> ~ W i model) -> holds w model phase m ->
    exists w', exec (run_serial worker (jobs_of cs)) w = (bind (mapM pure cs) (fun rs => Ok (combine (seq 0 (length rs)) rs)), w').
  Proof.
    intros off H. destruct (serial_exec worker pure model phase m W runs sep cs 0 w (fun i Hi => off i (proj2 Hi)) H) as (w' & E & _). exists w'. exact E.
  Qed.

  Lemma failing_pool cs w qs e w' : (forall i, (i < length cs)%nat -> ~ W i model) -> holds w model phase m ->
    steps (map worker (jobs_of cs), w) (qs, w') -> In (Ret (Raise e)) qs -> In (Raise e) (map pure cs).
  Proof.
    intros off H S I. destruct (In_nth_error _ _ I) as (i & N). destruct (pool_finishes qs w') as (rs & v & S').
    pose proof (ret_stays _ _ S' i _ N) as N'. cbn [fst] in N'.
    destruct (pool_ends worker pure model phase m W runs sep foot cs w rs v off H (steps_trans _ _ _ S S')) as (E & _).
    rewrite E in N'. rewrite map_map in N'. rewrite nth_error_map in N'. destruct (nth_error cs i) as [c|] eqn:EC; [|discriminate N'].
    cbn in N'. injection N' as N'. rewrite <- N'. apply in_map. eapply nth_error_In; eauto.
  Qed.

  Lemma failing_serial cs e : In (Raise e) (map pure cs) -> forall rs, mapM pure cs <> Ok rs.
  Proof.
    intros I rs E. apply mapM_all in E. rewrite E in I. apply in_map_iff in I. destruct I as (x & X & _). discriminate X.
  Qed.

  Lemma jobs_sim n cs : (1 <= n)%Z -> (forall i, (i < length cs)%nat -> ~ W i model) ->
    sim (fun v => holds v model phase m) (ethen (run_workers n worker (jobs_of cs)) (fun rs => of_prog (Ret (gather rs))))
        (rs <~ run_serial worker (jobs_of cs) ;; Ret (gather rs)).
  Proof.
    intros N off. constructor.
    - intros w v d w' H S X. inversion X as [rs w1 r w2 X1 X2| |]; subst. injection X2 as X2 <-.
      inversion X1 as [r w3 E1 E2| |results w3 L P|]; subst.
      + destruct (sim_ok _ _ _ (sim_prog (fun _ => True) (run_serial worker (jobs_of cs))) w v rs w1 I S E2) as (v1 & F & G).
        exists v1. rewrite exec_bind, F. cbn [exec]. rewrite X2. auto.
      + pose proof (same_holds _ _ _ _ _ (same_sym _ _ S) H) as H'.
        destruct (pool_collect worker pure model phase m W runs sep foot dec cs w rs w1 off H' P) as (ys & w3 & E1 & E2 & E3 & E4).
        unfold gather in X2. rewrite E2 in X2. rewrite exec_bind in E3.
        destruct (exec (run_serial worker (jobs_of cs)) w) as ([xs| |] & w4) eqn:EX; try discriminate E3. cbn [exec] in E3. injection E3 as E3 <-.
        destruct (sim_ok _ _ _ (sim_prog (fun _ => True) (run_serial worker (jobs_of cs))) w v xs w4 I S EX) as (v1 & F & G).
        exists v1. rewrite exec_bind, F. cbn [exec]. unfold gather. rewrite E3, X2. split; [reflexivity|]. eapply same_trans; eauto.
    - intros w v x w' H S X d v' E. rewrite exec_bind in E. destruct (serial_fst cs v off H) as (v1 & F). rewrite F in E.
      destruct (mapM pure cs) as [ys| |] eqn:EM; cbn [bind] in E; try discriminate E. cbn [exec] in E. injection E as E _.
      pose proof (same_holds _ _ _ _ _ (same_sym _ _ S) H) as H'.
      inversion X as [rs w1 r w2 X1 X2|y w1 X1|]; subst.
      + injection X2 as X2 <-.
        assert (gather rs = Ok d) as Y.
        { inversion X1 as [r w3 E1 E2| |results w3 L P|]; subst.
          - destruct (serial_fst cs w off H') as (w4 & F4). rewrite EM in F4. cbn [bind] in F4. congruence.
          - destruct (pool_collect worker pure model phase m W runs sep foot dec cs w rs w1 off H' P) as (zs & w3 & E1 & E2 & _ & _).
            rewrite EM in E1. injection E1 as <-. unfold gather in E |- *. rewrite E2.
            rewrite collect_perm with (rs := ys) in E by reflexivity. exact E. }
        congruence.
      + inversion X1 as [r w3 E1 E2|L|  |qs e w3 L P In1]; subst.
        * destruct (serial_fst cs w off H') as (w4 & F4). rewrite EM in F4. cbn [bind] in F4. congruence.
        * lia.
        * exact (failing_serial cs x (failing_pool cs w qs x w' off H' P In1) ys EM).
    - intros w v d v' H S E. rewrite exec_bind in E. destruct (serial_fst cs v off H) as (v1 & F).
      pose proof (same_holds _ _ _ _ _ (same_sym _ _ S) H) as H'.
      rewrite F in E. destruct (mapM pure cs) as [ys| |] eqn:EM; cbn [bind] in E; try discriminate E. cbn [exec] in E. injection E as E <-.
      destruct (Z.eq_dec n 1) as [->|N1].
      + destruct (serial_fst cs w off H') as (w1 & F1). rewrite EM in F1. cbn [bind] in F1. exists w1.
        eapply et_ok; [apply rw_one; [reflexivity|exact F1]|]. unfold of_prog. cbn [exec]. now rewrite E.
      + destruct (pool_exists worker pure model phase m W runs sep foot cs w ys off H' EM) as (results & w1 & P). exists w1.
        eapply et_ok; [apply rw_all; [lia|exact P]|]. unfold of_prog. cbn [exec].
        destruct (pool_collect worker pure model phase m W runs sep foot dec cs w results w1 off H' P) as (zs & w3 & E1 & E2 & _ & _).
        rewrite EM in E1. injection E1 as <-. unfold gather in E |- *. rewrite E2.
        rewrite collect_perm with (rs := ys) in E by reflexivity. cbn [bind] in *. now rewrite E.
  Qed.
End Jobs.
