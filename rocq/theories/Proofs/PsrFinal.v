(** The statements about the solver for stirred reactors, put together. *)
From Coq Require Import List QArith Qabs Bool Arith ZArith Lia Lqa Sorted.
From Verif.Base Require Import Py Num XNum.
From Verif.Model Require Import Simulation Psr.
From Verif.Spec Require Import PsrSpec PsrSamples.
From Verif.Proofs Require Import NumFacts PsrFacts PsrNum PsrMarch PsrTop PsrMore PsrSteps PsrEx.
Import ListNotations.

Section Final.
Variable norm : vec -> xnum.
Variables xexp xlog xsqrt : xnum -> xnum.
Variable solve : list vec -> vec -> option vec.
Variable root : (vec -> vec) -> vec -> res (bool * vec * vec).
Hypothesis NM : numerics norm xexp xlog xsqrt solve root.

Notation trace := (trace_extinction_curve norm xexp xlog xsqrt solve root).

Lemma extinction_final G A branch c : consistent G -> sensible A -> a_stop A = true -> trace G A = Ok (branch, c) ->
  exists front tm tl i,
    map fst branch = front ++ [tm; tl] /\ descending (front ++ [tm]) /\ xlt tm tl = true /\
    first_smallest (map fst branch) i /\ on_branch branch (pc_ext c) i /\
    xeq (pp_tau (pc_ext c)) tm = true.
Proof. intros GC AS ST H. destruct NM as (A1 & A2 & A3 & A4 & A5 & A6). eapply extinction_top; eauto. Qed.

Lemma past_final G A branch c : consistent G -> sensible A -> a_stop A = true -> trace G A = Ok (branch, c) ->
  xlt (pp_tau (pc_ext c)) (last (map fst branch) NaN) = true.
Proof.
  intros GC AS ST H. destruct (extinction_final _ _ _ _ GC AS ST H) as (front & tm & tl & i & -> & _ & X & _ & _ & E).
  change (front ++ [tm; tl]) with (front ++ [tm] ++ [tl]). rewrite app_assoc, last_last. unfold xeq in E. apply andb_true_iff in E. destruct E as (E & _).
  eapply xle_lt_trans; eauto.
Qed.

Lemma full_final G A branch c : consistent G -> sensible A -> trace G A = Ok (branch, c) ->
  exists front tm tl rest last i,
    map fst branch = front ++ [tm; tl] ++ rest ++ last /\ descending (front ++ [tm]) /\ xlt tm tl = true /\
    ascending (tl :: rest) /\ (length last <= 1)%nat /\
    first_smallest (front ++ [tm; tl] ++ rest) i /\ on_branch branch (pc_ext c) i /\
    xeq (pp_tau (pc_ext c)) tm = true.
Proof. intros GC AS H. destruct NM as (A1 & A2 & A3 & A4 & A5 & A6). eapply full_march_top; eauto. Qed.

Lemma sampled_final G A branch c : consistent G -> sensible A -> trace G A = Ok (branch, c) ->
  exists i j k,
    on_branch branch (pc_ext c) i /\ on_branch branch (pc_near c) j /\ on_branch branch (pc_mid c) k /\
    (j <= i)%nat /\ (k <= i)%nat /\
    first_nearest (firstn (S i) (map fst branch)) (Fin (1 # 10)) j /\
    first_nearest (firstn (S i) (map fst branch)) (xsqrt (xmul (pp_tau (pc_ext c)) (pp_tau (pc_near c)))) k.
Proof. intros GC AS H. destruct NM as (A1 & A2 & A3 & A4 & A5 & A6). eapply sampled_top; eauto. Qed.

Lemma steady_final G A branch c : consistent G -> sensible A -> trace G A = Ok (branch, c) ->
  (forall tau T, In (tau, T) branch -> exists Y, steady G (1 # 10000000) (mkPP tau T Y)) /\
  steady G (1 # 10000000) (pc_ext c) /\ steady G (1 # 10000000) (pc_near c) /\
  steady G (1 # 10000000) (pc_mid c).
Proof. intros GC AS H. destruct NM as (A1 & A2 & A3 & A4 & A5 & A6). eapply steady_top; eauto. Qed.

Lemma length_final G A branch c : consistent G -> sensible A -> trace G A = Ok (branch, c) ->
  (length branch <= a_max_steps A + 2)%nat /\
  (a_stop A = true -> (length branch <= a_max_steps A + 1)%nat) /\
  exists r, map fst branch = Fin (a_tau_start A) :: Fin (a_tau_second A) :: r.
Proof. intros GC AS H. destruct NM as (A1 & A2 & A3 & A4 & A5 & A6). eapply length_top; eauto. Qed.

Lemma wrong_order_final G A branch c : consistent G -> sensible A -> a_stop A = true ->
  (a_tau_start A < a_tau_second A)%Q -> trace G A = Ok (branch, c) ->
  map fst branch = [Fin (a_tau_start A); Fin (a_tau_second A)] /\ pp_tau (pc_ext c) = Fin (a_tau_start A).
Proof. intros GC AS ST O H. destruct NM as (A1 & A2 & A3 & A4 & A5 & A6). eapply wrong_order_top; eauto. Qed.

Lemma late_final G A branch c : consistent G -> sensible A -> trace G A = Ok (branch, c) ->
  xle (Fin (1 # 10)) (pp_tau (pc_ext c)) = true -> pc_near c = pc_ext c /\ pc_mid c = pc_ext c.
Proof. intros GC AS H X. destruct NM as (A1 & A2 & A3 & A4 & A5 & A6). eapply late_top; eauto. Qed.

Lemma steps_final G A branch c : consistent G -> sensible A -> trace G A = Ok (branch, c) ->
  exists Ys us dss,
    length Ys = length branch /\ length us = length branch /\ (length dss + 2)%nat = length branch /\
    (forall i tau T Y u, nth_error branch i = Some (tau, T) -> nth_error Ys i = Some Y -> nth_error us i = Some u ->
       stands_for xexp (g_n G) u (mkPP tau T Y) /\ steady G (1 # 10000000) (mkPP tau T Y)) /\
    (forall p, In p [pc_ext c; pc_mid c; pc_near c] ->
       exists i, nth_error branch i = Some (pp_tau p, pp_T p) /\ nth_error Ys i = Some (pp_Y p)) /\
    spaced norm (1 # 10000000) us dss /\ step_sizes A dss /\ slow_after_turn branch dss.
Proof. intros GC AS H. destruct NM as (A1 & A2 & A3 & A4 & A5 & A6). eapply steps_top; eauto. Qed.
End Final.

Lemma tiny_refuted :
  exists norm xexp xlog xsqrt solve root G A branch c,
    numerics norm xexp xlog xsqrt solve root /\ consistent G /\
    (0 < a_ds_min A /\ a_ds_min A <= a_ds0 A /\ a_ds0 A <= a_ds_max A /\ 0 < a_tau_second A /\ a_tau_second A < a_tau_start A)%Q /\
    trace_extinction_curve norm xexp xlog xsqrt solve root G A = Ok (branch, c) /\
    descending (map fst branch).
Proof.
  destruct tiny_run as (branch & c & E & D & _).
  exists sup_norm, rat_exp, rat_log, rat_sqrt, no_solve, toy_root, (toy_gas 20), tiny_args, branch, c.
  split; [exact toy_numerics|]. split; [apply toy_consistent|]. split; [|split; [exact E|exact D]].
  unfold tiny_args. cbn [a_ds_min a_ds0 a_ds_max a_tau_second a_tau_start]. repeat split; lra.
Qed.

Lemma newton_final norm solve f tol maxit u x b :
  damped_newton norm solve f tol maxit u = (x, b) ->
  exists n, (n <= maxit)%nat /\ newton_steps norm solve f n u x /\
    ((n = 0%nat /\ x = u) \/ xlt (norm (f x)) (norm (f u)) = true) /\
    (b = true -> (0 <= tol)%Q -> xlt (norm (f x)) (Fin (tol * 100)) = true) /\
    (b = false -> (n < maxit)%nat -> stuck norm solve f x).
Proof.
  intros H. pose proof H as H2. apply newton_cases in H. destruct H as (n & NS & C).
  exists n. split; [destruct C as [(? & _)|[(? & _)|(? & _)]]; lia|].
  split; [assumption|]. split; [eapply steps_descend; eauto|]. split.
  - intros -> T. eapply newton_converged; eauto.
  - intros -> L. destruct C as [(_ & _ & ?)|[(_ & _ & _ & ?)|(? & _)]]; [discriminate|assumption|lia].
Qed.

Lemma steps_case :
  numerics sup_norm rat_exp rat_log rat_sqrt no_solve toy_root /\ consistent (toy_gas 50) /\
  sensible (toy_args true 20) /\ (exists branch c, toy_trace 50 (toy_args true 20) = Ok (branch, c)) /\
  below (1 # 10000000) (xsub (advance sup_norm [Fin 0.889893626; Fin 1.889893626; Fin (-0.389914801)]
    [Fin 0.851790645; Fin 1.851790645; Fin (-0.531216709)]
    [Fin 0.810225668; Fin 1.810225668; Fin (-0.668800175)]) (Fin 0.16)) /\
  step_sizes default_args [0.1; 0.12; 0.06; 0.072] /\
  ~ step_sizes default_args [0.1; 0.2] /\ ~ step_sizes default_args [0.0005].
Proof.
  split; [exact toy_numerics|]. split; [apply toy_consistent|]. split; [apply toy_sensible|]. split.
  { pose proof stop_run as R. destruct (toy_trace 50 (toy_args true 20)) as [[b c]| |]; [eauto|discriminate..]. }
  split; [eexists; split; [vm_compute; reflexivity|vm_compute; reflexivity]|].
  split; [|split].
  - split; [|split].
    + intros ds I. cbn in I. destruct I as [<-|[<-|[<-|[<-|[]]]]]; cbn; split; lra.
    + intros ds E. injection E as <-. cbn. lra.
    + intros [|[|[|i]]] d d' E1 E2; cbn in E1, E2; try (injection E1 as <-; injection E2 as <-; lra).
      destruct i; discriminate.
  - intros (_ & _ & S). specialize (S 0%nat _ _ eq_refl eq_refl). lra.
  - intros (S & _). destruct (S _ (or_introl eq_refl)) as (X & _). cbn in X. lra.
Qed.
