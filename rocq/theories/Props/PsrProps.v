(** Property theorems about the solver for stirred reactors: C46, C48, C67-C72. *)
From Coq Require Import List QArith Qabs Bool Arith ZArith.
From Verif.Base Require Import Py Num XNum.
From Verif.Model Require Import Simulation Psr.
From Verif.Spec Require Import PsrSpec PsrSamples.
From Verif.Proofs Require Import PsrMore PsrEx PsrFinal.
Import ListNotations.

(** C46: the extinction point is the first of the smallest residence times;
    before it the residence times go down. *)
Theorem psr_extinction_is_smallest :
  forall norm xexp xlog xsqrt solve root, numerics norm xexp xlog xsqrt solve root ->
  forall G A branch c, consistent G -> sensible A -> a_stop A = true ->
  trace_extinction_curve norm xexp xlog xsqrt solve root G A = Ok (branch, c) ->
  exists front tm tl i,
    map fst branch = front ++ [tm; tl] /\ descending (front ++ [tm]) /\ xlt tm tl = true /\
    first_smallest (map fst branch) i /\ on_branch branch (pc_ext c) i /\
    xeq (pp_tau (pc_ext c)) tm = true.
Proof. exact extinction_final. Qed.
Print Assumptions psr_extinction_is_smallest.

Example psr_extinction_is_smallest_case :
  numerics sup_norm rat_exp rat_log rat_sqrt no_solve toy_root /\ consistent (toy_gas 50) /\
  sensible (toy_args true 20) /\ a_stop (toy_args true 20) = true /\
  summary (toy_trace 50 (toy_args true 20)) =
  Some ([1000000; 500000; 289091; 204117; 158424; 130073; 110989; 97580; 88158; 82183; 80017; 82086],
        [80017; 97580; 88158])%Z.
Proof. exact (conj toy_numerics (conj (toy_consistent 50) (conj (toy_sensible true 20) (conj eq_refl stop_run)))). Qed.

(** The defaults are among the arguments. *)
Example default_arguments_are_sensible : sensible default_args /\ a_stop default_args = true.
Proof. exact (conj default_sensible eq_refl). Qed.

(** C46: the other two points are at or before it on the branch: the one whose
    residence time is nearest to 0.1 s, and the one nearest to the geometric
    mean of that and the extinction point. *)
Theorem psr_sampled_points :
  forall norm xexp xlog xsqrt solve root, numerics norm xexp xlog xsqrt solve root ->
  forall G A branch c, consistent G -> sensible A ->
  trace_extinction_curve norm xexp xlog xsqrt solve root G A = Ok (branch, c) ->
  exists i j k,
    on_branch branch (pc_ext c) i /\ on_branch branch (pc_near c) j /\ on_branch branch (pc_mid c) k /\
    (j <= i)%nat /\ (k <= i)%nat /\
    first_nearest (firstn (S i) (map fst branch)) (Fin (1 # 10)) j /\
    first_nearest (firstn (S i) (map fst branch)) (xsqrt (xmul (pp_tau (pc_ext c)) (pp_tau (pc_near c)))) k.
Proof. exact sampled_final. Qed.
Print Assumptions psr_sampled_points.

(** C46: every point solves the steady equations. *)
Theorem psr_points_are_steady :
  forall norm xexp xlog xsqrt solve root, numerics norm xexp xlog xsqrt solve root ->
  forall G A branch c, consistent G -> sensible A ->
  trace_extinction_curve norm xexp xlog xsqrt solve root G A = Ok (branch, c) ->
  (forall tau T, In (tau, T) branch -> exists Y, steady G (1 # 10000000) (mkPP tau T Y)) /\
  steady G (1 # 10000000) (pc_ext c) /\ steady G (1 # 10000000) (pc_near c) /\
  steady G (1 # 10000000) (pc_mid c).
Proof. exact steady_final. Qed.
Print Assumptions psr_points_are_steady.

(** C46: the number of points is bounded, and the first two are the seeds. *)
Theorem psr_branch_is_bounded :
  forall norm xexp xlog xsqrt solve root, numerics norm xexp xlog xsqrt solve root ->
  forall G A branch c, consistent G -> sensible A ->
  trace_extinction_curve norm xexp xlog xsqrt solve root G A = Ok (branch, c) ->
  (length branch <= a_max_steps A + 2)%nat /\
  (a_stop A = true -> (length branch <= a_max_steps A + 1)%nat) /\
  exists r, map fst branch = Fin (a_tau_start A) :: Fin (a_tau_second A) :: r.
Proof. exact length_final. Qed.
Print Assumptions psr_branch_is_bounded.

(** C48: the damped Newton iteration. *)
Theorem newton_reports_honestly :
  forall norm solve f tol maxit u x b,
  damped_newton norm solve f tol maxit u = (x, b) ->
  exists n, (n <= maxit)%nat /\ newton_steps norm solve f n u x /\
    ((n = 0%nat /\ x = u) \/ xlt (norm (f x)) (norm (f u)) = true) /\
    (b = true -> (0 <= tol)%Q -> xlt (norm (f x)) (Fin (tol * 100)) = true) /\
    (b = false -> (n < maxit)%nat -> stuck norm solve f x).
Proof. exact newton_final. Qed.
Print Assumptions newton_reports_honestly.

(** The root of 2 from 1; an equation without a root; and too few iterations. *)
Example newton_reports_honestly_case :
  damped_newton sup_norm one_solve (square_eq 2) (1 # 1000000) 50 [Fin 1] =
    ([Fin (14142135624000000000000000000000000000000 # 10000000000000000000000000000000000000000)], true) /\
  snd (damped_newton sup_norm one_solve (square_eq (-1)) (1 # 1000000) 50 [Fin 1]) = false /\
  snd (damped_newton sup_norm one_solve (square_eq 2) (1 # 1000000) 2 [Fin 1]) = false.
Proof. exact newton_run. Qed.

(** C67: the whole march goes down, turns once, goes up, and may add one point
    behind a second turning point. *)
Theorem psr_full_march_shape :
  forall norm xexp xlog xsqrt solve root, numerics norm xexp xlog xsqrt solve root ->
  forall G A branch c, consistent G -> sensible A ->
  trace_extinction_curve norm xexp xlog xsqrt solve root G A = Ok (branch, c) ->
  exists front tm tl rest last i,
    map fst branch = front ++ [tm; tl] ++ rest ++ last /\ descending (front ++ [tm]) /\ xlt tm tl = true /\
    ascending (tl :: rest) /\ (length last <= 1)%nat /\
    first_smallest (front ++ [tm; tl] ++ rest) i /\ on_branch branch (pc_ext c) i /\
    xeq (pp_tau (pc_ext c)) tm = true.
Proof. exact full_final. Qed.
Print Assumptions psr_full_march_shape.

(** C67: it reports the same three points as the march that stops, whose
    branch is the first part of its own. *)
Theorem psr_full_march_same_points :
  forall norm xexp xlog xsqrt solve root G A b c,
  trace_extinction_curve norm xexp xlog xsqrt solve root G (with_stop false A) = Ok (b, c) ->
  exists b' r, trace_extinction_curve norm xexp xlog xsqrt solve root G (with_stop true A) = Ok (b', c) /\ b = b' ++ r.
Proof. exact full_prefix. Qed.
Print Assumptions psr_full_march_same_points.

Example psr_full_march_case :
  sensible (with_stop false (toy_args true 12)) /\
  summary (toy_trace 50 (with_stop false (toy_args true 12))) =
  Some ([1000000; 500000; 289091; 204117; 158424; 130073; 110989; 97580; 88158; 82183; 80017; 82086; 83416; 84710],
        [80017; 97580; 88158])%Z.
Proof. exact (conj (toy_sensible false 12) full_run). Qed.

(** C68: the branch does not end at the turning point, as the docstring says,
    but with a point behind it. *)
Theorem psr_branch_ends_past_extinction :
  forall norm xexp xlog xsqrt solve root, numerics norm xexp xlog xsqrt solve root ->
  forall G A branch c, consistent G -> sensible A -> a_stop A = true ->
  trace_extinction_curve norm xexp xlog xsqrt solve root G A = Ok (branch, c) ->
  xlt (pp_tau (pc_ext c)) (last (map fst branch) NaN) = true.
Proof. exact past_final. Qed.
Print Assumptions psr_branch_ends_past_extinction.

(** C69: with seeds in ascending order the first seed is reported as the
    extinction point. *)
Theorem psr_ascending_seeds :
  forall norm xexp xlog xsqrt solve root, numerics norm xexp xlog xsqrt solve root ->
  forall G A branch c, consistent G -> sensible A -> a_stop A = true ->
  (a_tau_start A < a_tau_second A)%Q ->
  trace_extinction_curve norm xexp xlog xsqrt solve root G A = Ok (branch, c) ->
  map fst branch = [Fin (a_tau_start A); Fin (a_tau_second A)] /\ pp_tau (pc_ext c) = Fin (a_tau_start A).
Proof. exact wrong_order_final. Qed.
Print Assumptions psr_ascending_seeds.

Example psr_ascending_seeds_case :
  sensible swapped_args /\ (a_tau_start swapped_args < a_tau_second swapped_args)%Q /\
  summary (toy_trace 50 swapped_args) = Some ([500000; 1000000], [500000; 500000; 500000])%Z.
Proof. exact (conj swapped_sensible (conj eq_refl swapped_run)). Qed.

(** C70: a model that goes out at 0.1 s or later is sampled at one point. *)
Theorem psr_late_extinction_one_point :
  forall norm xexp xlog xsqrt solve root, numerics norm xexp xlog xsqrt solve root ->
  forall G A branch c, consistent G -> sensible A ->
  trace_extinction_curve norm xexp xlog xsqrt solve root G A = Ok (branch, c) ->
  xle (Fin (1 # 10)) (pp_tau (pc_ext c)) = true -> pc_near c = pc_ext c /\ pc_mid c = pc_ext c.
Proof. exact late_final. Qed.
Print Assumptions psr_late_extinction_one_point.

Example psr_late_extinction_one_point_case :
  summary (toy_trace 20 (toy_args true 20)) =
  Some ([1000000; 500000; 348459; 277644; 239727; 217855; 204429; 200013; 205962], [200013; 200013; 200013])%Z.
Proof. exact late_run. Qed.

(** C71: exceptions. *)
Theorem psr_exceptions :
  forall norm xexp xlog xsqrt solve root G A e,
  trace_extinction_curve norm xexp xlog xsqrt solve root G A = Raise e ->
  e = RuntimeError \/ from_outside root G e.
Proof. exact trace_raises. Qed.
Print Assumptions psr_exceptions.

(** The march is stopped before the check that would see the turning point. *)
Example psr_exceptions_case : toy_trace 20 (toy_args true 7) = Raise RuntimeError.
Proof. exact short_run. Qed.

(** C72: steps below the tolerance of the corrector can make the march report
    an extinction point although the residence time never rose. *)
Theorem psr_tiny_steps_refuted :
  exists norm xexp xlog xsqrt solve root G A branch c,
    numerics norm xexp xlog xsqrt solve root /\ consistent G /\
    (0 < a_ds_min A /\ a_ds_min A <= a_ds0 A /\ a_ds0 A <= a_ds_max A /\ 0 < a_tau_second A /\ a_tau_second A < a_tau_start A)%Q /\
    trace_extinction_curve norm xexp xlog xsqrt solve root G A = Ok (branch, c) /\
    descending (map fst branch).
Proof. exact tiny_refuted. Qed.
Print Assumptions psr_tiny_steps_refuted.

(** C80: the points of the curve lie the chosen step apart, and the steps stay
    within their bounds. *)
Theorem psr_points_are_spaced :
  forall norm xexp xlog xsqrt solve root, numerics norm xexp xlog xsqrt solve root ->
  forall G A branch c, consistent G -> sensible A ->
  trace_extinction_curve norm xexp xlog xsqrt solve root G A = Ok (branch, c) ->
  exists Ys us dss,
    length Ys = length branch /\ length us = length branch /\ (length dss + 2)%nat = length branch /\
    (forall i tau T Y u, nth_error branch i = Some (tau, T) -> nth_error Ys i = Some Y -> nth_error us i = Some u ->
       stands_for xexp (g_n G) u (mkPP tau T Y) /\ steady G (1 # 10000000) (mkPP tau T Y)) /\
    (forall p, In p [pc_ext c; pc_mid c; pc_near c] ->
       exists i, nth_error branch i = Some (pp_tau p, pp_T p) /\ nth_error Ys i = Some (pp_Y p)) /\
    spaced norm (1 # 10000000) us dss /\ step_sizes A dss /\ slow_after_turn branch dss.
Proof. exact steps_final. Qed.
Print Assumptions psr_points_are_spaced.

(** The sample reactor meets the hypotheses; three of its points, and what the
    defaults allow. *)
Example psr_points_are_spaced_case :
  numerics sup_norm rat_exp rat_log rat_sqrt no_solve toy_root /\ consistent (toy_gas 50) /\
  sensible (toy_args true 20) /\ (exists branch c, toy_trace 50 (toy_args true 20) = Ok (branch, c)) /\
  below (1 # 10000000) (xsub (advance sup_norm [Fin 0.889893626; Fin 1.889893626; Fin (-0.389914801)]
    [Fin 0.851790645; Fin 1.851790645; Fin (-0.531216709)]
    [Fin 0.810225668; Fin 1.810225668; Fin (-0.668800175)]) (Fin 0.16)) /\
  step_sizes default_args [0.1; 0.12; 0.06; 0.072] /\
  ~ step_sizes default_args [0.1; 0.2] /\ ~ step_sizes default_args [0.0005].
Proof. exact steps_case. Qed.
