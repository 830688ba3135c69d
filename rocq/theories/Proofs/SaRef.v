(** The properties of sensitivity analysis for the documented reference. *)
From Coq Require Import String List QArith Bool Arith Lia Permutation.
From Verif.Base Require Import Py Num XNum Paths.
From Verif.Model Require Import Mech World Metrics Drivers Sensitivity.
From Verif.Spec Require Import TrimSpec MetricSpec DriverSpec SensitivitySpec SaOrderSpec.
From Verif.Proofs Require Import PyFacts StepFacts SaFacts SaMore SaPkg SaOrderFacts.
Import ListNotations.
Local Open Scope string_scope.

Lemma jobs_run file phase w m cases ls : holds w file phase m -> Forall2 (fun (c : cond) x => c m = Ok x) cases ls ->
  run_metric_jobs file phase cases w = (Ok (concat ls), w).
Proof.
  intros H F. unfold run_metric_jobs, mbind.
  assert (mmap (fun c : cond => fun w0 => mbind (load file phase) (fun sol => mlift (c sol)) w0) cases w = (Ok ls, w)) as E.
  { induction F as [|c x cases ls E _ IH]; [reflexivity|]. cbn [mmap]. unfold mbind at 1. unfold mbind at 1.
    rewrite (load_holds _ _ _ _ H). unfold mlift at 1. rewrite E. unfold mbind at 1. now rewrite IH. }
  unfold mbind in E. rewrite E. reflexivity.
Qed.

Lemma part_found m file phase cases w out each initial l : holds w file phase m ->
  (each = 1%nat /\ initial = repeat (Fin 0) (length cases) \/ each = 3%nat /\ initial = nil) ->
  reference_for m cases w out each l ->
  metrics_part file phase cases out initial (each * length cases) true w = (Ok l, w).
Proof.
  intros H I R. destruct R as [->|l N W L|N W E|l ls N W L F|ls N W E F]; [reflexivity| | | |];
    destruct cases as [|c cases]; try contradiction; unfold metrics_part; unfold mbind at 1; unfold is_file, get_file, mbind, mret;
    rewrite ?W; cbn [andb].
  - unfold read_nums, get_file, mbind, mlift. rewrite W. cbn [text_array bind flat]. rewrite L, Nat.eqb_refl. reflexivity.
  - destruct I as [[_ ->]|[-> _]]; [|discriminate]. rewrite repeat_length, E, Nat.mul_1_l, Nat.eqb_refl. reflexivity.
  - unfold read_nums, get_file, mbind, mlift. rewrite W. cbn [text_array bind flat].
    destruct (Nat.eqb_spec (length l) (each * length (c :: cases))) as [G|_]; [contradiction|]. now apply (jobs_run file phase w m).
  - destruct I as [[-> _]|[_ ->]]; [discriminate|]. rewrite E. cbn [length Nat.eqb Nat.mul Nat.add]. now apply (jobs_run file phase w m).
Qed.

Lemma reference_found K w ref : reference K w ref -> found K w ref.
Proof.
  intros (m & i & p & f & H & -> & RI & RP & RF). unfold found, sample_metrics, mbind.
  pose proof (part_found m (s_file K) (s_phase K) _ w _ 1 (repeat (Fin 0) (length (c_ign (s_conds K)))) i H (or_introl (conj eq_refl eq_refl)) RI) as EI.
  pose proof (part_found m (s_file K) (s_phase K) _ w _ 3 nil p H (or_intror (conj eq_refl eq_refl)) RP) as EP.
  pose proof (part_found m (s_file K) (s_phase K) _ w _ 1 (repeat (Fin 0) (length (c_flame (s_conds K)))) f H (or_introl (conj eq_refl eq_refl)) RF) as EF.
  rewrite Nat.mul_1_l in EI, EF. unfold output_ignition, output_psr, output_flame. rewrite EI, EP, EF. reflexivity.
Qed.

Lemma ref_sa_limit :
  forall K w tmp tmp2 sol fuel r w' ref,
    sa_started K w tmp tmp2 sol -> reference K w ref -> s_limit K <> NaN ->
    run_sa fuel tmp tmp2 K w = (Ok r, w') ->
    (r_model r = sol /\ r_error r = s_start K) \/
    (error_of (s_conds K) ref (r_model r) = Ok (r_error r) /\
     (xle (r_error r) (s_limit K) = true \/ r_error r = NaN)).
Proof. intros. eapply sa_limit; eauto using reference_found. Qed.

Lemma ref_run_greedy_crash :
  forall K w tmp tmp2 sol fuel ref cands,
    sa_started K w tmp tmp2 sol -> reference K w ref -> candidates K w sol cands ->
    cands <> nil -> s_alg K = Greedy -> all_removable K sol ref cands -> (length cands <= fuel)%nat ->
    fst (run_sa fuel tmp tmp2 K w) = Raise ValueError.
Proof. intros. eapply run_greedy_crash; eauto using reference_found. Qed.

Lemma ref_run_initial_all :
  forall K w tmp tmp2 sol fuel ref cands,
    sa_started K w tmp tmp2 sol -> reference K w ref -> candidates K w sol cands ->
    s_alg K = Initial -> all_removable K sol ref cands ->
    (exists s, In s (species_names sol) /\ ~ In s cands) -> (length cands <= fuel)%nat ->
    exists r w', run_sa fuel tmp tmp2 K w = (Ok r, w') /\
      forall s, In s (species_names (r_model r)) <-> In s (species_names sol) /\ ~ In s cands.
Proof. intros. eapply run_initial_all; eauto using reference_found. Qed.

Lemma ref_run_zero_ref :
  forall K w tmp tmp2 sol fuel r w' ref,
    sa_started K w tmp tmp2 sol -> exact_errors (s_conds K) -> reference K w ref ->
    (c_ign (s_conds K) <> nil /\ w_fs w "ignition_output.txt" = None) \/
    (c_flame (s_conds K) <> nil /\ w_fs w "laminarflame_output.txt" = None) ->
    (forall x, In x ref -> exists q, x = Fin q) ->
    (forall m ts, metrics_of (s_conds K) m = Ok ts -> ~ In NaN ts) ->
    xgt (Fin 100) (s_limit K) = true ->
    run_sa fuel tmp tmp2 K w = (Ok r, w') -> r_model r = sol /\ r_error r = s_start K.
Proof. intros. eapply run_zero_ref; eauto using reference_found. Qed.

Lemma ref_run_nan :
  forall K w tmp tmp2 sol fuel r w' ref cands q k s,
    sa_started K w tmp tmp2 sol -> reference K w ref -> candidates K w sol cands ->
    s_far K = error_distance -> s_start K = Fin q ->
    nth_error cands k = Some s -> error_without K ref sol s NaN ->
    (forall j s', (j < k)%nat -> nth_error cands j = Some s' -> ~ error_without K ref sol s' NaN) ->
    run_sa fuel tmp tmp2 K w = (Ok r, w') ->
    ~ In s (species_names (r_model r)).
Proof. intros. eapply run_nan; eauto using reference_found. Qed.

Lemma ref_sa_stop :
  forall K w tmp tmp2 sol fuel r w' ref cands,
    sa_started K w tmp tmp2 sol -> reference K w ref -> candidates K w sol cands ->
    run_sa fuel tmp tmp2 K w = (Ok r, w') ->
    exists removed tried rest, Permutation cands (removed ++ tried ++ rest)%list /\
      removals (s_phase K) sol removed (r_model r) /\ stopped K ref (r_model r) tried rest.
Proof. intros. eapply sa_stop; eauto using reference_found. Qed.

Lemma ref_sa_course :
  forall K w tmp tmp2 sol fuel r w' ref cands,
    sa_started K w tmp tmp2 sol -> reference K w ref -> candidates K w sol cands ->
    run_sa fuel tmp tmp2 K w = (Ok r, w') ->
    exists sc, scored_on K ref sol cands sc /\ course K ref sol (s_start K) sc (r_model r) (r_error r).
Proof. intros. eapply sa_course; eauto using reference_found. Qed.

Lemma ref_course_sa :
  forall K w tmp tmp2 sol fuel ref cands sc m e,
    sa_started K w tmp tmp2 sol -> reference K w ref -> candidates K w sol cands ->
    scored_on K ref sol cands sc -> course K ref sol (s_start K) sc m e -> (length cands <= fuel)%nat ->
    exists r w', run_sa fuel tmp tmp2 K w = (Ok r, w') /\ r_model r = m /\ r_error r = e.
Proof. intros. eapply course_sa; eauto using reference_found. Qed.

(** One ignition case with a saved metric, or without. *)
Lemma one_saved K w m c x : holds w (s_file K) (s_phase K) m -> c_ign (s_conds K) = [c] -> c_psr (s_conds K) = nil -> c_flame (s_conds K) = nil ->
  w_fs w "ignition_output.txt" = Some (FNums [x]) -> reference K w [x].
Proof.
  intros H I P F W. exists m, [x], nil, nil. split; [exact H|]. split; [reflexivity|]. split; [|split; now constructor].
  apply ref_saved; rewrite ?I; auto. discriminate.
Qed.

Lemma one_missing K w m c : holds w (s_file K) (s_phase K) m -> c_ign (s_conds K) = [c] -> c_psr (s_conds K) = nil -> c_flame (s_conds K) = nil ->
  w_fs w "ignition_output.txt" = None -> reference K w [Fin 0].
Proof.
  intros H I P F W. exists m, [Fin 0], nil, nil. split; [exact H|]. split; [reflexivity|]. split; [|split; now constructor].
  pose proof (ref_zeros m (c_ign (s_conds K)) w "ignition_output.txt" 1) as Z. rewrite I in Z |- *. apply Z; auto. discriminate.
Qed.
