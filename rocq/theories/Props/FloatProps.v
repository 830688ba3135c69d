(** Properties of the drivers with the binary64 thresholds that the code
    really uses (C17, C18, C19). *)
From Coq Require Import String List ZArith QArith Bool Arith.
From Verif.Base Require Import Py Num XNum Paths B64.
From Verif.Model Require Import Mech Matrices Graph World Metrics Drivers FloatDrivers.
From Verif.Spec Require Import TrimSpec Samples GraphSpec DriverSpec DriverSamples FloatSpec.
From Verif.Proofs Require Import LoopForward DriverSampleFacts FloatFacts FloatDriverFacts.
Import ListNotations.
Local Open Scope string_scope.

(** C17: a run whose result exceeds the limit of 10 percent by far, for each
    method, although the threshold accepted last meets it: with thresholds 0.01,
    0.02, 0.03 all is well, 0.04 is too much, and stepping back from there gives
    0.030000000000000002, which removes the species with coefficient 3/100. *)
Theorem returned_model_within_limit_binary64_refuted :
  started fork_job fork_sampler fork_world fork [Fin 2] fork_rops fork_world /\
  fair fork_job fork [Fin 2] (Fin 10) /\
  forall me,
    view (run me exactA (floor_of me) 10 60 fork_job fork_sampler (Fin 10) fork_world) =
      Ok (["A"; "B"; "C"], "out/reduced_3.yaml", Fin (0 # 2), []) /\
    view (run me floatA (floor_f me) 10 60 fork_job fork_sampler (Fin 10) fork_world) =
      Ok (["A"; "C"], "out/reduced_2.yaml", Fin (100 # 2), []).
Proof.
  split; [apply fork_started|]. split; [now apply fork_fair|]. intros [ | | ]; split; vm_compute; reflexivity.
Qed.
Print Assumptions returned_model_within_limit_binary64_refuted.

(** C17: stepping back misses the accepted threshold by less than one part in
    2^49, for every start and every number of increments. *)
Theorem step_back_error :
  forall j k,
    let t := climb_v j k in
    let t' := b64_val (b64_sub (climb_f j (k + 2)) (b64_mul (b64_of_Z 2) (start_f j))) in
    (t - (2 # 1) ^ (-49) * t <= t' <= t + (2 # 1) ^ (-49) * t)%Q.
Proof. intros j k. replace (k + 2)%nat with (S (S k)) by now rewrite Nat.add_comm. exact (back_rel j k). Qed.
Print Assumptions step_back_error.

Example step_back_error_case :
  climb_f 0 2 = b64_of_frac 3 100 /\
  b64_lt (b64_of_frac 3 100) (b64_sub (climb_f 0 4) (b64_mul (b64_of_Z 2) (start_f 0))) = true.
Proof. split; vm_compute; reflexivity. Qed.

(** C16, C17: a returned model is within the limit unless a coefficient is that
    close to the accepted threshold. *)
Theorem returned_model_within_limit_binary64 :
  forall me J smp w sol sampled rops w1 limit fuel dfuel r w',
    started J smp w sol sampled rops w1 -> fair J sol sampled limit ->
    run me floatA (floor_f me) fuel dfuel J smp limit w = (Ok r, w') ->
    exists j n, (j < starts_f me)%nat /\
      (forall i, (i < j)%nat -> exceeds J sol sampled limit (kept me J sol rops (start_v i))) /\
      (forall k, (k <= n)%nat -> passes J sol sampled limit (kept me J sol rops (climb_v j k))) /\
      exceeds J sol sampled limit (kept me J sol rops (climb_v j (S n))) /\
      (~ close_coefficient me J sol rops (climb_v j n) ->
       xle (r_error r) limit = true /\ cut_to J sol (kept me J sol rops (climb_v j n)) (r_model r)).
Proof. intros. eapply float_within; eauto. Qed.
Print Assumptions returned_model_within_limit_binary64.

Example returned_model_within_limit_binary64_case :
  map (fun me => view (run me floatA (floor_f me) 400 60 (toy_job ["N2"] (Fin 3)) toy_sampler (Fin 10) toy_world)) [DRG; DRGEP] =
  [Ok (["H"; "O2"; "HO2"; "N2"], "out/reduced_4.yaml", Fin (0 # 2), []);
   Ok (["H"; "O2"; "HO2"; "H2"; "N2"], "out/reduced_5.yaml", Fin (0 # 2), [])].
Proof. vm_compute. reflexivity. Qed.

(** C18: giving up.  DRGEP tries a fifth start, which is 1.0000000000000002e-06. *)
Theorem gives_up_iff_all_starts_fail_binary64 :
  forall me J smp w sol sampled rops w1 limit fuel dfuel,
    started J smp w sol sampled rops w1 -> fair J sol sampled limit ->
    (forall m, error_of (j_conds J) sampled m <> Raise SystemExit) ->
    rops <> nil -> search_ends me dfuel J sol rops -> (starts_f me <= fuel)%nat ->
    (fst (run me floatA (floor_f me) fuel dfuel J smp limit w) = Raise SystemExit <->
     forall i, (i < starts_f me)%nat -> exceeds J sol sampled limit (kept me J sol rops (start_v i))).
Proof. intros. now apply float_exit with (w1 := w1). Qed.
Print Assumptions gives_up_iff_all_starts_fail_binary64.

Example starts_in_binary64 :
  map start_f [0; 1; 2; 3]%nat =
    [b64_of_frac 1 100; b64_of_frac 1 1000; b64_of_frac 1 10000; b64_of_frac 1 100000] /\
  b64_lt (b64_of_frac 1 1000000) (start_f 4) = true /\
  (fst (run DRGEP floatA (floor_f DRGEP) 5 60
        (mkJob "mech.yaml" "" "out" ["O2"] nil (mkConds [needs "AR" (Fin 3)] nil nil) None)
        toy_sampler (Fin 10) toy_world) = Raise SystemExit).
Proof. repeat split; vm_compute; reflexivity. Qed.

(** C19: termination, for models with up to 2^28 species. *)
Theorem driver_ends_binary64 :
  forall me J smp w sol sampled rops w1 limit,
    started J smp w sol sampled rops w1 -> fair J sol sampled limit -> rops <> nil ->
    (forall m, error_of (j_conds J) sampled m <> NoFuel) ->
    (inject_Z (Z.of_nat (n_species sol)) <= (2 # 1) ^ 28)%Q ->
    (exceeds J sol sampled limit (core me J) \/ (forall s, In s (species_names sol) -> ~ core me J s)) ->
    exists N, forall fuel dfuel, (N <= fuel)%nat -> (N <= dfuel)%nat ->
      fst (run me floatA (floor_f me) fuel dfuel J smp limit w) <> NoFuel.
Proof. intros. eapply float_ends; eauto. Qed.
Print Assumptions driver_ends_binary64.

(** C19: no return while everything stays within the limit. *)
Theorem driver_never_returns_binary64 :
  forall me J smp w sol sampled rops w1 limit fuel dfuel,
    started J smp w sol sampled rops w1 -> fair J sol sampled limit ->
    rops <> nil -> search_ends me dfuel J sol rops ->
    (forall n, passes J sol sampled limit (kept me J sol rops (climb_v 0 n))) ->
    fst (run me floatA (floor_f me) fuel dfuel J smp limit w) = NoFuel.
Proof. intros. eapply float_forever; eauto. Qed.
Print Assumptions driver_never_returns_binary64.
