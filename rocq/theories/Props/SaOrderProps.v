(** The order in which sensitivity analysis removes species (C97). *)
From Coq Require Import String List QArith Qabs Bool Arith.
From Verif.Base Require Import Py Num XNum Paths B64.
From Verif.Model Require Import Mech World Metrics Drivers Sensitivity DoubleError.
From Verif.Spec Require Import TrimSpec Samples DriverSpec DriverSamples SensitivitySpec SaSamples SaOrderSpec.
From Verif.Proofs Require Import SaOrderFacts SaRef SaOrderFloat SaOrderEx SaSampleFacts SpecialErrors.
Import ListNotations.
Local Open Scope string_scope.

(** C97: a run that ends follows a course that starts with the scores of all
    candidates on the given model ... *)
Theorem sa_follows_course :
  forall K w tmp tmp2 sol fuel r w' ref cands,
    sa_started K w tmp tmp2 sol -> reference K w ref -> candidates K w sol cands ->
    run_sa fuel tmp tmp2 K w = (Ok r, w') ->
    exists sc, scored_on K ref sol cands sc /\ course K ref sol (s_start K) sc (r_model r) (r_error r).
Proof. exact ref_sa_course. Qed.
Print Assumptions sa_follows_course.

(** ... and if there is such a course the run ends, with its result. *)
Theorem sa_course_is_followed :
  forall K w tmp tmp2 sol fuel ref cands sc m e,
    sa_started K w tmp tmp2 sol -> reference K w ref -> candidates K w sol cands ->
    scored_on K ref sol cands sc -> course K ref sol (s_start K) sc m e -> (length cands <= fuel)%nat ->
    exists r w', run_sa fuel tmp tmp2 K w = (Ok r, w') /\ r_model r = m /\ r_error r = e.
Proof. exact ref_course_sa. Qed.
Print Assumptions sa_course_is_followed.

(** B, C and D have the errors 1, 4 and 20; from the error 6 the order is C,
    B, D, and D is refused.  With the greedy algorithm the new scores after C
    are 5 for B and 24 for D; after B there is only D, over the limit. *)
Example sa_course_case :
  let K alg := fan_sa "" 6 10 alg nil [("B", 1); ("C", 4); ("D", 20)] in
  let sc := [("B", Fin (100 # 100)); ("C", Fin (400 # 100)); ("D", Fin (2000 # 100))] in
  (forall alg, sa_started (K alg) sa_world "/tmp/a" "/tmp/b" fan) /\
  (forall alg, reference (K alg) sa_world [Fin 100]) /\
  (forall alg, candidates (K alg) sa_world fan ["B"; "C"; "D"]) /\
  (forall alg, next_tried (K alg) (Fin 6) sc "C" [("B", Fin (100 # 100)); ("D", Fin (2000 # 100))]) /\
  map (fun alg => view (run_sa 3 "/tmp/a" "/tmp/b" (K alg) sa_world)) [Initial; Greedy] =
  [Ok (["A"; "D"], "reduced_2.yaml", Fin (500 # 100), []); Ok (["A"; "D"], "reduced_2.yaml", Fin (500 # 100), [])].
Proof.
  split; [intros; apply sample_started; auto|]. split; [intros; eapply one_saved; try reflexivity; exists [fan]; split; reflexivity|].
  split; [intros alg; apply fan_candidates|]. split; [|vm_compute; reflexivity].
  intros alg. exists [("B", Fin (100 # 100))], (Fin (400 # 100)), [("D", Fin (2000 # 100))].
  split; [reflexivity|]. split; [reflexivity|]. split; [intros x [<-|[]]; discriminate|]. right.
  split; [intros x [<-|[<-|[<-|[]]]]; discriminate|].
  split; intros x [<-|[]]; vm_compute; reflexivity.
Qed.

(** C97: without rounding, the candidate that is tried has the error nearest to
    the present one. *)
Theorem sa_tries_nearest :
  forall K now sc s others,
    s_far K = error_distance -> (forall x, In x sc -> exists q, snd x = Fin q) ->
    next_tried K (Fin now) sc s others ->
    exists q, In (s, Fin q) sc /\ forall s' q', In (s', Fin q') sc -> (Qabs (q - now) <= Qabs (q' - now))%Q.
Proof. exact next_exact. Qed.
Print Assumptions sa_tries_nearest.

(** C97: with doubles, it is the nearest up to a factor 1 + 2^-51. *)
Theorem sa_tries_nearest_double :
  forall K now nowq sc s others,
    s_far K = double_distance -> double_value now nowq ->
    (forall x, In x sc -> exists q, double_value (snd x) q) ->
    next_tried K now sc s others ->
    exists q, In (s, Fin q) sc /\
      forall s' q', In (s', Fin q') sc -> (Qabs (q - nowq) <= (1 + (2 # 1) ^ (-51)) * Qabs (q' - nowq))%Q.
Proof. exact next_double. Qed.
Print Assumptions sa_tries_nearest_double.

(** C97: with doubles, a candidate whose error is NaN comes before all others,
    and one with an infinite error after all that have a finite one. *)
Theorem sa_tries_special_values_double :
  forall K now nowq sc s others,
    s_far K = double_distance -> double_value now nowq -> (forall x, In x sc -> any_value (snd x)) ->
    next_tried K now sc s others ->
    ((exists s', In (s', NaN) sc) -> In (s, NaN) sc) /\
    ((forall s', ~ In (s', NaN) sc) -> (exists s' q, In (s', Fin q) sc) -> exists q, In (s, Fin q) sc).
Proof. exact special_next. Qed.
Print Assumptions sa_tries_special_values_double.

Example sa_tries_special_values_double_case :
  let K := fragile_sa Initial double_distance in
  double_value (Fin 4) 4 /\ (exists s others, next_tried K (Fin 4) [("B", PInf); ("C", Fin 4); ("D", NaN)] s others /\ s = "D") /\
  exists s others, next_tried K (Fin 4) [("B", NInf); ("C", Fin 4)] s others /\ s = "C".
Proof. exact special_order. Qed.

(** C97: it need not be the nearest.  From the error 1000, the rounded distance
    of 0 is that of the next error above 0, so the first candidate is tried
    although the second is nearer, and the result is another model. *)
Theorem double_nearest_refuted :
  exists w tmp tmp2 sol ref sc, forall alg,
    let K := fragile_sa alg double_distance in
    sa_started K w tmp tmp2 sol /\ reference K w ref /\ candidates K w sol ["B"; "C"] /\ scored_on K ref sol ["B"; "C"] sc /\
    (exists q q', sc = [("B", Fin q); ("C", Fin q')] /\ double_value (Fin q) q /\ double_value (Fin q') q' /\
       (Qabs (q' - 1000) < Qabs (q - 1000))%Q) /\
    (exists others, next_tried K (Fin 1000) sc "B" others) /\
    match returned_names (run_sa 2 tmp tmp2 K w), returned_names (run_sa 2 tmp tmp2 (fragile_sa alg error_distance) w) with
    | Ok with_doubles, Ok exact => with_doubles = ["A"; "C"; "D"] /\ exact = ["A"; "B"; "D"]
    | _, _ => False
    end.
Proof. exact fragile_order. Qed.
Print Assumptions double_nearest_refuted.
