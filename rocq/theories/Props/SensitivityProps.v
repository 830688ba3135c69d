(** Properties of sensitivity analysis (C24–C27, C29, C51–C53). *)
From Coq Require Import String List QArith Bool Arith Lia Permutation.
From Verif.Base Require Import Py Num XNum Paths.
From Verif.Model Require Import Mech World Metrics Drivers Sensitivity.
From Verif.Spec Require Import TrimSpec Samples MetricSpec DriverSpec DriverSamples SensitivitySpec SaSamples.
From Verif.Proofs Require Import SaPkg SaRef SaSampleFacts.
Import ListNotations.
Local Open Scope string_scope.

(** A run that meets the hypotheses: B and C are removed, D is refused. *)
Example sa_runs :
  let K alg := fan_sa "out" 0 10 alg nil [("B", 1); ("C", 4); ("D", 20)] in
  (forall alg, sa_started (K alg) sa_world "/tmp/a" "/tmp/b" fan) /\
  (forall alg, reference (K alg) sa_world [Fin 100]) /\
  (forall alg, candidates (K alg) sa_world fan ["B"; "C"; "D"]) /\
  map (fun alg => view (run_sa 3 "/tmp/a" "/tmp/b" (K alg) sa_world)) [Initial; Greedy] =
  [Ok (["A"; "D"], "reduced_2.yaml", Fin (500 # 100), []); Ok (["A"; "D"], "reduced_2.yaml", Fin (500 # 100), [])].
Proof.
  split; [intros; apply sample_started; auto|]. split; [intros; eapply one_saved; try reflexivity; exists [fan]; split; reflexivity|]. split; [|vm_compute; reflexivity].
  intros alg. apply fan_candidates.
Qed.

(** C24: the result is the starting model with the starting error, or it
    evaluates to the reported error, which is within the limit (or NaN). *)
Theorem sa_within_limit :
  forall K w tmp tmp2 sol fuel r w' ref,
    sa_started K w tmp tmp2 sol -> reference K w ref -> s_limit K <> NaN ->
    run_sa fuel tmp tmp2 K w = (Ok r, w') ->
    (r_model r = sol /\ r_error r = s_start K) \/
    (error_of (s_conds K) ref (r_model r) = Ok (r_error r) /\
     (xle (r_error r) (s_limit K) = true \/ r_error r = NaN)).
Proof. exact ref_sa_limit. Qed.
Print Assumptions sa_within_limit.

(** C24: only candidates are removed, one after the other; the species that
    stay keep their order. *)
Theorem sa_removes_only_candidates :
  forall K w tmp tmp2 sol fuel r w' cands,
    sa_started K w tmp tmp2 sol -> candidates K w sol cands ->
    run_sa fuel tmp tmp2 K w = (Ok r, w') ->
    exists removed, incl removed cands /\ (NoDup cands -> NoDup removed) /\
      removals (s_phase K) sol removed (r_model r) /\
      sublist (m_species (r_model r)) (m_species sol) /\
      forall s, In s (species_names (r_model r)) <-> In s (species_names sol) /\ ~ In s removed.
Proof. exact sa_only. Qed.
Print Assumptions sa_removes_only_candidates.

(** C24: with the default candidate list the safe species stay. *)
Theorem sa_default_keeps_safe :
  forall K w tmp tmp2 sol fuel r w',
    sa_started K w tmp tmp2 sol -> given_limbo w (s_limbo K) = nil ->
    run_sa fuel tmp tmp2 K w = (Ok r, w') ->
    forall s, In s (s_safe K) -> In s (species_names sol) -> In s (species_names (r_model r)).
Proof. exact sa_default. Qed.
Print Assumptions sa_default_keeps_safe.

(** C24: a given candidate list is not compared with the safe list. *)
Theorem sa_given_safe_removed :
  exists K w tmp tmp2 sol r w', sa_started K w tmp tmp2 sol /\ run_sa 3 tmp tmp2 K w = (Ok r, w') /\
    In "A" (s_safe K) /\ In "A" (species_names sol) /\ ~ In "A" (species_names (r_model r)).
Proof.
  exists (fan_sa "out" 0 10 Initial ["A"] nil), sa_world, "/tmp/a", "/tmp/b", fan. do 2 eexists.
  split; [apply sample_started; auto|]. split; [vm_compute; reflexivity|]. simpl. intuition discriminate.
Qed.
Print Assumptions sa_given_safe_removed.

(** C24: as many rounds as there are candidates suffice. *)
Theorem sa_ends :
  forall K w tmp tmp2 sol fuel cands,
    sa_started K w tmp tmp2 sol -> candidates K w sol cands -> exact_errors (s_conds K) ->
    (forall c m, In c (c_ign (s_conds K) ++ c_psr (s_conds K) ++ c_flame (s_conds K))%list -> c m <> NoFuel) ->
    (length cands <= fuel)%nat -> fst (run_sa fuel tmp tmp2 K w) <> NoFuel.
Proof. exact SaMore.run_ends. Qed.
Print Assumptions sa_ends.

(** C25: greedy sensitivity analysis raises ValueError if every removal of
    candidates stays within the limit ... *)
Theorem greedy_crashes_on_success :
  forall K w tmp tmp2 sol fuel ref cands,
    sa_started K w tmp tmp2 sol -> reference K w ref -> candidates K w sol cands ->
    cands <> nil -> s_alg K = Greedy -> all_removable K sol ref cands -> (length cands <= fuel)%nat ->
    fst (run_sa fuel tmp tmp2 K w) = Raise ValueError.
Proof. exact ref_run_greedy_crash. Qed.
Print Assumptions greedy_crashes_on_success.

(** ... and never returns a model without any of the candidates, ... *)
Theorem greedy_never_removes_all :
  forall K w tmp tmp2 sol fuel r w' cands,
    sa_started K w tmp tmp2 sol -> candidates K w sol cands -> cands <> nil -> s_alg K = Greedy ->
    NoDup cands -> incl cands (species_names sol) ->
    run_sa fuel tmp tmp2 K w = (Ok r, w') ->
    exists s, In s cands /\ In s (species_names (r_model r)).
Proof. exact sa_greedy_left. Qed.
Print Assumptions greedy_never_removes_all.

(** ... whereas the other algorithm removes them all. *)
Theorem initial_removes_all :
  forall K w tmp tmp2 sol fuel ref cands,
    sa_started K w tmp tmp2 sol -> reference K w ref -> candidates K w sol cands ->
    s_alg K = Initial -> all_removable K sol ref cands ->
    (exists s, In s (species_names sol) /\ ~ In s cands) -> (length cands <= fuel)%nat ->
    exists r w', run_sa fuel tmp tmp2 K w = (Ok r, w') /\
      forall s, In s (species_names (r_model r)) <-> In s (species_names sol) /\ ~ In s cands.
Proof. exact ref_run_initial_all. Qed.
Print Assumptions initial_removes_all.

Example greedy_crashes_on_success_case :
  let K alg := fan_sa "out" 0 30 alg nil [("B", 1); ("C", 4); ("D", 20)] in
  (forall alg, all_removable (K alg) fan [Fin 100] ["B"; "C"; "D"]) /\
  map (fun alg => view (run_sa 3 "/tmp/a" "/tmp/b" (K alg) sa_world)) [Initial; Greedy] =
  [Ok (["A"], "reduced_1.yaml", Fin (2500 # 100), []); Raise ValueError].
Proof.
  split; [|vm_compute; reflexivity]. intros alg l m _ _ _.
  unfold error_of, metrics_of, fan_sa, penal. cbn [s_conds c_ign c_psr c_flame app mapM bind concat fold_right fst snd].
  destruct (str_in "B" (species_names m)), (str_in "C" (species_names m)), (str_in "D" (species_names m));
    eexists; (split; [vm_compute; reflexivity|vm_compute; reflexivity]).
Qed.

(** C26: the model is in <path>/<name>, the reported name is <name>. *)
Theorem sa_reported_file :
  forall K w tmp tmp2 sol fuel r w',
    sa_started K w tmp tmp2 sol -> run_sa fuel tmp tmp2 K w = (Ok r, w') ->
    r_file r = reduced_name (n_species (r_model r)) /\
    w_fs w' (path_join (s_path K) (r_file r)) = Some (FMech [r_model r]) /\
    (path_join (s_path K) (r_file r) <> r_file r -> w_fs w' (r_file r) = w_fs w (r_file r)).
Proof. exact sa_file_name. Qed.
Print Assumptions sa_reported_file.

Example sa_reported_file_case :
  let x path := run_sa 3 "/tmp/a" "/tmp/b" (fan_sa path 0 10 Initial nil [("D", 20)]) sa_world in
  view (x "out") = Ok (["A"; "D"], "reduced_2.yaml", Fin (0 # 100), []) /\
  look (snd (x "out")) ["reduced_2.yaml"; "out/reduced_2.yaml"] = [None; Some 2%nat] /\
  look (snd (x "")) ["reduced_2.yaml"; "out/reduced_2.yaml"] = [Some 2%nat; None].
Proof. vm_compute. auto. Qed.

(** C27: without saved files, the reference metrics for ignition and flames
    are zeros, whatever the model. *)
Theorem reuse_without_file_gives_zeros :
  forall file phase cs w,
    c_psr cs = nil -> w_fs w "ignition_output.txt" = None -> w_fs w "laminarflame_output.txt" = None ->
    sample_metrics file phase cs true w = (Ok (repeat (Fin 0) (length (c_ign cs) + length (c_flame cs))), w).
Proof. exact SaMore.metrics_zero. Qed.
Print Assumptions reuse_without_file_gives_zeros.

(** C27: so sensitivity analysis on its own removes nothing unless the limit
    is at least 100. *)
Theorem standalone_sa_removes_nothing :
  forall K w tmp tmp2 sol fuel r w' ref,
    sa_started K w tmp tmp2 sol -> exact_errors (s_conds K) -> reference K w ref ->
    (c_ign (s_conds K) <> nil /\ w_fs w "ignition_output.txt" = None) \/
    (c_flame (s_conds K) <> nil /\ w_fs w "laminarflame_output.txt" = None) ->
    (forall x, In x ref -> exists q, x = Fin q) ->
    (forall m ts, metrics_of (s_conds K) m = Ok ts -> ~ In NaN ts) ->
    xgt (Fin 100) (s_limit K) = true ->
    run_sa fuel tmp tmp2 K w = (Ok r, w') -> r_model r = sol /\ r_error r = s_start K.
Proof. exact ref_run_zero_ref. Qed.
Print Assumptions standalone_sa_removes_nothing.

Example standalone_sa_removes_nothing_case :
  let K := fan_sa "" 0 99 Initial nil nil in
  reference K bare_world [Fin 0] /\
  view (run_sa 3 "/tmp/a" "/tmp/b" K bare_world) = Ok (["A"; "B"; "C"; "D"], "reduced_4.yaml", Fin 0, []) /\
  view (run_sa 3 "/tmp/a" "/tmp/b" K sa_world) = Ok (["A"], "reduced_1.yaml", Fin (0 # 100), []).
Proof.
  split; [eapply one_missing; try reflexivity; exists [fan]; split; reflexivity|].
  split; vm_compute; reflexivity.
Qed.

(** C29: the first candidate whose error is NaN is removed. *)
Theorem nan_candidate_removed :
  forall K w tmp tmp2 sol fuel r w' ref cands q k s,
    sa_started K w tmp tmp2 sol -> reference K w ref -> candidates K w sol cands ->
    s_far K = error_distance -> s_start K = Fin q ->
    nth_error cands k = Some s -> error_without K ref sol s NaN ->
    (forall j s', (j < k)%nat -> nth_error cands j = Some s' -> ~ error_without K ref sol s' NaN) ->
    run_sa fuel tmp tmp2 K w = (Ok r, w') ->
    ~ In s (species_names (r_model r)).
Proof. exact ref_run_nan. Qed.
Print Assumptions nan_candidate_removed.

Example nan_candidate_removed_case :
  let K alg := mkSA "mech.yaml" "" "" (Fin 0) (mkConds [needs "C" NaN] nil nil) (Fin 10) ["A"] alg (Own ["B"; "C"; "D"]) in
  let ref := [Fin 100] in
  (forall alg, error_without (K alg) ref fan "C" NaN) /\
  (forall alg, error_without (K alg) ref fan "B" (Fin (9800 # 100))) /\
  map (fun alg => view (run_sa 3 "/tmp/a" "/tmp/b" (K alg) sa_world)) [Initial; Greedy] =
  [Ok (["A"], "reduced_1.yaml", NaN, []); Raise ValueError].
Proof.
  split; [|split].
  - intros alg. eexists. split; [econstructor; [vm_compute; reflexivity|constructor]|vm_compute; reflexivity].
  - intros alg. eexists. split; [econstructor; [vm_compute; reflexivity|constructor]|vm_compute; reflexivity].
  - vm_compute. reflexivity.
Qed.

(** C51: sensitivity analysis stops because no candidate is left, because the
    last candidate it tried is over the limit, or (greedy) because every
    remaining one is. *)
Theorem sa_stops_because :
  forall K w tmp tmp2 sol fuel r w' ref cands,
    sa_started K w tmp tmp2 sol -> reference K w ref -> candidates K w sol cands ->
    run_sa fuel tmp tmp2 K w = (Ok r, w') ->
    exists removed tried rest, Permutation cands (removed ++ tried ++ rest)%list /\
      removals (s_phase K) sol removed (r_model r) /\ stopped K ref (r_model r) tried rest.
Proof. exact ref_sa_stop. Qed.
Print Assumptions sa_stops_because.

(** C51: it can stop although another candidate could be removed without any
    error, also with the greedy algorithm: the candidate tried is the one whose
    error is closest to the present error, not the smallest. *)
Theorem sa_maximal_refuted :
  exists w tmp tmp2 sol ref s, forall alg, exists K r w' e,
    s_alg K = alg /\ sa_started K w tmp tmp2 sol /\ reference K w ref /\
    run_sa 3 tmp tmp2 K w = (Ok r, w') /\ In s (species_names (r_model r)) /\
    candidates K w sol ["B"; "C"; "D"] /\ In s ["B"; "C"; "D"] /\
    error_without K ref (r_model r) s e /\ xle e (Fin 0) = true /\ xle e (s_limit K) = true.
Proof.
  exists sa_world, "/tmp/a", "/tmp/b", fan, [Fin 100], "B". intros alg.
  exists (fan_sa "" 5 8 alg nil [("C", 9); ("D", 20)]). do 3 eexists.
  split; [reflexivity|]. split; [apply sample_started; auto|]. split; [eapply one_saved; try reflexivity; exists [fan]; split; reflexivity|].
  split; [destruct alg; vm_compute; reflexivity|]. split; [simpl; auto|].
  split; [apply fan_candidates|].
  split; [simpl; auto|].
  split; [eexists; split; [econstructor; [vm_compute; reflexivity|constructor]|vm_compute; reflexivity]|].
  split; vm_compute; reflexivity.
Qed.
Print Assumptions sa_maximal_refuted.

(** C52: whatever happens, the only file that sensitivity analysis changes is
    <path>/reduced_<n>.yaml; if it raises it changes none, and its temporary
    files are gone. *)
Theorem sa_changes_one_file :
  forall K w tmp tmp2 sol fuel g,
    sa_started K w tmp tmp2 sol ->
    ((forall n, g <> path_join (s_path K) (reduced_name n)) ->
     w_fs (snd (run_sa fuel tmp tmp2 K w)) g = w_fs w g) /\
    ((forall r, fst (run_sa fuel tmp tmp2 K w) <> Ok r) -> w_fs (snd (run_sa fuel tmp tmp2 K w)) g = w_fs w g).
Proof. exact sa_frame. Qed.
Print Assumptions sa_changes_one_file.

(** C53: if the candidates are the process-wide list, the call empties it of
    what was removed and tried; otherwise it leaves that list alone. *)
Theorem sa_consumes_shared_list :
  forall K w tmp tmp2 sol fuel r w' cands,
    sa_started K w tmp tmp2 sol -> candidates K w sol cands ->
    run_sa fuel tmp tmp2 K w = (Ok r, w') ->
    (s_limbo K = Shared -> w_shared w <> nil ->
       exists removed tried, Permutation (w_shared w) (removed ++ tried ++ w_shared w')%list /\
         removals (s_phase K) sol removed (r_model r) /\ (length tried <= 1)%nat) /\
    ((exists l, s_limbo K = Own l) \/ w_shared w = nil -> w_shared w' = w_shared w).
Proof. exact sa_shared. Qed.
Print Assumptions sa_consumes_shared_list.
