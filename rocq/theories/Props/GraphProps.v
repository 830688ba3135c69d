(** Properties of the graph searches (C08-C13). *)
From Coq Require Import String List QArith Arith Permutation.
From Verif.Base Require Import Py Num B64.
From Verif.Model Require Import Mech Matrices Graph.
From Verif.Spec Require Import GraphSpec Samples.
From Verif.Proofs Require Import DfsFacts DijkstraFacts ImportanceFacts GraphMore.
Import ListNotations.
Local Open Scope string_scope.
Local Open Scope Q_scope.

(** C08: [trim_drg] returns, without repetition, exactly the species reachable
    from a target along entries that are nonzero and reach the threshold. *)
Theorem drg_keeps_exactly_reachable :
  forall M names targets thr,
    incl targets names ->
    exists r, trim_drg M names targets thr = Ok r /\ NoDup r /\
      forall x, In x r <-> exists t, In t targets /\ reach names M thr t x.
Proof. exact trim_drg_spec. Qed.
Print Assumptions drg_keeps_exactly_reachable.

Example drg_keeps_exactly_reachable_case :
  trim_drg cyc ["A"; "B"; "C"; "D"; "E"] ["A"] (1 # 4) = Ok ["A"; "B"; "C"] /\
  trim_drg cyc ["A"; "B"; "C"; "D"; "E"] ["E"; "A"] (1 # 2) = Ok ["E"; "D"; "A"; "B"].
Proof. split; vm_compute; reflexivity. Qed.

(** C08: likewise for [trim_pfa]. *)
Theorem pfa_keeps_exactly_reachable :
  forall M names targets thr,
    incl targets names ->
    exists r, trim_pfa M names targets thr = Ok r /\ NoDup r /\
      forall x, In x r <-> exists t, In t targets /\ reach names M thr t x.
Proof. exact trim_drg_spec. Qed.
Print Assumptions pfa_keeps_exactly_reachable.

(** C08: the targets are always among the result. *)
Theorem graph_search_keeps_targets :
  forall M names targets thr r t,
    (trim_drg M names targets thr = Ok r \/ trim_pfa M names targets thr = Ok r) ->
    In t targets -> In t r.
Proof. exact trim_keeps_targets. Qed.
Print Assumptions graph_search_keeps_targets.

(** C08: a target that is not a species raises an error. *)
Theorem graph_search_unknown_target :
  forall M names targets thr t,
    In t targets -> ~ In t names ->
    trim_drg M names targets thr = Raise KeyError /\
    trim_pfa M names targets thr = Raise KeyError.
Proof. exact trim_unknown. Qed.
Print Assumptions graph_search_unknown_target.

Example graph_search_unknown_target_case :
  trim_drg cyc ["A"; "B"; "C"; "D"; "E"] ["A"; "X"] (1 # 4) = Raise KeyError.
Proof. vm_compute. reflexivity. Qed.

(** C09: a higher threshold never keeps more (one array). *)
Theorem graph_search_antitone :
  forall M names targets thr thr' r r',
    thr <= thr' ->
    trim_drg M names targets thr = Ok r -> trim_drg M names targets thr' = Ok r' ->
    incl r' r.
Proof. exact trim_drg_antitone. Qed.
Print Assumptions graph_search_antitone.

Example graph_search_antitone_case :
  exists r r', trim_drg cyc ["A"; "B"; "C"; "D"; "E"] ["A"] (1 # 10) = Ok r /\
    trim_drg cyc ["A"; "B"; "C"; "D"; "E"] ["A"] (1 # 2) = Ok r' /\ length r = 4%nat /\ length r' = 2%nat.
Proof. do 2 eexists. repeat split; vm_compute; reflexivity. Qed.

(** C10: with weights in [0,1] the search ends, whatever the order in which
    the heap is emptied; its keys are exactly the reachable nodes and its
    values the largest path products. *)
Theorem dijkstra_finds_max_product :
  forall g s,
    In s (g_nodes g) -> edges_within (g_nodes g) (g_edges g) -> unit_weights (g_edges g) ->
    exists r N,
      (forall fuel, (N <= fuel)%nat -> ss_dijkstra fuel g s None = Ok r) /\
      dget s r = Some 1 /\
      (forall v m, dget v r = Some m -> is_max_product (g_edges g) s v m) /\
      (forall v, (exists m, dget v r = Some m) <-> (exists p, walk (g_edges g) s v p)).
Proof. exact dijkstra_correct. Qed.
Print Assumptions dijkstra_finds_max_product.

(** A graph with a cycle through the source and a relabelled node. *)
Example dijkstra_finds_max_product_case :
  unit_weights (g_edges (graph_of ["A"; "B"; "C"; "D"; "E"] cyc)) /\
  exists r, ss_dijkstra 20 (graph_of ["A"; "B"; "C"; "D"; "E"] cyc) "A" None = Ok r /\
    map (fun kv => (fst kv, Qred (snd kv))) r = [("A", 1); ("D", 1 # 5); ("B", 1 # 2); ("C", 1 # 8)].
Proof. exact cyc_dijkstra. Qed.

(** C11: a cycle that avoids the source and multiplies to more than 1 makes
    the search run forever. *)
Theorem dijkstra_diverges_on_growing_cycle :
  forall g s v p c,
    In s (g_nodes g) -> edges_within (g_nodes g) (g_edges g) -> nonneg_weights (g_edges g) ->
    walk (g_edges g) s v p -> 0 < p ->
    walk_avoiding (g_edges g) s v v c -> 1 < c ->
    forall fuel, ss_dijkstra fuel g s None = NoFuel.
Proof. exact dijkstra_diverges_pkg. Qed.
Print Assumptions dijkstra_diverges_on_growing_cycle.

Example dijkstra_diverges_on_growing_cycle_case :
  let E := g_edges (graph_of ["A"; "B"; "C"] grow) in
  nonneg_weights E /\ (exists p, walk E "A" "B" p /\ 0 < p) /\
  (exists c, walk_avoiding E "A" "B" "B" c /\ 1 < c).
Proof. exact grow_case. Qed.

(** C11: in binary64, summing the same rates in two orders can give a
    quotient above 1. *)
Theorem rounded_ratio_exceeds_one :
  exists l l', Permutation l l' /\
    b64_lt (b64_of_Z 1) (b64_div (b64_sum l) (b64_sum l')) = true.
Proof. exact ratio_above_one. Qed.
Print Assumptions rounded_ratio_exceeds_one.

(** C12: with any cutoff the result is just the source. *)
Theorem dijkstra_cutoff_suppresses_search :
  forall g s k fuel,
    In s (g_nodes g) -> ss_dijkstra (S fuel) g s (Some k) = Ok [(s, 1)].
Proof. exact dijkstra_cutoff. Qed.
Print Assumptions dijkstra_cutoff_suppresses_search.

(** Without the cutoff, node B is reached with product 1/2 >= 1/10. *)
Example dijkstra_cutoff_suppresses_search_case :
  let g := graph_of ["A"; "B"; "C"; "D"; "E"] cyc in
  ss_dijkstra 20 g "A" (Some (1 # 10)) = Ok [("A", 1)] /\
  exists r m, ss_dijkstra 20 g "A" None = Ok r /\ dget "B" r = Some m /\ m == 1 # 2.
Proof. exact cyc_cutoff. Qed.

(** C13: every species gets the largest chain product over all states and
    targets, and 0 if no chain leads to it. *)
Theorem importance_is_best_chain :
  forall names targets Ms,
    NoDup names -> incl targets names ->
    (forall M, In M Ms -> unit_matrix (length names) M) ->
    exists r N,
      (forall fuel, (N <= fuel)%nat -> get_importance_coeffs fuel names targets Ms = Ok r) /\
      dkeys r = names /\
      (forall k m, dget k r = Some m -> is_importance names targets Ms k m).
Proof. exact importance_spec. Qed.
Print Assumptions importance_is_best_chain.

Example importance_is_best_chain_case :
  unit_matrix 5 cyc /\ unit_matrix 5 cyc2 /\
  exists r, get_importance_coeffs 20 ["A"; "B"; "C"; "D"; "E"] ["A"] [cyc; cyc2] = Ok r /\
    map (fun kv => (fst kv, Qred (snd kv))) r =
    [("A", 1); ("B", 1 # 2); ("C", 9 # 10); ("D", 1 # 5); ("E", 0)].
Proof. exact cyc_importance. Qed.

(** C13: coefficients lie in [0,1]; a target has coefficient 1 as soon as
    there is one sampled state. *)
Theorem importance_range :
  forall names targets Ms k m,
    (forall M, In M Ms -> unit_matrix (length names) M) ->
    is_importance names targets Ms k m ->
    0 <= m <= 1 /\ (Ms <> nil -> In k targets -> In k names -> m == 1).
Proof. exact importance_range_lemma. Qed.
Print Assumptions importance_range.

(** C06 and C13 together: arrays built by [create_drgep_matrix] meet the
    hypothesis of the search, for every stoichiometry and every rates. *)
Theorem drgep_search_terminates :
  forall names targets Ks,
    NoDup names -> incl targets names ->
    (forall K, In K Ks -> k_nsp K = length names) ->
    exists r N,
      (forall fuel, (N <= fuel)%nat ->
        get_importance_coeffs fuel names targets (map create_drgep_matrix Ks) = Ok r) /\
      dkeys r = names /\
      (forall k m, dget k r = Some m ->
         is_importance names targets (map create_drgep_matrix Ks) k m).
Proof. exact drgep_search_total. Qed.
Print Assumptions drgep_search_terminates.

Example drgep_search_terminates_case :
  exists r, get_importance_coeffs 60 (species_names toy) ["O2"]
              [create_drgep_matrix (kin_of toy [2; 0; 3; (-2); 4])] = Ok r /\
    map (fun kv => (fst kv, Qred (snd kv))) r =
    [("H", 1 # 4); ("O2", 1); ("HO2", 1 # 4); ("AR", 0); ("H2", 1 # 4); ("N2", 0)].
Proof. eexists. split; vm_compute; reflexivity. Qed.
