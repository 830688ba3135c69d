(** Species graphs: construction, depth-first search, DRGEP path search. *)
From Coq Require Import String List QArith Bool Arith.
From Verif.Base Require Import Py Num.
Import ListNotations.
Local Open Scope string_scope.
Local Open Scope Q_scope.

(** A [networkx.DiGraph] with weighted edges (source, destination, weight). *)
Record graph := mkGraph { g_nodes : list string; g_edges : list (string * string * Q) }.

(** [G.succ[v].items()] *)
Definition succ (g : graph) (v : string) : list (string * Q) :=
  map (fun e => (snd (fst e), snd e))
      (filter (fun e => String.eqb (fst (fst e)) v) (g_edges g)).

Definition enum {A} (l : list A) : list (nat * A) := combine (seq 0 (length l)) l.

(** [networkx.DiGraph(matrix)] followed by [relabel_nodes] with
    [enumerate(species_names)] (drg.py:117-119, pfa.py:141-143,
    drgep.py:272-275): one edge for every nonzero entry.  Names are assumed
    distinct and as many as the array has rows, as Cantera guarantees. *)
Definition graph_of (names : list string) (M : matrix) : graph :=
  mkGraph names
    (flat_map (fun ia =>
       flat_map (fun jb =>
         let w := mget M (fst ia) (fst jb) in
         if Qnz w then [(snd ia, snd jb, w)] else []) (enum names)) (enum names)).

(** [np.where(matrix >= threshold, matrix, 0.0)] *)
Definition where_ge (M : matrix) (threshold : Q) : matrix :=
  map (map (fun w => if Qle_bool threshold w then w else 0)) M.

(** [networkx.dfs_preorder_nodes]: depth-first traversal with an explicit
    stack.  Fuel counts stack pops. *)
Fixpoint dfs (fuel : nat) (g : graph) (visited stack : list string) : res (list string) :=
  match stack with
  | nil => Ok visited
  | v :: st =>
      match fuel with
      | O => NoFuel
      | S f =>
          if str_in v visited then dfs f g visited st
          else dfs f g (visited ++ [v]) (map fst (succ g v) ++ st)
      end
  end.

(** [list(networkx.dfs_preorder_nodes(graph, target))]; networkx raises when
    the start node is not in the graph. *)
Definition dfs_preorder (g : graph) (target : string) : res (list string) :=
  if str_in target (g_nodes g) then dfs (2 + length (g_edges g)) g nil [target]
  else Raise KeyError.

(** drg.py:73-94 and pfa.py:97-118 — [graph_search] (the two are identical). *)
Definition graph_search (g : graph) (target_species : list string) : res (list string) :=
  bind (mapM (dfs_preorder g) target_species) (fun ls => Ok (set_of (concat ls))).

(** drg.py:97-122 — [trim_drg]. *)
Definition trim_drg (M : matrix) (names targets : list string) (threshold : Q)
  : res (list string) :=
  graph_search (graph_of names (where_ge M threshold)) targets.

(** pfa.py:121-146 — [trim_pfa]. *)
Definition trim_pfa (M : matrix) (names targets : list string) (threshold : Q)
  : res (list string) :=
  graph_search (graph_of names (where_ge M threshold)) targets.

(** An entry of the heap: (distance, counter, node). *)
Definition entry := (Q * nat * string)%type.

(** Python's tuple order on (distance, counter); counters are distinct. *)
Definition entry_lt (a b : entry) : bool :=
  let '(da, ca, _) := a in
  let '(db, cb, _) := b in
  Qlt_bool da db || (Qeq_bool da db && Nat.ltb ca cb).

(** [heappop]: the least entry and the remaining ones.  The heap is modelled
    as a bag; the array layout of [heapq] is not modelled. *)
Fixpoint pop_min (h : list entry) : option (entry * list entry) :=
  match h with
  | nil => None
  | e :: t =>
      match pop_min t with
      | None => Some (e, nil)
      | Some (m, r) => if entry_lt m e then Some (m, e :: r) else Some (e, m :: r)
      end
  end.

(** drgep.py:79-101 — the body of the inner loop for one successor.  With a
    cutoff, the [elif] that pushes is never reached (drgep.py:86-94).  [pred],
    [paths] and [target] are None for every caller and are not modelled. *)
Definition relax (cutoff : option Q) (dv : Q)
           (st : dict Q * list entry * nat) (uw : string * Q)
  : dict Q * list entry * nat :=
  let '(seen, fringe, c) := st in
  let '(u, w) := uw in
  let vu := dv * w in
  match cutoff with
  | Some _ => st
  | None =>
      if match dget u seen with
         | None => true
         | Some s => Qlt_bool s vu
         end
      then (dset u vu seen, (vu, c, u) :: fringe, S c)
      else st
  end.

(** drgep.py:66-101 — the [while fringe] loop.  Fuel counts heap pops. *)
Fixpoint dij_loop (fuel : nat) (g : graph) (source : string) (cutoff : option Q)
         (dist seen : dict Q) (fringe : list entry) (c : nat) : res (dict Q) :=
  match pop_min fringe with
  | None => Ok dist
  | Some ((d, _, v), fringe') =>
      match fuel with
      | O => NoFuel
      | S f =>
          if match dget v dist with Some dv => Qlt_bool d dv | None => false end
          then dij_loop f g source cutoff dist seen fringe' c
          else
            let d' := if String.eqb v source then 1 else d in
            let dist' := dset v d' dist in
            if str_in v (g_nodes g) then
              let '(seen', fringe'', c') :=
                fold_left (relax cutoff d') (succ g v) (seen, fringe', c) in
              dij_loop f g source cutoff dist' seen' fringe'' c'
            else Raise KeyError
      end
  end.

(** drgep.py:17-105, 108-158 — [mod_dijkstra] as called by
    [ss_dijkstra_path_length_modified].  The graph is a DiGraph whose edges
    all carry a weight. *)
Definition ss_dijkstra (fuel : nat) (g : graph) (source : string) (cutoff : option Q)
  : res (dict Q) :=
  dij_loop fuel g source cutoff nil [(source, 0)] [(0, 0%nat, source)] 1%nat.

(** Python's [max(a, b)] *)
Definition pymax (a b : Q) : Q := if Qlt_bool a b then b else a.

Definition dget_or (k : string) (v : Q) (d : dict Q) : Q :=
  match dget k d with Some x => x | None => v end.

(** drgep.py:223-250 — [graph_search_drgep]. *)
Fixpoint graph_search_drgep (fuel : nat) (g : graph) (target_species : list string)
         (overall : dict Q) : res (dict Q) :=
  match target_species with
  | nil => Ok overall
  | target :: rest =>
      bind (ss_dijkstra fuel g target None) (fun coeffs =>
        let coeffs := dset target 1 coeffs in
        let overall' :=
          fold_left (fun o spv => dset (fst spv) (pymax (dget_or (fst spv) 0 o) (snd spv)) o)
                    coeffs overall in
        graph_search_drgep fuel g rest overall')
  end.

(** drgep.py:253-283 — [get_importance_coeffs]. *)
Fixpoint importance_loop (fuel : nat) (names targets : list string)
         (matrices : list matrix) (imp : dict Q) : res (dict Q) :=
  match matrices with
  | nil => Ok imp
  | M :: rest =>
      bind (graph_search_drgep fuel (graph_of names M) targets nil) (fun coeffs =>
        importance_loop fuel names targets rest
          (map (fun spv => (fst spv, pymax (dget_or (fst spv) 0 coeffs) (snd spv))) imp))
  end.

Definition get_importance_coeffs (fuel : nat) (names targets : list string)
           (matrices : list matrix) : res (dict Q) :=
  importance_loop fuel names targets matrices (map (fun s => (s, 0)) names).
