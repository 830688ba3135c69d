(** The adjacency-matrix builders of DRG and DRGEP, the species graph and the
    DRGEP path search in IEEE binary64, the arithmetic the code really uses.
    The exact counterparts are in Model/Matrices.v and Model/Graph.v. *)
From Coq Require Import String List ZArith QArith Bool Arith.
From Coq Require Import Floats.SpecFloat.
From Verif.Base Require Import Py Num B64.
From Verif.Model Require Import Matrices Graph FloatDrivers.
Import ListNotations.

(** A 2-D array of doubles as a list of rows. *)
Definition fmatrix := list (list b64).
Definition fzero : b64 := S754_zero false.
Definition fone : b64 := b64_of_Z 1.
Definition fget (M : fmatrix) (i j : nat) : b64 := nth j (nth i M nil) fzero.
Definition ftab (n m : nat) (f : nat -> nat -> b64) : fmatrix :=
  map (fun i => map (fun j => f i j) (seq 0 m)) (seq 0 n).

(** Unary minus, [np.abs], [x != 0]. *)
Definition b64_opp : b64 -> b64 := SFopp.
Definition b64_abs : b64 -> b64 := SFabs.
Definition b64_nz (x : b64) : bool := negb (b64_eq x fzero).

(** [np.maximum]: a NaN in either argument is passed on. *)
Definition b64_max (a b : b64) : b64 :=
  match a, b with
  | S754_nan, _ => S754_nan
  | _, S754_nan => S754_nan
  | _, _ => if b64_lt a b then b else a
  end.

(** What the builders read from Cantera, as doubles (see [kinetics]). *)
Record fkinetics := mkFKin {
  fk_nsp : nat;
  fk_prod : fmatrix;
  fk_reac : fmatrix;
  fk_rop : list b64
}.

(** drg.py:33-44, drgep.py:179-190, pfa.py:33-44 — [net_stoich], [flags],
    [valid_reactions], and the columns in which species [b] takes part. *)
Definition fnet (K : fkinetics) (k i : nat) : b64 :=
  b64_sub (fget (fk_prod K) k i) (fget (fk_reac K) k i).
Definition fflag (K : fkinetics) (k i : nat) : bool :=
  b64_nz (fget (fk_prod K) k i) || b64_nz (fget (fk_reac K) k i).
Definition frop (K : fkinetics) (i : nat) : b64 := nth i (fk_rop K) fzero.
Definition fvalid (K : fkinetics) : list nat :=
  filter (fun i => b64_nz (frop K i)) (seq 0 (length (fk_rop K))).
Definition fvalid_with (K : fkinetics) (b : nat) : list nat :=
  filter (fun i => fflag K b i) (fvalid K).

(** [np.where(den != 0, num / den, 0)] for one entry. *)
Definition fsafe_div (num den : b64) : b64 := if b64_nz den then b64_div num den else fzero.

(** [net_stoich[:, valid_reactions] * net_rates_of_progress[valid_reactions]] *)
Definition fbase (K : fkinetics) (k i : nat) : b64 := b64_mul (fnet K k i) (frop K i).

(** An array with [np.fill_diagonal(adjacency_matrix, 0.0)] applied. *)
Definition ftab0 (n : nat) (f : nat -> nat -> b64) : fmatrix :=
  ftab n n (fun a b => if Nat.eqb a b then fzero else f a b).

(** drg.py:14-70 — [create_drg_matrix].  [np.sum(..., axis=1)] is taken to add
    from left to right: the summands come from [array[:, indices]], which numpy
    lays out column by column, and a sum over columns of such an array adds one
    column after the other.  (numpy sums in blocks only along contiguous
    memory.)  When no reaction is valid the sums are empty, every denominator
    is 0 and the array is zero, as in the [else] branch. *)
Definition f_drg_matrix (K : fkinetics) : fmatrix :=
  let base k i := b64_abs (fbase K k i) in
  let denominator k := b64_sum (map (base k) (fvalid K)) in
  let numerator a b := b64_add fzero (b64_sum (map (base a) (fvalid_with K b))) in
  ftab0 (fk_nsp K) (fun a b => fsafe_div (numerator a b) (denominator a)).

(** drgep.py:161-220 — [create_drgep_matrix]; sums as above. *)
Definition f_drgep_matrix (K : fkinetics) : fmatrix :=
  let dest k := b64_sum (map (fun i => b64_max fzero (b64_opp (fbase K k i))) (fvalid K)) in
  let prod k := b64_sum (map (fun i => b64_max fzero (fbase K k i)) (fvalid K)) in
  let denominator k := b64_max (prod k) (dest k) in
  let numerator a b := b64_abs (b64_add fzero (b64_sum (map (fbase K a) (fvalid_with K b)))) in
  ftab0 (fk_nsp K) (fun a b => fsafe_div (numerator a b) (denominator a)).

(** A [networkx.DiGraph] weighted with doubles. *)
Record fgraph := mkFGraph { fg_nodes : list string; fg_edges : list (string * string * b64) }.

(** [G.succ[v].items()] *)
Definition fsucc (g : fgraph) (v : string) : list (string * b64) :=
  map (fun e => (snd (fst e), snd e))
      (filter (fun e => String.eqb (fst (fst e)) v) (fg_edges g)).

Definition fenum {A} (l : list A) : list (nat * A) := combine (seq 0 (length l)) l.

(** drgep.py:272-275 — [networkx.DiGraph(matrix)] and [relabel_nodes]: one
    edge for every entry that is not zero. *)
Definition fgraph_of (names : list string) (M : fmatrix) : fgraph :=
  mkFGraph names
    (flat_map (fun ia =>
       flat_map (fun jb =>
         let w := fget M (fst ia) (fst jb) in
         if b64_nz w then [(snd ia, snd jb, w)] else []) (fenum names)) (fenum names)).

(** An entry of the heap: (distance, counter, node), and the order on tuples. *)
Definition fentry := (b64 * nat * string)%type.
Definition fentry_lt (a b : fentry) : bool :=
  let '(da, ca, _) := a in
  let '(db, cb, _) := b in
  b64_lt da db || (b64_eq da db && Nat.ltb ca cb).

(** [heappop], on a bag as in Model/Graph.v. *)
Fixpoint fpop_min (h : list fentry) : option (fentry * list fentry) :=
  match h with
  | nil => None
  | e :: t =>
      match fpop_min t with
      | None => Some (e, nil)
      | Some (m, r) => if fentry_lt m e then Some (m, e :: r) else Some (e, m :: r)
      end
  end.

(** drgep.py:79-101 — one successor; no caller passes a cutoff. *)
Definition frelax (dv : b64) (st : dict b64 * list fentry * nat) (uw : string * b64)
  : dict b64 * list fentry * nat :=
  let '(seen, fringe, c) := st in
  let '(u, w) := uw in
  let vu := b64_mul dv w in
  if match dget u seen with None => true | Some s => b64_lt s vu end
  then (dset u vu seen, (vu, c, u) :: fringe, S c)
  else st.

(** drgep.py:66-101 — the [while fringe] loop.  Fuel counts heap pops. *)
Fixpoint fdij_loop (fuel : nat) (g : fgraph) (source : string)
         (dist seen : dict b64) (fringe : list fentry) (c : nat) : res (dict b64) :=
  match fpop_min fringe with
  | None => Ok dist
  | Some ((d, _, v), fringe') =>
      match fuel with
      | O => NoFuel
      | S f =>
          if match dget v dist with Some dv => b64_lt d dv | None => false end
          then fdij_loop f g source dist seen fringe' c
          else
            let d' := if String.eqb v source then fone else d in
            let dist' := dset v d' dist in
            if str_in v (fg_nodes g) then
              let '(seen', fringe'', c') :=
                fold_left (frelax d') (fsucc g v) (seen, fringe', c) in
              fdij_loop f g source dist' seen' fringe'' c'
            else Raise KeyError
      end
  end.

(** drgep.py:17-158 — [ss_dijkstra_path_length_modified] without cutoff. *)
Definition fss_dijkstra (fuel : nat) (g : fgraph) (source : string) : res (dict b64) :=
  fdij_loop fuel g source nil [(source, fzero)] [(fzero, 0%nat, source)] 1%nat.

(** Python's [max(a, b)] *)
Definition fpymax (a b : b64) : b64 := if b64_lt a b then b else a.

Definition fget_or (k : string) (v : b64) (d : dict b64) : b64 :=
  match dget k d with Some x => x | None => v end.

(** drgep.py:223-250 — [graph_search_drgep]. *)
Fixpoint fgraph_search_drgep (fuel : nat) (g : fgraph) (target_species : list string)
         (overall : dict b64) : res (dict b64) :=
  match target_species with
  | nil => Ok overall
  | target :: rest =>
      bind (fss_dijkstra fuel g target) (fun coeffs =>
        let coeffs := dset target fone coeffs in
        let overall' :=
          fold_left (fun o spv => dset (fst spv) (fpymax (fget_or (fst spv) fzero o) (snd spv)) o)
                    coeffs overall in
        fgraph_search_drgep fuel g rest overall')
  end.

(** drgep.py:253-283 — [get_importance_coeffs]. *)
Fixpoint fimportance_loop (fuel : nat) (names targets : list string)
         (matrices : list fmatrix) (imp : dict b64) : res (dict b64) :=
  match matrices with
  | nil => Ok imp
  | M :: rest =>
      bind (fgraph_search_drgep fuel (fgraph_of names M) targets nil) (fun coeffs =>
        fimportance_loop fuel names targets rest
          (map (fun spv => (fst spv, fpymax (fget_or (fst spv) fzero coeffs) (snd spv))) imp))
  end.

Definition f_importance_coeffs (fuel : nat) (names targets : list string)
           (matrices : list fmatrix) : res (dict b64) :=
  fimportance_loop fuel names targets matrices (map (fun s => (s, fzero)) names).

(** [np.where(matrix >= threshold, matrix, 0.0)] *)
Definition fwhere_ge (M : fmatrix) (threshold : b64) : fmatrix :=
  map (map (fun w => if b64_le threshold w then w else fzero)) M.

(** drg.py:97-122 — [trim_drg].  The depth-first search never looks at the
    weights, so the graph handed to it carries their exact values. *)
Definition f_trim_drg (M : fmatrix) (names targets : list string) (threshold : b64) : res (list string) :=
  graph_search
    (mkGraph names (map (fun e => (fst e, b64_val (snd e))) (fg_edges (fgraph_of names (fwhere_ge M threshold)))))
    targets.

(** drgep.py:338-342 — [species_removed]; KeyError when a species has no
    coefficient. *)
Fixpoint f_below (coeffs : dict b64) (safe : list string) (threshold : b64) (names : list string)
  : res (list string) :=
  match names with
  | nil => Ok nil
  | sp :: rest =>
      match dget sp coeffs with
      | None => Raise KeyError
      | Some c =>
          bind (f_below coeffs safe threshold rest) (fun r =>
            Ok (if b64_lt c threshold && negb (str_in sp safe) then sp :: r else r))
      end
  end.
