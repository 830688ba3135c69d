(** Reachability and path products, stated on edges or directly on arrays. *)
From Coq Require Import String List QArith.
From Verif.Base Require Import Num.
Import ListNotations.
Local Open Scope Q_scope.

(** [walk E u v p]: a walk from [u] to [v] along edges of [E] whose weights
    multiply to [p]. *)
Inductive walk (E : list (string * string * Q)) (u : string) : string -> Q -> Prop :=
| walk_here : walk E u u 1
| walk_step v x p w : walk E u v p -> In (v, x, w) E -> walk E u x (p * w).

(** Weights in [0,1]. *)
Definition unit_weights (E : list (string * string * Q)) : Prop :=
  forall a b w, In (a, b, w) E -> 0 <= w <= 1.

Definition nonneg_weights (E : list (string * string * Q)) : Prop :=
  forall a b w, In (a, b, w) E -> 0 <= w.

(** The edges join nodes of the graph. *)
Definition edges_within (nodes : list string) (E : list (string * string * Q)) : Prop :=
  forall a b w, In (a, b, w) E -> In a nodes /\ In b nodes.

(** [m] is the largest product over all walks from [u] to [v]. *)
Definition is_max_product (E : list (string * string * Q)) (u v : string) (m : Q) : Prop :=
  (exists p, walk E u v p /\ p == m) /\ (forall p, walk E u v p -> p <= m).

(** [names] is the list of all species, [M] the interaction array:
    species [a] depends directly on [b] with strength [w]. *)
Definition depends (names : list string) (M : matrix) (a b : string) (w : Q) : Prop :=
  exists i j, nth_error names i = Some a /\ nth_error names j = Some b /\ mget M i j = w.

(** [b] is reachable from [a] along dependencies that are nonzero and at
    least [thr]. *)
Inductive reach (names : list string) (M : matrix) (thr : Q) (a : string) : string -> Prop :=
| reach_here : In a names -> reach names M thr a a
| reach_step b c w : reach names M thr a b -> depends names M b c w ->
    ~ w == 0 -> thr <= w -> reach names M thr a c.

(** A dependency chain from [a] to [b] with product [p]; zero entries are no
    dependencies. *)
Inductive chain (names : list string) (M : matrix) (a : string) : string -> Q -> Prop :=
| chain_here : In a names -> chain names M a a 1
| chain_step b c p w : chain names M a b p -> depends names M b c w -> ~ w == 0 ->
    chain names M a c (p * w).

(** A cycle at [v] with product [p] that never visits [s]. *)
Inductive walk_avoiding (E : list (string * string * Q)) (s u : string) : string -> Q -> Prop :=
| wa_here : u <> s -> walk_avoiding E s u u 1
| wa_step v x p w : walk_avoiding E s u v p -> In (v, x, w) E -> x <> s ->
    walk_avoiding E s u x (p * w).

(** All entries of the array for the given names lie in [0,1]. *)
Definition unit_matrix (n : nat) (M : matrix) : Prop :=
  forall i j, (i < n)%nat -> (j < n)%nat -> 0 <= mget M i j <= 1.

(** [m] is the importance of species [k]: the largest product over all states,
    targets and chains, or 0 if there is no chain. *)
Definition is_importance names targets (Ms : list matrix) (k : string) (m : Q) : Prop :=
  (forall M t p, In M Ms -> In t targets -> chain names M t k p -> p <= m) /\
  ((exists M t p, In M Ms /\ In t targets /\ chain names M t k p /\ p == m) \/
   ((forall M t p, In M Ms -> In t targets -> ~ chain names M t k p) /\ m == 0)).
