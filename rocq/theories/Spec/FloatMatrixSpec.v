(** Vocabulary for the properties of the coefficients and path products that
    the code computes with doubles. *)
From Coq Require Import String List ZArith QArith Qabs Qminmax Bool Arith.
From Coq Require Import Floats.SpecFloat.
From Verif.Base Require Import Py Num B64.
From Verif.Model Require Import Matrices FloatDrivers FloatMatrix.
From Verif.Spec Require Import MatrixSpec.
Import ListNotations.
Local Open Scope Q_scope.

(** [x] is a double other than an infinity or NaN. *)
Definition b64_finite (x : b64) : Prop :=
  match x with
  | S754_zero _ => True
  | S754_finite _ m e => bounded 53 1024 m e = true
  | _ => False
  end.

(** [x] is finite and its exact value is at most [m] in magnitude. *)
Definition sized (x : b64) (m : Q) : Prop := b64_finite x /\ Qabs (b64_val x) <= m.

(** A double in [0,1]. *)
Definition unit_b64 (x : b64) : Prop := b64_finite x /\ 0 <= b64_val x <= 1.

(** Inputs so far from the largest double (2^1024) that no sum of at most 2^40
    of them overflows. *)
Definition moderate (K : fkinetics) : Prop :=
  (forall k i, sized (fget (fk_prod K) k i) ((2 # 1) ^ 100)) /\
  (forall k i, sized (fget (fk_reac K) k i) ((2 # 1) ^ 100)) /\
  (forall i, sized (nth i (fk_rop K) fzero) ((2 # 1) ^ 700)) /\
  (Z.of_nat (length (fk_rop K)) <= 2 ^ 40)%Z.

(** The exact numbers that the doubles stand for. *)
Definition exact (K : fkinetics) : kinetics :=
  mkKin (fk_nsp K) (map (map b64_val) (fk_prod K)) (map (map b64_val) (fk_reac K))
        (map b64_val (fk_rop K)).

(** A walk along edges and the product of its weights, multiplied from the
    source on and rounded after every step. *)
Inductive fwalk (E : list (string * string * b64)) (u : string) : string -> b64 -> Prop :=
| fwalk_here : fwalk E u u (b64_of_Z 1)
| fwalk_step v x p w : fwalk E u v p -> In (v, x, w) E -> fwalk E u x (b64_mul p w).

Definition unit_fweights (E : list (string * string * b64)) : Prop :=
  forall a b w, In (a, b, w) E -> unit_b64 w.

Definition fedges_within (nodes : list string) (E : list (string * string * b64)) : Prop :=
  forall a b w, In (a, b, w) E -> In a nodes /\ In b nodes.

(** [m] is the largest rounded product over all walks from [u] to [v]. *)
Definition is_max_fproduct (E : list (string * string * b64)) (u v : string) (m : b64) : Prop :=
  fwalk E u v m /\ (forall p, fwalk E u v p -> b64_le p m = true).

(** The same for arrays of doubles: [a] depends directly on [b] with strength
    [w]; a chain of nonzero dependencies and its rounded product. *)
Definition fdepends (names : list string) (M : fmatrix) (a b : string) (w : b64) : Prop :=
  exists i j, nth_error names i = Some a /\ nth_error names j = Some b /\ fget M i j = w.

Inductive fchain (names : list string) (M : fmatrix) (a : string) : string -> b64 -> Prop :=
| fchain_here : In a names -> fchain names M a a (b64_of_Z 1)
| fchain_step b c p w : fchain names M a b p -> fdepends names M b c w -> ~ b64_val w == 0 ->
    fchain names M a c (b64_mul p w).

Definition unit_fmatrix (n : nat) (M : fmatrix) : Prop :=
  forall i j, (i < n)%nat -> (j < n)%nat -> unit_b64 (fget M i j).

(** No entry is an infinity or NaN. *)
Definition fin_fmatrix (n : nat) (M : fmatrix) : Prop :=
  forall i j, (i < n)%nat -> (j < n)%nat -> b64_finite (fget M i j).

(** [c] is the largest rounded product over all states, targets and chains,
    or 0 if there is no chain. *)
Definition is_fimportance names targets (Ms : list fmatrix) (k : string) (c : b64) : Prop :=
  (forall M t p, In M Ms -> In t targets -> fchain names M t k p -> b64_val p <= b64_val c) /\
  ((exists M t p, In M Ms /\ In t targets /\ fchain names M t k p /\ b64_val p == b64_val c) \/
   ((forall M t p, In M Ms -> In t targets -> ~ fchain names M t k p) /\ b64_val c == 0)).

(** The doubles of [F] are within [eps] of the numbers of [M]. *)
Definition close_to (n : nat) (eps : Q) (F : fmatrix) (M : matrix) : Prop :=
  forall i j, (i < n)%nat -> (j < n)%nat -> Qabs (b64_val (fget F i j) - mget M i j) <= eps.

(** Half the distance from 1 to the next double. *)
Definition roundoff : Q := 1 # 9007199254740992.

(** The bound on the error of a coefficient of a model with [n] reactions. *)
Definition coefficient_error (n : nat) : Q := (9 * inject_Z (Z.of_nat n) + 20) * roundoff.

(** A number that is zero or at least 2^-900. *)
Definition not_tiny (x : Q) : Prop := x == 0 \/ (2 # 1) ^ (-900) <= x.

(** The denominators of the coefficients of DRG and DRGEP. *)
Definition drg_total (K : kinetics) (a : nat) : Q := Qsum (fun i => Qabs (rate K a i)) (nrx K).
Definition drgep_total (K : kinetics) (a : nat) : Q := Qmax (PA K a) (CA K a).

(** Reachability along nonzero entries that reach the threshold. *)
Inductive freach (names : list string) (M : fmatrix) (thr : b64) (a : string) : string -> Prop :=
| freach_here : In a names -> freach names M thr a a
| freach_step b c w : freach names M thr a b -> fdepends names M b c w ->
    ~ b64_val w == 0 -> b64_val thr <= b64_val w -> freach names M thr a c.

(** The bound on the error of a PFA coefficient of a model with [s] species
    and [n] reactions. *)
Definition pfa_error (s n : nat) : Q :=
  let N := inject_Z (Z.of_nat s) in
  (4 * N + 2) * coefficient_error n + (4 * N * N + 5 * N + 6) * roundoff.
