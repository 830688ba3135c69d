(** The interaction coefficients as docs/theory.rst defines them: sums over
    ALL reactions, for arbitrary stoichiometry and rates. *)
From Coq Require Import List QArith Qabs Qminmax Bool Arith.
From Verif.Base Require Import Num.
From Verif.Model Require Import Matrices.
Local Open Scope Q_scope.

(** Sum of [f 0 .. f (n-1)]. *)
Fixpoint Qsum (f : nat -> Q) (n : nat) : Q :=
  match n with
  | O => 0
  | S k => Qsum f k + f k
  end.

(** nu_Ai w_i *)
Definition rate (K : kinetics) (a i : nat) : Q :=
  (mget (k_prod K) a i - mget (k_reac K) a i) * nth i (k_rop K) 0.

(** Species [b] takes part in reaction [i]. *)
Definition involved (K : kinetics) (b i : nat) : Prop :=
  ~ mget (k_prod K) b i == 0 \/ ~ mget (k_reac K) b i == 0.

Definition nrx (K : kinetics) : nat := length (k_rop K).

(** [d] is the indicator of involvement: d_Bi in the documentation. *)
Definition indicator (K : kinetics) (d : nat -> nat -> Q) : Prop :=
  forall b i, (involved K b i -> d b i == 1) /\ (~ involved K b i -> d b i == 0).

Definition pos (x : Q) : Q := Qmax x 0.
Definition neg (x : Q) : Q := Qmax (- x) 0.

(** [r] is the quotient num/den, or 0 if den = 0. *)
Definition is_ratio (r num den : Q) : Prop :=
  (den == 0 -> r == 0) /\ (~ den == 0 -> r * den == num).

(** DRG: r_AB *)
Definition is_drg (K : kinetics) (d : nat -> nat -> Q) (r : nat -> nat -> Q) : Prop :=
  forall a b, (a < k_nsp K)%nat -> (b < k_nsp K)%nat -> a <> b ->
    is_ratio (r a b) (Qsum (fun i => Qabs (rate K a i) * d b i) (nrx K))
                     (Qsum (fun i => Qabs (rate K a i)) (nrx K)).

(** Production and consumption of a species. *)
Definition PA (K : kinetics) (a : nat) : Q := Qsum (fun i => pos (rate K a i)) (nrx K).
Definition CA (K : kinetics) (a : nat) : Q := Qsum (fun i => neg (rate K a i)) (nrx K).

(** DRGEP: r_AB *)
Definition is_drgep (K : kinetics) (d : nat -> nat -> Q) (r : nat -> nat -> Q) : Prop :=
  forall a b, (a < k_nsp K)%nat -> (b < k_nsp K)%nat -> a <> b ->
    is_ratio (r a b) (Qabs (Qsum (fun i => rate K a i * d b i) (nrx K)))
                     (Qmax (PA K a) (CA K a)).

(** PFA first generation: [p] is r^pro-1st and [c] is r^con-1st. *)
Definition is_pfa1 (K : kinetics) (d : nat -> nat -> Q) (p c : nat -> nat -> Q) : Prop :=
  forall a b, (a < k_nsp K)%nat -> (b < k_nsp K)%nat -> a <> b ->
    is_ratio (p a b) (Qsum (fun i => pos (rate K a i * d b i)) (nrx K)) (Qmax (PA K a) (CA K a)) /\
    is_ratio (c a b) (Qsum (fun i => neg (rate K a i * d b i)) (nrx K)) (Qmax (PA K a) (CA K a)).

(** PFA second generation: intermediates M different from A and B. *)
Definition second_gen (n : nat) (p : nat -> nat -> Q) (a b : nat) : Q :=
  Qsum (fun m => if Nat.eqb m a then 0 else if Nat.eqb m b then 0 else p a m * p m b) n.

Definition is_pfa (K : kinetics) (d : nat -> nat -> Q) (r : nat -> nat -> Q) : Prop :=
  exists p c, is_pfa1 K d p c /\
    forall a b, (a < k_nsp K)%nat -> (b < k_nsp K)%nat -> a <> b ->
      r a b == p a b + c a b + second_gen (k_nsp K) p a b + second_gen (k_nsp K) c a b.

(** A square array of the right size with zero diagonal. *)
Definition adjacency_shape (n : nat) (M : matrix) : Prop :=
  length M = n /\ (forall row, In row M -> length row = n) /\
  (forall a, (a < n)%nat -> mget M a a == 0).

(** The same kinetics with every rate multiplied by [c]. *)
Definition scale_rates (c : Q) (K : kinetics) : kinetics :=
  mkKin (k_nsp K) (k_prod K) (k_reac K) (map (fun w => c * w) (k_rop K)).
