(** The coefficients of a model at a state, read off its species and reactions. *)
From Coq Require Import String List QArith.
From Verif.Base Require Import Py Num XNum B64.
From Verif.Model Require Import Mech Matrices FloatDrivers.
From Verif.Spec Require Import MatrixSpec DriverSpec FloatMatrixSpec.

(** [q] is the coefficient of [s] on one side of a reaction: the one listed, or
    0 for a species that is not listed. *)
Definition stands (side : dict Q) (s : string) (q : Q) : Prop :=
  match dget s side with Some v => (q == v)%Q | None => (q == 0)%Q end.

(** [K] holds the numbers of [m] at a state with the net rates [w]: species in
    the order of the model along one side, reactions along the other. *)
Record describes (m : mech) (w : list Q) (K : kinetics) : Prop := {
  de_size : k_nsp K = length (m_species m);
  de_rates : k_rop K = w;
  de_products : forall a i s r, nth_error (species_names m) a = Some s -> nth_error (m_reactions m) i = Some r ->
    stands (rx_products r) s (mget (k_prod K) a i);
  de_reactants : forall a i s r, nth_error (species_names m) a = Some s -> nth_error (m_reactions m) i = Some r ->
    stands (rx_reactants r) s (mget (k_reac K) a i)
}.

(** The coefficients of docs/theory.rst for each method. *)
Definition documented (me : method) (K : kinetics) (r : nat -> nat -> Q) : Prop :=
  forall d, indicator K d -> match me with DRG => is_drg K d r | PFA => is_pfa K d r | DRGEP => is_drgep K d r end.

(** All stoichiometric coefficients are doubles. *)
Definition double_coefficients (m : mech) : Prop :=
  forall r s v, In r (m_reactions m) -> dget s (rx_products r) = Some v \/ dget s (rx_reactants r) = Some v ->
    exists d, b64_finite d /\ (b64_val d == v)%Q.
