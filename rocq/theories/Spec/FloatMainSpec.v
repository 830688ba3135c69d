(** Vocabulary for the whole program with doubles. *)
From Coq Require Import String List ZArith QArith Bool.
From Verif.Base Require Import Py Num XNum B64 Paths.
From Verif.Model Require Import Mech World Metrics Drivers Simulation Sampling Main FloatDrivers FloatRun DoubleError FloatMain.
From Verif.Spec Require Import TrimSpec DriverSpec SimSpec SamplingSpec FloatSpec FloatMatrixSpec FloatRunSpec DoubleErrorSpec.
Import ListNotations.
Local Open Scope string_scope.

(** The numbers that the program meets are doubles far from overflow and
    underflow: the metrics of the detailed model, of which there is at least
    one; those of the candidates (zero for a case that fails); the rates at
    the sampled states; the upper threshold.  The model has at most 2^28
    species. *)
Record double_posed (K : machine) (rates : mech -> list xnum -> res (list b64)) (floor : option Q) (C : cases)
       (a : main_in) (sol : mech) : Prop := {
  dp_detailed : forall ref, metrics_of (conds_of (k_fuel K) (k_physics K) floor C) sol = Ok ref ->
    ref <> nil /\ forall x, In x ref -> double_metric x;
  dp_candidates : forall m ts, metrics_of (conds_of (k_fuel K) (k_physics K) floor C) m = Ok ts ->
    forall x, In x ts -> double_metric x \/ failed_metric x;
  dp_rates : forall state rop, rates sol state = Ok rop -> moderate (fkin_of sol rop);
  dp_size : (Z.of_nat (n_species sol) <= 2 ^ 28)%Z;
  dp_upper : forall u, a_upper a = Some u -> exists d, b64_finite d /\ (b64_val d == u)%Q
}.

(** The cases give the metrics [ref] for the detailed model, and the rates at
    the sampled states are [rops]. *)
Definition detailed_gives (K : machine) (rates : mech -> list xnum -> res (list b64)) (floor : option Q) (C : cases)
           (sol : mech) (ref : list xnum) (rops : list (list b64)) : Prop :=
  exists xi xp xf, SamplingSpec.measured (k_fuel K) (k_physics K) floor C sol xi xp xf /\
    ref = fst (together (xi ++ xp ++ xf)) /\
    Forall2 (fun state rop => rates sol state = Ok rop) (snd (together (xi ++ xp ++ xf))) rops.

(** The driver accepted the threshold [climb_f j n] of its [j]-th start, having
    given up the starts before and refused the next threshold; and a
    coefficient of a sampled state agrees with that threshold to about 15
    digits. *)
Definition at_the_edge (me : method) (K : machine) (rates : mech -> list xnum -> res (list b64)) (floor : option Q)
           (C : cases) (a : main_in) (sol : mech) : Prop :=
  let J := graph_job a (double_conds (conds_of (k_fuel K) (k_physics K) floor C)) in
  exists ref rops j n, detailed_gives K rates floor C sol ref rops /\ (j < starts_f me)%nat /\
    (forall i, (i < j)%nat -> exceeds J sol ref (a_limit a) (fkept me J sol rops (start_f i))) /\
    (forall k, (k <= n)%nat -> passes J sol ref (a_limit a) (fkept me J sol rops (climb_f j k))) /\
    exceeds J sol ref (a_limit a) (fkept me J sol rops (climb_f j (S n))) /\
    fclose_coefficient me J sol rops (climb_v j n).
