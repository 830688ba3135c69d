(** Vocabulary for the properties of the drivers with binary64 thresholds. *)
From Coq Require Import String List ZArith QArith Qminmax Qabs Bool.
From Verif.Base Require Import Py Num XNum Paths B64.
From Verif.Model Require Import Mech Matrices Graph World Metrics Drivers FloatDrivers.
From Verif.Spec Require Import TrimSpec Samples GraphSpec DriverSpec DriverSamples.
Import ListNotations.
Local Open Scope string_scope.

(** The [j]-th start: 0.01 divided by 10 [j] times, and [k] additions of that
    start to itself, all rounded; as exact values. *)
Definition start_f (j : nat) : b64 := Nat.iter j (fun t => b64_div t (b64_of_Z 10)) (b64_of_frac 1 100).
Definition climb_f (j k : nat) : b64 := Nat.iter k (fun t => b64_add t (start_f j)) (start_f j).
Definition start_v (j : nat) : Q := b64_val (start_f j).
Definition climb_v (j k : nat) : Q := b64_val (climb_f j k).

(** How many starts a driver tries in binary64: DRGEP one more than with exact
    arithmetic, because 0.01 divided four times by 10 is rounded up to
    1.0000000000000002e-06. *)
Definition starts_f (me : method) : nat := match me with DRG | PFA => 3 | DRGEP => 5 end.

(** [v] is one of the numbers that thresholds are compared with: an entry of
    an array (DRG, PFA), or the importance of a species (DRGEP). *)
Definition coefficient (me : method) (J : job) (sol : mech) (rops : list (list Q)) (v : Q) : Prop :=
  match me with
  | DRG | PFA => exists Mx i j, In Mx (matrices me sol rops) /\ v = mget Mx i j
  | DRGEP => exists s, is_importance (species_names sol) (j_targets J) (matrices DRGEP sol rops) s v
  end.

(** One of them agrees with [t] to about 15 digits. *)
Definition close_coefficient (me : method) (J : job) (sol : mech) (rops : list (list Q)) (t : Q) : Prop :=
  exists v, coefficient me J sol rops v /\ (Qabs (v - t) <= (2 # 1) ^ (-49) * t)%Q.

(** Two channels, A to B at rate 3 and A to C at rate 97; the simulation needs
    B. *)
Definition fork : mech := mkMech "fork" [sp "A" 0; sp "B" 1; sp "C" 2]
  [rx [("A", 1%Q)] [("B", 1%Q)] None 0; rx [("A", 1%Q)] [("C", 1%Q)] None 1] "" (300%Q, 101325%Q).
Definition fork_rops : list (list Q) := [[3; 97]]%Q.
Definition fork_sampler : sampler := mret ([Fin 2], fork_rops).
Definition fork_job : job := mkJob "mech.yaml" "" "out" ["A"] nil (mkConds [needs "B" (Fin 3)] nil nil) None.
Definition fork_world : world :=
  mkWorld (fun f => if String.eqb f "mech.yaml" then Some (FMech [fork]) else None) nil.
