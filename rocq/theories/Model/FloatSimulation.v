(** The arithmetic of the simulations in IEEE binary64. *)
From Coq Require Import List QArith ZArith.
From Verif.Base Require Import B64.
From Verif.Model Require Import Simulation SaveText FloatDrivers FloatMatrix FloatSampling.

(** The double nearest to a number; a double stands for itself, except that a
    negative zero becomes zero. *)
Definition nearest (q : Q) : b64 := b64_of_Q false q.

(** simulation.py:117-131 (shares of the rise), 297, 320, 392, 403 and 448
    (400 added to a temperature), 783 (pressure): the operations on doubles,
    each rounded to nearest even.  Sums, differences and products
    that overflow get 0 here, see [b64_val]; temperatures and pressures are far
    from that. *)
Definition double_calc : calc := mkCalc
  (fun x y => b64_val (b64_add (nearest x) (nearest y)))
  (fun x y => b64_val (b64_sub (nearest x) (nearest y)))
  (fun x y => b64_val (b64_mul (nearest x) (nearest y)))
  (fun k => b64_val (nth k fdeltas fzero)).

(** The same simulators, with doubles in the code of this program. *)
Definition with_doubles (Ph : physics) : physics :=
  mkPhysics double_calc (ph_reactor Ph) (ph_flame Ph) (ph_psr Ph).
