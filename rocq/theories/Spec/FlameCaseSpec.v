(** Words for the statements about the objects for flame cases. *)
From Coq Require Import String List QArith Bool Arith.
From Verif.Base Require Import Py Num XNum.
From Verif.Model Require Import Mech World Simulation FlameCase.
From Verif.Spec Require Import SimSpec.
Import ListNotations.

(** What a call answers when the flame is solved with the result [s]: the
    speed if it is above the floor (or not a number), with samples of the same
    solution; else 0 by [calculate], and RuntimeError by the others. *)
Inductive flame_says {A : calc} (floor : Q) : flame_call -> res (xnum * list point) -> flame_answer -> Prop :=
| says_speed k v ps : ~ xle v (Fin floor) = true -> k <> CallFlameProcess false ->
    flame_says floor k (Ok (v, ps)) (Ok (v, None))
| says_rows v ps rows : ~ xle v (Fin floor) = true -> sampled_from ps rows ->
    flame_says floor (CallFlameProcess false) (Ok (v, ps)) (Ok (v, Some rows))
| says_no_points v : ~ xle v (Fin floor) = true ->
    flame_says floor (CallFlameProcess false) (Ok (v, [])) (Raise IndexError)
| says_slow_zero v ps : xle v (Fin floor) = true ->
    flame_says floor CallFlameCalculate (Ok (v, ps)) (Ok (Fin 0, None))
| says_slow k v ps : xle v (Fin floor) = true -> k <> CallFlameCalculate ->
    flame_says floor k (Ok (v, ps)) (Raise RuntimeError)
| says_unsolved_zero : flame_says floor CallFlameCalculate (Raise CanteraError) (Ok (Fin 0, None))
| says_unsolved k : k <> CallFlameCalculate -> flame_says floor k (Raise CanteraError) (Raise RuntimeError)
| says_other k e : e <> CanteraError -> flame_says floor k (Raise e) (Raise e)
| says_nothing k : flame_says floor k NoFuel NoFuel.

(** The speed attribute after a call. *)
Inductive speed_after (floor : Q) (before : xnum) : flame_call -> res (xnum * list point) -> xnum -> Prop :=
| after_speed k v ps : ~ xle v (Fin floor) = true -> speed_after floor before k (Ok (v, ps)) v
| after_slow_zero v ps : xle v (Fin floor) = true -> speed_after floor before CallFlameCalculate (Ok (v, ps)) (Fin 0)
| after_slow k v ps : xle v (Fin floor) = true -> k <> CallFlameCalculate -> speed_after floor before k (Ok (v, ps)) v
| after_unsolved_zero : speed_after floor before CallFlameCalculate (Raise CanteraError) (Fin 0)
| after_unsolved k : k <> CallFlameCalculate -> speed_after floor before k (Raise CanteraError) before
| after_other k e : e <> CanteraError -> speed_after floor before k (Raise e) before
| after_nothing k : speed_after floor before k NoFuel before.
