(** Words for the statements about the objects for ignition cases. *)
From Coq Require Import String List QArith Qabs ZArith Bool Arith.
From Verif.Base Require Import Py Num XNum Paths.
From Verif.Model Require Import Mech World Simulation Psr IgnCase.
From Verif.Spec Require Import SimSpec PsrSpec.
Import ListNotations.
Local Open Scope Q_scope.

(** Reinitialising a network that was just made changes nothing. *)
Definition reinit_is_idle (N : network) : Prop :=
  forall h, nt_point N (h ++ [EReinit]) = nt_point N h /\ nt_ok N (h ++ [EReinit]) = nt_ok N h /\
            nt_state N (h ++ [EReinit]) = nt_state N h.

(** A point that the network of the object has been at. *)
Definition been_at (o : ign_obj) (p : point) : Prop :=
  exists later before, io_past o = (later ++ before)%list /\ p = nt_point (io_net o) before.

(** What a call answers is about points that the object has been at: the delay
    is zero or the time of one of them, 400 K above the start temperature of
    the case if [run_case] returned it; and the rows of a sample are zero or
    such points. *)
Definition about_visited {A : calc} (o : ign_obj) (k : ign_call) (r : answer) : Prop :=
  forall d rows, r = Ok (d, rows) ->
    (forall q, d = Some q ->
       match k with
       | CallIgnRun _ _ => exists p, been_at o p /\ q = p_time p /\ c_plus (ig_T (io_case o)) 400 <= p_T p
       | _ => q = 0 \/ exists p, been_at o p /\ q = p_time p
       end) /\
    (forall l row, rows = Some l -> In row l ->
       (forall x, In x row -> x = 0) \/ exists p, been_at o p /\ row = p_T p :: p_P p :: p_Y p).

(** A run that stops at ignition gets to the [k]-th step: the end time, or the
    last allowed step, is not reached before, and no step before is steady. *)
Definition stops_at {A : calc} (R : reactor) (c : in_ign) (k : nat) (d : Q) : Prop :=
  ignites R (ig_T c) k d /\
  if Qnz (ig_end c) then forall j, (j < k)%nat -> exists t, time_at R j t /\ t < ig_end c
  else (Z.of_nat k < steps_allowed c)%Z /\ forall j, (1 <= j < k)%nat -> ra_small R j = false.

(** The state of a new network after [n] steps. *)
Definition state_at (N : network) (n : nat) : vec := nt_state N (repeat EStep n).

(** States of one length, finite, and not negative at the start; a positive
    tolerance; and a norm and a root as they should be. *)
Definition decent (N : network) : Prop :=
  norm_bounds (nt_norm N) /\ 0 < nt_atol N /\ (exists r, nt_root_n N = Fin r /\ 0 < r) /\
  (forall n, length (state_at N n) = length (state_at N 0)) /\
  (forall n x, In x (state_at N n) -> exists q, x = Fin q) /\
  (forall q, In (Fin q) (state_at N 0) -> 0 <= q).

(** In the [n]-th step every variable changes by less than ten times the
    relative tolerance, times the root of the number of variables, relative to
    some value that it had (plus the absolute tolerance). *)
Definition nearly_unchanged (N : network) (n : nat) : Prop :=
  forall i x y r, nth_error (state_at N (n - 1)) i = Some (Fin x) -> nth_error (state_at N n) i = Some (Fin y) ->
    nt_root_n N = Fin r ->
    exists j z, (j <= n)%nat /\ nth_error (state_at N j) i = Some (Fin z) /\ 0 <= z /\
      Qabs (y - x) < 10 * nt_rtol N * r * (z + nt_atol N).
