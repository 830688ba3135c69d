(** Words for the statements about the solver for stirred reactors. *)
From Coq Require Import List QArith Qabs Bool Arith Sorted.
From Verif.Base Require Import Py Num XNum.
From Verif.Model Require Import Simulation Psr.
Import ListNotations.
Local Open Scope Q_scope.

(** A finite number of magnitude below [c]. *)
Definition below (c : Q) (x : xnum) : Prop := exists q, x = Fin q /\ Qabs q < c.

(** ** What is asked of numpy and scipy *)

(** The norm is below [c] only for finite vectors with all entries below [c]. *)
Definition norm_bounds (norm : vec -> xnum) : Prop :=
  forall v c, xlt (norm v) (Fin c) = true -> Forall (below c) v.

(** A finite vector that is not zero has a positive finite norm. *)
Definition norm_positive (norm : vec -> xnum) : Prop :=
  forall v, (forall x, In x v -> exists q, x = Fin q) ->
            (exists q, In (Fin q) v /\ ~ q == 0) ->
            exists r, norm v = Fin r /\ 0 < r.

(** A solver that reports success returns as many unknowns as it was given,
    and with them the value of the function there. *)
Definition honest (root : (vec -> vec) -> vec -> res (bool * vec * vec)) : Prop :=
  forall f x0 x fx, root f x0 = Ok (true, x, fx) -> fx = f x /\ length x = length x0.

(** A linear solver returns one unknown per column. *)
Definition one_per_column (solve : list vec -> vec -> option vec) : Prop :=
  forall cols b s, solve cols b = Some s -> length s = length cols.

(** Exponential and logarithm: both finite, the exponential positive and
    increasing, and the one the inverse of the other. *)
Definition exp_and_log (xexp xlog : xnum -> xnum) : Prop :=
  (forall a, exists e, xexp (Fin a) = Fin e /\ 0 < e) /\
  (forall a b, a <= b -> xle (xexp (Fin a)) (xexp (Fin b)) = true) /\
  (forall a b, a < b -> xlt (xexp (Fin a)) (xexp (Fin b)) = true) /\
  (forall t, 0 < t -> exists l, xlog (Fin t) = Fin l /\ xeq (xexp (Fin l)) (Fin t) = true).

(** Roots of positive numbers are finite, and exact for squares. *)
Definition square_root (xsqrt : xnum -> xnum) : Prop :=
  (forall q, 0 < q -> exists r, xsqrt (Fin q) = Fin r) /\
  (forall p q, 0 < p -> q == p * p -> xeq (xsqrt (Fin q)) (Fin p) = true).

(** A gas with as many entries in every array as it has species, and without
    a finite enthalpy at a temperature that is not finite. *)
Definition consistent (G : gas) : Prop :=
  length (g_Yin G) = g_n G /\ length (g_W G) = g_n G /\
  (forall Y T, g_equil G = Ok (Y, T) -> length Y = g_n G) /\
  (forall Y T wdot rho, g_state G Y T = Some (wdot, rho) -> length wdot = g_n G) /\
  (forall Y T h, g_enthalpy G Y T = Fin h -> exists t, T = Fin t).

(** Positive residence times; step sizes well above the tolerance of the
    corrector and in the order of their names. *)
Definition sensible (A : psr_args) : Prop :=
  0 < a_tau_start A /\ 0 < a_tau_second A /\ ~ a_tau_start A == a_tau_second A /\
  1 # 10000000 < a_ds_min A /\ a_ds_min A <= a_ds0 A /\ a_ds_min A <= a_ds_max A /\
  a_ds_min A <= 1 # 20.

(** ** The steady equations *)

(** Mass fractions, temperature and residence time of a point satisfy the
    equations of the steady reactor up to [tol]: the temperature is
    positive, the mass fractions are finite, Cantera accepts the state, and
    every species equation and the scaled energy equation hold. *)
Definition steady (G : gas) (tol : Q) (p : psr_point) : Prop :=
  (exists t, pp_T p = Fin t /\ 0 < t) /\
  length (pp_Y p) = g_n G /\
  Forall (fun y => exists q, y = Fin q) (pp_Y p) /\
  exists wdot rho,
    g_state G (pp_Y p) (pp_T p) = Some (wdot, rho) /\
    (forall k, (k < g_n G)%nat ->
       exists y yin w W,
         nth_error (pp_Y p) k = Some y /\ nth_error (g_Yin G) k = Some yin /\
         nth_error wdot k = Some w /\ nth_error (g_W G) k = Some W /\
         below tol (xsub (xsub y yin) (xdiv (xmul (xmul (pp_tau p) w) W) rho))) /\
    below tol (xdiv (xsub (g_enthalpy G (pp_Y p) (pp_T p)) (g_hin G)) (xmul (g_cpin G) (Fin 1000))).

(** ** The shape of the curve *)

Definition descending (l : list xnum) : Prop := StronglySorted (fun a b => xle b a = true) l.
Definition ascending (l : list xnum) : Prop := StronglySorted (fun a b => xle a b = true) l.

(** The [i]-th of the numbers is the first of those with the smallest
    distance from [t]. *)
Definition first_nearest (l : list xnum) (t : xnum) (i : nat) : Prop :=
  (i < length l)%nat /\
  forall j, (j < length l)%nat ->
    let dist k := xabs (xsub (nth k l NaN) t) in
    xle (dist i) (dist j) = true /\ ((j < i)%nat -> xlt (dist i) (dist j) = true).

(** The [i]-th of the numbers is the first of the smallest. *)
Definition first_smallest (l : list xnum) (i : nat) : Prop :=
  (i < length l)%nat /\
  forall j, (j < length l)%nat ->
    xle (nth i l NaN) (nth j l NaN) = true /\ ((j < i)%nat -> xlt (nth i l NaN) (nth j l NaN) = true).

(** The point of the result is the [i]-th of the branch. *)
Definition on_branch (branch : list (xnum * xnum)) (p : psr_point) (i : nat) : Prop :=
  nth_error branch i = Some (pp_tau p, pp_T p).

(** ** The damped Newton iteration *)
Section Newton.
Variable norm : vec -> xnum.
Variable solve : list vec -> vec -> option vec.
Variable f : vec -> vec.

(** [u] with the [j]-th entry moved by [1e-7 * max(1, |u_j|)]; and the matrix
    of difference quotients, column by column. *)
Definition width (u : vec) (j : nat) : xnum :=
  match nth j u NaN with
  | Fin q => if Qlt_bool 1 (Qabs q) then Fin ((1 # 10000000) * Qabs q) else Fin ((1 # 10000000) * 1)
  | NaN => Fin ((1 # 10000000) * 1)
  | _ => PInf
  end.
Definition moved (u : vec) (j : nat) : vec :=
  firstn j u ++ xadd (nth j u NaN) (width u j) :: skipn (S j) u.
Definition quotients (u : vec) : list vec :=
  map (fun j => map (fun p => xdiv (xsub (fst p) (snd p)) (width u j)) (combine (f (moved u j)) (f u)))
      (seq 0 (length u)).

(** The Newton direction at [u]. *)
Definition direction (u : vec) : option vec := solve (quotients u) (map xneg (f u)).

(** [1/2^k], and [u] moved along [s] by this fraction. *)
Fixpoint half_power (k : nat) : Q := match k with O => 1 | S k' => half_power k' * (1 # 2) end.
Definition damped (u s : vec) (k : nat) : vec :=
  map (fun p => xadd (fst p) (xmul (Fin (half_power k)) (snd p))) (combine u s).

(** The move by [1/2^k] makes the norm smaller. *)
Definition improves (u s : vec) (k : nat) : Prop :=
  xlt (norm (f (damped u s k))) (norm (f u)) = true.

(** [n] Newton steps lead from [u] to [v]; each is damped as little as makes
    the norm smaller, by at most [1/2^19]. *)
Inductive newton_steps : nat -> vec -> vec -> Prop :=
| no_step : forall u, newton_steps 0 u u
| one_step : forall n u s k v,
    direction u = Some s -> (k < 20)%nat -> improves u s k ->
    (forall j, (j < k)%nat -> ~ improves u s j) ->
    newton_steps n (damped u s k) v -> newton_steps (S n) u v.

(** No step can be made at [u]. *)
Definition stuck (u : vec) : Prop :=
  direction u = None \/ exists s, direction u = Some s /\ forall k, (k < 20)%nat -> ~ improves u s k.
End Newton.

(** The same arguments with another value of [stop_at_extinction]. *)
Definition with_stop (b : bool) (A : psr_args) : psr_args :=
  mkArgs b (a_ds0 A) (a_ds_min A) (a_ds_max A) (a_tau_start A) (a_tau_second A) (a_max_steps A).

(** The exception comes from [equilibrate] or from the nonlinear solver. *)
Definition from_outside (root : (vec -> vec) -> vec -> res (bool * vec * vec)) (G : gas) (e : exn) : Prop :=
  g_equil G = Raise e \/ exists f x, root f x = Raise e.

(** All that is asked of numpy and scipy. *)
Definition numerics (norm : vec -> xnum) (xexp xlog xsqrt : xnum -> xnum)
           (solve : list vec -> vec -> option vec)
           (root : (vec -> vec) -> vec -> res (bool * vec * vec)) : Prop :=
  norm_bounds norm /\ norm_positive norm /\ honest root /\ one_per_column solve /\
  exp_and_log xexp xlog /\ square_root xsqrt.

(** ** Steps along the curve *)

(** [u] stands for a point: its mass fractions, a thousandth of its
    temperature and the logarithm of its residence time. *)
Definition stands_for (xexp : xnum -> xnum) (n : nat) (u : vec) (p : psr_point) : Prop :=
  length u = (n + 2)%nat /\ firstn n u = pp_Y p /\
  xeq (pp_T p) (xmul (nth n u NaN) (Fin 1000)) = true /\
  xeq (pp_tau p) (xexp (nth (n + 1) u NaN)) = true.

(** How far [u2] is from [u1] in the direction from [u0] to [u1]. *)
Definition minus (a b : vec) : vec := map (fun p => xsub (fst p) (snd p)) (combine a b).
Definition inner (a b : vec) : xnum :=
  fold_right xadd (Fin 0) (map (fun p => xmul (fst p) (snd p)) (combine a b)).
Definition advance (norm : vec -> xnum) (u0 u1 u2 : vec) : xnum :=
  inner (map (fun x => xdiv x (norm (minus u1 u0))) (minus u1 u0)) (minus u2 u1).

(** From the third point on each lies [ds] ahead, up to [tol]. *)
Definition spaced (norm : vec -> xnum) (tol : Q) (us : list vec) (dss : list Q) : Prop :=
  forall i u0 u1 u2 ds,
    nth_error us i = Some u0 -> nth_error us (S i) = Some u1 -> nth_error us (S (S i)) = Some u2 ->
    nth_error dss i = Some ds -> below tol (xsub (advance norm u0 u1 u2) (Fin ds)).

(** The steps: at most [ds0] at first, then at most a fifth more than the one
    before; never below [ds_min] nor above [ds_max] and [ds0]. *)
Definition step_sizes (A : psr_args) (dss : list Q) : Prop :=
  (forall ds, In ds dss -> a_ds_min A <= ds /\ (ds <= a_ds0 A \/ ds <= a_ds_max A)) /\
  (forall ds, nth_error dss 0 = Some ds -> ds <= a_ds0 A) /\
  (forall i ds ds', nth_error dss i = Some ds -> nth_error dss (S i) = Some ds' -> ds' <= ds * (6 # 5)).

(** Once the residence time has risen no step exceeds 1/20. *)
Definition slow_after_turn (branch : list (xnum * xnum)) (dss : list Q) : Prop :=
  forall i j tau T tau' T' ds,
    nth_error branch i = Some (tau, T) -> nth_error branch (S i) = Some (tau', T') -> xlt tau tau' = true ->
    (i <= j)%nat -> nth_error dss j = Some ds -> ds <= 1 # 20.
