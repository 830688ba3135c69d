(** The solver for stirred reactors: psr_solver.py. *)
From Coq Require Import String List QArith Qabs ZArith Bool Arith.
From Verif.Base Require Import Py Num XNum.
From Verif.Model Require Import Simulation Sensitivity.
Import ListNotations.

(** ** Vectors *)

(** A 1-D array of float64. *)
Definition vec := list xnum.

(** Elementwise operations on two arrays of one shape (numpy raises for
    shapes that do not match; this does not occur). *)
Definition map2 (f : xnum -> xnum -> xnum) (a b : vec) : vec :=
  map (fun p => f (fst p) (snd p)) (combine a b).
Definition vadd : vec -> vec -> vec := map2 xadd.
Definition vsub : vec -> vec -> vec := map2 xsub.
Definition vmul : vec -> vec -> vec := map2 xmul.
Definition vscale (c : xnum) (v : vec) : vec := map (xmul c) v.
Definition vdiv (v : vec) (c : xnum) : vec := map (fun x => xdiv x c) v.

(** [v[i]], for an index that exists. *)
Definition vget (v : vec) (i : nat) : xnum := nth i v NaN.

(** [np.dot] of two vectors. *)
Definition dot (a b : vec) : xnum := fold_right xadd (Fin 0) (vmul a b).

(** [np.sign] *)
Definition xsign (a : xnum) : xnum :=
  match a with
  | Fin q => if Qlt_bool 0 q then Fin 1 else if Qlt_bool q 0 then Fin (-1) else Fin 0
  | PInf => Fin 1
  | NInf => Fin (-1)
  | NaN => NaN
  end.

(** [np.isfinite] *)
Definition finite (a : xnum) : bool := match a with Fin _ => true | _ => false end.

(** Python's [min] and [max] of two floats given as finite numbers or, for
    [max(1.0, abs(x))], with a second argument that can be NaN. *)
Definition qmin2 (a b : Q) : Q := if Qlt_bool b a then b else a.
Definition max1 (a : xnum) : xnum := if xlt (Fin 1) a then a else Fin 1.

(** psr_solver.py:37, 39, 44 — the three constants. *)
Definition TREF : xnum := Fin 1000.
Definition PENALTY : xnum := Fin 1000.
Definition DS_MAX_MIDDLE : Q := 1 # 20.

(** What the solver asks of the gas object.  Every evaluation first sets the
    mass fractions, the temperature and the pressure, so what comes back
    depends on these only; the pressure is the same throughout. *)
Record gas := mkGas {
  g_n : nat;                                  (* n_species *)
  g_Yin : vec;                                (* Y at the inlet *)
  g_hin : xnum;                               (* enthalpy_mass at the inlet *)
  g_cpin : xnum;                              (* cp_mass at the inlet *)
  g_W : vec;                                  (* molecular_weights *)
  g_equil : res (vec * xnum);                 (* Y and T after equilibrate("HP") *)
  g_state : vec -> xnum -> option (vec * xnum); (* net_production_rates and density; None: CanteraError *)
  g_enthalpy : vec -> xnum -> xnum            (* enthalpy_mass *)
}.

(** psr_solver.py:82-100 — [_core_residual]; [h_scale] is that of line 197. *)
Definition core_residual (G : gas) (Y : vec) (T tau : xnum) : vec :=
  let h_scale := xmul (g_cpin G) TREF in
  let penalty := repeat PENALTY (g_n G + 1) in
  if xle T (Fin 0) || negb (forallb finite Y) then penalty
  else match g_state G Y T with
       | None => penalty
       | Some (wdot, rho) =>
           vsub (vsub Y (g_Yin G)) (vdiv (vmul (vscale tau wdot) (g_W G)) rho)
           ++ [xdiv (xsub (g_enthalpy G Y T) (g_hin G)) h_scale]
       end.

(** ** What numpy and scipy compute *)
Section Solver.

(** [np.linalg.norm], [np.exp], [np.log], [np.sqrt]. *)
Variable norm : vec -> xnum.
Variables xexp xlog xsqrt : xnum -> xnum.
(** [np.linalg.solve] of a matrix, given by its columns, and a right-hand
    side; None: LinAlgError. *)
Variable lin_solve : list vec -> vec -> option vec.
(** [scipy.optimize.root] of a function and a first guess: [success], [x] and
    [fun] of what it returns.  It calls the analytic Jacobian as well, which
    is not an argument here; an exception from there comes out of [root]. *)
Variable root : (vec -> vec) -> vec -> res (bool * vec * vec).

(** ** The damped Newton iteration *)

(** psr_solver.py:63-66: the column of the Jacobian for the [j]-th unknown,
    where [f] is the residual at [u]. *)
Definition fd_column (residual : vec -> vec) (u f : vec) (j : nat) : vec :=
  let du := xmul (Fin (1 # 10000000)) (max1 (xabs (vget u j))) in
  let up := lset u j (xadd (vget u j) du) in
  vdiv (vsub (residual up) f) du.

(** psr_solver.py:71-77: the line search; [k] tries are left. *)
Fixpoint line_search (residual : vec -> vec) (u step : vec) (nrm : xnum) (k : nat) (lam : Q) : option Q :=
  match k with
  | O => None
  | S k' =>
      if xlt (norm (residual (vadd u (vscale (Fin lam) step)))) nrm then Some lam
      else line_search residual u step nrm k' (lam * (1 # 2))
  end.

(** psr_solver.py:47-79 — [_damped_newton]; [maxit] iterations are left. *)
Fixpoint damped_newton (residual : vec -> vec) (tol : Q) (maxit : nat) (u : vec) : vec * bool :=
  match maxit with
  | O => (u, xlt (norm (residual u)) (Fin (tol * 100)))
  | S n =>
      let f := residual u in
      let nrm := norm f in
      if xlt nrm (Fin tol) then (u, true)
      else
        match lin_solve (map (fd_column residual u f) (seq 0 (length u))) (map xneg f) with
        | None => (u, false)
        | Some step =>
            match line_search residual u step nrm 20 1 with
            | None => (u, false)
            | Some lam => damped_newton residual tol n (vadd u (vscale (Fin lam) step))
            end
        end
  end.

(** Its defaults. *)
Definition newton_tol : Q := 1 # 1000000000.
Definition newton_maxit : nat := 50.

(** psr_solver.py:237-241 — [correct], and the same in [solve_fixed_tau]
    (232-235). *)
Definition correct (f : vec -> vec) (x0 : vec) : res (vec * bool) :=
  bind (root f x0) (fun sol =>
    let '(success, x, fx) := sol in
    if success && xlt (norm fx) (Fin (1 # 10000000)) then Ok (x, true)
    else Ok (damped_newton f newton_tol newton_maxit x0)).

(** ** Tracing the curve *)

Variable G : gas.

(** [x[: gas.n_species]] *)
Definition take_Y (u : vec) : vec := firstn (g_n G) u.

(** psr_solver.py:207-208 — [unpack]. *)
Definition un_T (u : vec) : xnum := xmul (vget u (g_n G)) TREF.
Definition un_tau (u : vec) : xnum := xexp (vget u (g_n G + 1)).

(** psr_solver.py:210-212 — [core_res]. *)
Definition core_res (u : vec) : vec := core_residual G (take_Y u) (un_T u) (un_tau u).

(** psr_solver.py:221-235 — [solve_fixed_tau]. *)
Definition solve_fixed_tau (tau : Q) (guess : vec) : res (vec * bool) :=
  correct (fun x => core_residual G (take_Y x) (vget x (g_n G)) (Fin tau)) guess.

(** psr_solver.py:251-256: the unknowns at a seed. *)
Definition seed_u (tau : Q) (x : vec) : vec :=
  take_Y x ++ [xdiv (vget x (g_n G)) TREF; xlog (Fin tau)].

(** psr_solver.py:295-296 — [augmented_res]. *)
Definition augmented_res (t up : vec) (ds : Q) (u : vec) : vec :=
  core_res u ++ [xsub (dot t (vsub u up)) (Fin ds)].

(** The variables of the loop of [trace_extinction_curve]. *)
Record march := mkMarch {
  m_pp : vec;             (* u_pp *)
  m_prev : vec;           (* u_prev *)
  m_taus : list xnum;
  m_temps : list xnum;
  m_states : list vec;
  m_ds : Q;
  m_cap : Q;              (* ds_cap *)
  m_sign : xnum;          (* sigma_sign *)
  m_folds : nat;          (* n_folds *)
  m_ext : option nat      (* i_ext *)
}.

(** Arguments of [trace_extinction_curve] other than the gas. *)
Record psr_args := mkArgs {
  a_stop : bool;          (* stop_at_extinction *)
  a_ds0 : Q; a_ds_min : Q; a_ds_max : Q;
  a_tau_start : Q; a_tau_second : Q;
  a_max_steps : nat
}.

(** psr_solver.py:134-143: the defaults. *)
Definition default_args : psr_args :=
  mkArgs true (1 # 10) (1 # 1000) (2 # 5) 1 (1 # 2) (6 * 1000).

Variable A : psr_args.

(** psr_solver.py:277 *)
Definition tangent (st : march) : vec :=
  let d := vsub (m_prev st) (m_pp st) in vdiv d (norm d).

(** psr_solver.py:279-293: the check for a turning point.  The flag says that
    the loop is left. *)
Definition check_fold (st : march) : march * bool :=
  let new_sign := xsign (vget (tangent st) (g_n G + 1)) in
  if negb (xeq new_sign (Fin 0)) && negb (xeq new_sign (m_sign st)) then
    match m_folds st with
    | O =>
        let i_ext := Some (argmin (m_taus st)) in
        if a_stop A then
          (mkMarch (m_pp st) (m_prev st) (m_taus st) (m_temps st) (m_states st)
                   (m_ds st) (m_cap st) new_sign 1 i_ext, true)
        else
          let cap := qmin2 (a_ds_max A) DS_MAX_MIDDLE in
          (mkMarch (m_pp st) (m_prev st) (m_taus st) (m_temps st) (m_states st)
                   (qmin2 (m_ds st) cap) cap new_sign 1 i_ext, false)
    | S k =>
        (mkMarch (m_pp st) (m_prev st) (m_taus st) (m_temps st) (m_states st)
                 (m_ds st) (m_cap st) new_sign (S (S k)) (m_ext st),
         match k with O => true | S _ => false end)
    end
  else (st, false).

(** psr_solver.py:302-306: the state after a corrector that did not converge. *)
Definition halve (st : march) : march :=
  mkMarch (m_pp st) (m_prev st) (m_taus st) (m_temps st) (m_states st)
          (m_ds st * (1 # 2)) (m_cap st) (m_sign st) (m_folds st) (m_ext st).

(** psr_solver.py:308-314: the state after one that did. *)
Definition accept (st : march) (u : vec) : march :=
  mkMarch (m_prev st) u (m_taus st ++ [un_tau u]) (m_temps st ++ [un_T u]) (m_states st ++ [take_Y u])
          (qmin2 (m_ds st * (6 # 5)) (m_cap st)) (m_cap st) (m_sign st) (m_folds st) (m_ext st).

(** psr_solver.py:276-314: the loop; [k] iterations are left. *)
Fixpoint marching (k : nat) (st : march) : res march :=
  match k with
  | O => Ok st
  | S k' =>
      let t := tangent st in
      let (st1, leave) := check_fold st in
      if leave then Ok st1
      else
        bind (correct (augmented_res t (m_prev st1) (m_ds st1))
                      (vadd (m_prev st1) (vscale (Fin (m_ds st1)) t)))
             (fun r =>
                let (u, ok) := r in
                if ok then marching k' (accept st1 u)
                else
                  let st2 := halve st1 in
                  if Qlt_bool (m_ds st2) (a_ds_min A) then Ok st2 else marching k' st2)
  end.

(** psr_solver.py:331-332 — [point]. *)
Definition point_at (st : march) (i : nat) : psr_point :=
  mkPP (nth i (m_taus st) NaN) (nth i (m_temps st) NaN) (nth i (m_states st) []).

(** psr_solver.py:316-341: the result.  The first component is [branch]. *)
Definition finish (st : march) : res (list (xnum * xnum) * psr_curve) :=
  match m_ext st with
  | None => Raise RuntimeError
  | Some i_ext =>
      let upper := firstn (i_ext + 1) (m_taus st) in
      let nearest t := argmin (map (fun x => xabs (xsub x t)) upper) in
      let i_near := nearest (Fin (1 # 10)) in
      let tau_mid := xsqrt (xmul (nth i_ext (m_taus st) NaN) (nth i_near (m_taus st) NaN)) in
      Ok (combine (m_taus st) (m_temps st),
          mkCurve (point_at st i_ext) (point_at st (nearest tau_mid)) (point_at st i_near))
  end.

(** psr_solver.py:258-274: the state before the loop. *)
Definition start (x0 x1 : vec) : march :=
  mkMarch (seed_u (a_tau_start A) x0) (seed_u (a_tau_second A) x1)
          [Fin (a_tau_start A); Fin (a_tau_second A)]
          [vget x0 (g_n G); vget x1 (g_n G)]
          [take_Y x0; take_Y x1]
          (a_ds0 A) (a_ds_max A) (Fin (-1)) 0 None.

(** psr_solver.py:134-341 — [trace_extinction_curve]. *)
Definition trace_extinction_curve : res (list (xnum * xnum) * psr_curve) :=
  bind (g_equil G) (fun e =>
    let guess := fst e ++ [snd e] in
    bind (solve_fixed_tau (a_tau_start A) guess) (fun r0 =>
    let (x0, ok0) := r0 in
    bind (solve_fixed_tau (a_tau_second A) x0) (fun r1 =>
    let (x1, ok1) := r1 in
    if ok0 && ok1 then bind (marching (a_max_steps A) (start x0 x1)) finish
    else Raise RuntimeError))).

End Solver.
