(** The three adjacency-matrix builders. *)
From Coq Require Import String List QArith Qabs Bool Arith.
From Verif.Base Require Import Py Num.
From Verif.Model Require Import Mech.
Import ListNotations.
Local Open Scope Q_scope.

(** What the builders read from Cantera once the state has been set with
    [solution.TPY = ...]: the stoichiometric coefficient arrays (species by
    reactions), the net rates of progress, and the number of species. *)
Record kinetics := mkKin {
  k_nsp : nat;
  k_prod : matrix;   (* solution.product_stoich_coeffs *)
  k_reac : matrix;   (* solution.reactant_stoich_coeffs *)
  k_rop : list Q     (* solution.net_rates_of_progress *)
}.

(** Cantera's [product_stoich_coeffs] and [reactant_stoich_coeffs]: the
    coefficient of each species in each reaction (0 if absent). *)
Definition stoich_of (side : reaction -> dict Q) (m : mech) : matrix :=
  map (fun s => map (fun r => match dget s (side r) with Some v => v | None => 0 end)
                    (m_reactions m)) (species_names m).

(** The numbers read for mechanism [m] at a state where Cantera reports the
    net rates of progress [rop]. *)
Definition kin_of (m : mech) (rop : list Q) : kinetics :=
  mkKin (n_species m) (stoich_of rx_products m) (stoich_of rx_reactants m) rop.

(** drg.py:33, drgep.py:179, pfa.py:33 — [net_stoich]. *)
Definition net_stoich (K : kinetics) (k i : nat) : Q :=
  mget (k_prod K) k i - mget (k_reac K) k i.

(** drg.py:34-41, drgep.py:180-187, pfa.py:34-41 — [flags]. *)
Definition flag (K : kinetics) (k i : nat) : bool :=
  Qnz (mget (k_prod K) k i) || Qnz (mget (k_reac K) k i).

Definition rop (K : kinetics) (i : nat) : Q := nth i (k_rop K) 0.

(** drg.py:44, drgep.py:190, pfa.py:44 — [valid_reactions]. *)
Definition valid_reactions (K : kinetics) : list nat :=
  filter (fun i => Qnz (rop K i)) (seq 0 (length (k_rop K))).

(** Columns of the valid reactions in which species [b] takes part
    ([np.where(flags[sp_b, valid_reactions])[0]]).  numpy uses positions in
    [valid_reactions]; the model uses the reaction numbers themselves. *)
Definition valid_with (K : kinetics) (b : nat) : list nat :=
  filter (fun i => flag K b i) (valid_reactions K).

(** [np.where(den != 0, num / den, 0)] for one entry. *)
Definition safe_div (num den : Q) : Q := if Qeq_bool den 0 then 0 else num / den.

(** [np.fill_diagonal(adjacency_matrix, 0.0)] *)
Definition fill_diagonal (n : nat) (M : matrix) : matrix :=
  fold_left (fun M i => mset M i i 0) (seq 0 n) M.

Definition zeros (n : nat) : matrix := mtab n n (fun _ _ => 0).

(** drg.py:14-70 — [create_drg_matrix]. *)
Definition create_drg_matrix (K : kinetics) : matrix :=
  let n := k_nsp K in
  let valid := valid_reactions K in
  let adjacency :=
    match valid with
    | nil => zeros n
    | _ =>
        let base k i := Qabs (net_stoich K k i * rop K i) in
        let denominator k := sumQ (map (base k) valid) in
        let numerator a b := sumQ (map (base a) (valid_with K b)) in
        mtab n n (fun a b => safe_div (numerator a b) (denominator a))
    end in
  fill_diagonal n adjacency.

(** drgep.py:161-220 — [create_drgep_matrix]. *)
Definition create_drgep_matrix (K : kinetics) : matrix :=
  let n := k_nsp K in
  let valid := valid_reactions K in
  let adjacency :=
    match valid with
    | nil => zeros n
    | _ =>
        let base k i := net_stoich K k i * rop K i in
        let dest k := sumQ (map (fun i => Qmaxb 0 (- base k i)) valid) in
        let prod k := sumQ (map (fun i => Qmaxb 0 (base k i)) valid) in
        let denominator k := Qmaxb (prod k) (dest k) in
        let numerator a b := Qabs (sumQ (map (base a) (valid_with K b))) in
        mtab n n (fun a b => safe_div (numerator a b) (denominator a))
    end in
  fill_diagonal n adjacency.

(** The four arrays that the second loop of [create_pfa_matrix] updates. *)
Record pfa_arrays := mkPfa { pa_pro1 : matrix; pa_con1 : matrix; pa_pro2 : matrix; pa_con2 : matrix }.

(** pfa.py:75-85 — one iteration.  [pro1], [pro2], [con1], [con2] are numpy
    views, so the assignments write through to the first-generation arrays
    before the outer products are taken. *)
Definition pfa_step (n : nat) (st : pfa_arrays) (m : nat) : pfa_arrays :=
  let P1 := mset (mset (pa_pro1 st) m m 0) m m 0 in
  let C1 := mset (mset (pa_con1 st) m m 0) m m 0 in
  let P2 := mtab n n (fun a b => mget (pa_pro2 st) a b + mget P1 a m * mget P1 m b) in
  let C2 := mtab n n (fun a b => mget (pa_con2 st) a b + mget C1 a m * mget C1 m b) in
  mkPfa P1 C1 P2 C2.

(** pfa.py:14-94 — [create_pfa_matrix]. *)
Definition create_pfa_matrix (K : kinetics) : matrix :=
  let n := k_nsp K in
  let valid := valid_reactions K in
  let adjacency :=
    match valid with
    | nil => zeros n
    | _ =>
        let base k i := net_stoich K k i * rop K i in
        let production_A k := sumQ (map (fun i => Qmaxb (base k i) 0) valid) in
        let consumption_A k := sumQ (map (fun i => Qmaxb (- base k i) 0) valid) in
        let production_AB a b := sumQ (map (fun i => Qmaxb (base a i) 0) (valid_with K b)) in
        let consumption_AB a b := sumQ (map (fun i => Qmaxb (- base a i) 0) (valid_with K b)) in
        let denominator k := Qmaxb (production_A k) (consumption_A k) in
        let pro1 := mtab n n (fun a b => safe_div (production_AB a b) (denominator a)) in
        let con1 := mtab n n (fun a b => safe_div (consumption_AB a b) (denominator a)) in
        let st := fold_left (pfa_step n) (seq 0 n) (mkPfa pro1 con1 (zeros n) (zeros n)) in
        mtab n n (fun a b => mget (pa_pro1 st) a b + mget (pa_con1 st) a b
                             + mget (pa_pro2 st) a b + mget (pa_con2 st) a b)
    end in
  fill_diagonal n adjacency.
