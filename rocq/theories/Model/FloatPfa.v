(** The adjacency-matrix builder of PFA in IEEE binary64.  The exact
    counterpart is in Model/Matrices.v. *)
From Coq Require Import String List ZArith QArith Bool Arith.
From Coq Require Import Floats.SpecFloat.
From Verif.Base Require Import Py Num B64.
From Verif.Model Require Import Matrices Graph FloatDrivers FloatMatrix.
Import ListNotations.

(** [array[i, j] = v] *)
Definition fset (M : fmatrix) (i j : nat) (v : b64) : fmatrix :=
  lset M i (lset (nth i M nil) j v).

(** The four arrays that the second loop of [create_pfa_matrix] updates. *)
Record fpfa_arrays := mkFPfa { fa_pro1 : fmatrix; fa_con1 : fmatrix; fa_pro2 : fmatrix; fa_con2 : fmatrix }.

(** pfa.py:75-85 — one iteration; views as in [pfa_step].  [np.outer] rounds
    every product, [+=] every sum. *)
Definition fpfa_step (n : nat) (st : fpfa_arrays) (m : nat) : fpfa_arrays :=
  let P1 := fset (fset (fa_pro1 st) m m fzero) m m fzero in
  let C1 := fset (fset (fa_con1 st) m m fzero) m m fzero in
  let P2 := ftab n n (fun a b => b64_add (fget (fa_pro2 st) a b) (b64_mul (fget P1 a m) (fget P1 m b))) in
  let C2 := ftab n n (fun a b => b64_add (fget (fa_con2 st) a b) (b64_mul (fget C1 a m) (fget C1 m b))) in
  mkFPfa P1 C1 P2 C2.

(** pfa.py:14-94 — [create_pfa_matrix]; sums along the reactions as in
    [f_drg_matrix]. *)
Definition f_pfa_matrix (K : fkinetics) : fmatrix :=
  let n := fk_nsp K in
  match fvalid K with
  | nil => ftab n n (fun _ _ => fzero)
  | _ =>
      let production_A k := b64_sum (map (fun i => b64_max (fbase K k i) fzero) (fvalid K)) in
      let consumption_A k := b64_sum (map (fun i => b64_max (b64_opp (fbase K k i)) fzero) (fvalid K)) in
      let production_AB a b :=
        b64_add fzero (b64_sum (map (fun i => b64_max (fbase K a i) fzero) (fvalid_with K b))) in
      let consumption_AB a b :=
        b64_add fzero (b64_sum (map (fun i => b64_max (b64_opp (fbase K a i)) fzero) (fvalid_with K b))) in
      let denominator k := b64_max (production_A k) (consumption_A k) in
      let pro1 := ftab n n (fun a b => fsafe_div (production_AB a b) (denominator a)) in
      let con1 := ftab n n (fun a b => fsafe_div (consumption_AB a b) (denominator a)) in
      let zero := ftab n n (fun _ _ => fzero) in
      let st := fold_left (fpfa_step n) (seq 0 n) (mkFPfa pro1 con1 zero zero) in
      ftab0 n (fun a b => b64_add (b64_add (b64_add (fget (fa_pro1 st) a b) (fget (fa_con1 st) a b))
                                           (fget (fa_pro2 st) a b)) (fget (fa_con2 st) a b))
  end.

(** pfa.py:121-146 — [trim_pfa], the same text as [trim_drg]. *)
Definition f_trim_pfa (M : fmatrix) (names targets : list string) (threshold : b64) : res (list string) :=
  f_trim_drg M names targets threshold.
