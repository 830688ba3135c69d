(** Properties of the coefficients, the path search and the decisions of DRG
    and DRGEP with doubles (C73-C77). *)
From Coq Require Import String List ZArith QArith Qabs Bool Arith.
From Verif.Base Require Import Py Num B64.
From Verif.Model Require Import Matrices Graph FloatDrivers FloatMatrix.
From Verif.Spec Require Import MatrixSpec GraphSpec FloatMatrixSpec FloatSamples.
From Verif.Proofs Require Import FloatDijkstra FloatImportance FloatMatrixFinal FloatSampleFacts.
Import ListNotations.
Local Open Scope string_scope.
Local Open Scope Q_scope.

(** C73: every coefficient is a double in [0,1], whatever the rounding. *)
Theorem binary64_coefficients_in_unit_interval :
  forall K, moderate K ->
    unit_fmatrix (fk_nsp K) (f_drg_matrix K) /\ unit_fmatrix (fk_nsp K) (f_drgep_matrix K).
Proof. exact coefficients_unit. Qed.
Print Assumptions binary64_coefficients_in_unit_interval.

(** C73: a species does not depend on itself. *)
Theorem binary64_diagonal_is_zero :
  forall K a, (a < fk_nsp K)%nat ->
    fget (f_drg_matrix K) a a = fzero /\ fget (f_drgep_matrix K) a a = fzero.
Proof. exact coefficients_diagonal. Qed.
Print Assumptions binary64_diagonal_is_zero.

Example binary64_coefficients_case :
  moderate burn /\ moderate burn2 /\ moderate tie /\
  b64_lt (b64_of_frac 99 100) (fget (f_drg_matrix burn) 0 1) = true /\
  b64_lt (fget (f_drg_matrix burn) 0 1) (b64_of_Z 1) = true.
Proof.
  split; [exact burn_moderate|]. split; [exact burn2_moderate|]. split; [exact tie_moderate|].
  split; vm_compute; reflexivity.
Qed.

(** C74: the error of a coefficient against its defining formula. *)
Theorem binary64_drgep_accuracy :
  forall K d r a b,
    moderate K -> indicator (exact K) d -> is_drgep (exact K) d r ->
    (a < fk_nsp K)%nat -> (b < fk_nsp K)%nat -> a <> b -> not_tiny (drgep_total (exact K) a) ->
    Qabs (b64_val (fget (f_drgep_matrix K) a b) - r a b) <= coefficient_error (nrx (exact K)).
Proof. exact gep_accuracy. Qed.
Print Assumptions binary64_drgep_accuracy.

Theorem binary64_drg_accuracy :
  forall K d r a b,
    moderate K -> indicator (exact K) d -> is_drg (exact K) d r ->
    (a < fk_nsp K)%nat -> (b < fk_nsp K)%nat -> a <> b -> not_tiny (drg_total (exact K) a) ->
    Qabs (b64_val (fget (f_drg_matrix K) a b) - r a b) <= coefficient_error (nrx (exact K)).
Proof. exact drg_accuracy. Qed.
Print Assumptions binary64_drg_accuracy.

(** The coefficient of A and B is not exact here. *)
Example binary64_accuracy_case :
  moderate burn /\ (forall a, (a < 3)%nat ->
    not_tiny (drg_total (exact burn) a) /\ not_tiny (drgep_total (exact burn) a)) /\
  Qeq_bool (b64_val (fget (f_drgep_matrix burn) 0 1)) (mget (create_drgep_matrix (exact burn)) 0 1) = false.
Proof. split; [exact burn_moderate|]. split; [exact burn_visible|]. vm_compute. reflexivity. Qed.

(** C75: with weights in [0,1] the search with rounded products comes to an
    end and finds the largest rounded product for exactly the nodes that a walk
    leads to. *)
Theorem binary64_dijkstra_finds_max_product :
  forall g s,
    In s (fg_nodes g) -> fedges_within (fg_nodes g) (fg_edges g) -> unit_fweights (fg_edges g) ->
    exists r N,
      (forall fuel, (N <= fuel)%nat -> fss_dijkstra fuel g s = Ok r) /\
      dget s r = Some (b64_of_Z 1) /\
      (forall v m, dget v r = Some m -> is_max_fproduct (fg_edges g) s v m) /\
      (forall v, (exists m, dget v r = Some m) <-> (exists p, fwalk (fg_edges g) s v p)).
Proof. exact float_dijkstra_correct. Qed.
Print Assumptions binary64_dijkstra_finds_max_product.

Example binary64_dijkstra_case :
  let g := fgraph_of abc (f_drgep_matrix burn) in
  exists r, fss_dijkstra 20 g "A" = Ok r /\
    dget "B" r = Some (fget (f_drgep_matrix burn) 0 1) /\
    dget "C" r = Some (b64_mul (fget (f_drgep_matrix burn) 0 1) (fget (f_drgep_matrix burn) 1 2)) /\
    b64_lt (fget (f_drgep_matrix burn) 0 2)
           (b64_mul (fget (f_drgep_matrix burn) 0 1) (fget (f_drgep_matrix burn) 1 2)) = true.
Proof. cbv zeta. eexists. split; [vm_compute; reflexivity|]. repeat split; vm_compute; reflexivity. Qed.

(** C76: the search of DRGEP with doubles comes to an end for all models and
    states; the importance of every species is in [0,1], 1 for the targets and
    within (species - 1) (9 reactions + 21) 2^-53 of the exact importance. *)
Theorem binary64_importance :
  forall names targets Ks n,
    NoDup names -> names <> nil -> incl targets names ->
    (forall K, In K Ks ->
       moderate K /\ fk_nsp K = length names /\ (length (fk_rop K) <= n)%nat /\
       forall a, (a < length names)%nat -> not_tiny (drgep_total (exact K) a)) ->
    exists r N,
      (forall fuel, (N <= fuel)%nat ->
         f_importance_coeffs fuel names targets (map f_drgep_matrix Ks) = Ok r) /\
      dkeys r = names /\
      forall k c, dget k r = Some c -> unit_b64 c /\
        (Ks <> nil -> In k targets -> b64_val c == 1) /\
        forall m, is_importance names targets (map (fun K => create_drgep_matrix (exact K)) Ks) k m ->
          Qabs (b64_val c - m) <=
          inject_Z (Z.of_nat (length names - 1)) * (coefficient_error n + roundoff).
Proof. exact importance_all. Qed.
Print Assumptions binary64_importance.

(** C76: for any arrays of doubles in [0,1] the importance is the largest
    rounded chain product. *)
Theorem binary64_importance_is_best_chain :
  forall names targets Ms,
    incl targets names -> (forall M, In M Ms -> unit_fmatrix (length names) M) ->
    exists r N,
      (forall fuel, (N <= fuel)%nat -> f_importance_coeffs fuel names targets Ms = Ok r) /\
      dkeys r = names /\
      forall k c, dget k r = Some c -> unit_b64 c /\ is_fimportance names targets Ms k c.
Proof. exact fimportance_spec. Qed.
Print Assumptions binary64_importance_is_best_chain.

(** C76: rounding can change the removal of a species only if its exact
    importance is that close to the threshold. *)
Theorem binary64_removal :
  forall names targets Ks n safe thr,
    NoDup names -> names <> nil -> incl targets names -> b64_finite thr ->
    (forall K, In K Ks ->
       moderate K /\ fk_nsp K = length names /\ (length (fk_rop K) <= n)%nat /\
       forall a, (a < length names)%nat -> not_tiny (drgep_total (exact K) a)) ->
    exists coeffs removed N,
      (forall fuel, (N <= fuel)%nat ->
         f_importance_coeffs fuel names targets (map f_drgep_matrix Ks) = Ok coeffs) /\
      f_below coeffs safe thr names = Ok removed /\
      (forall x, In x removed -> In x names /\ ~ In x safe) /\
      forall x m, In x names -> ~ In x safe ->
        is_importance names targets (map (fun K => create_drgep_matrix (exact K)) Ks) x m ->
        let e := inject_Z (Z.of_nat (length names - 1)) * (coefficient_error n + roundoff) in
        (m + e < b64_val thr -> In x removed) /\ (b64_val thr + e <= m -> ~ In x removed).
Proof. exact removal_decision. Qed.
Print Assumptions binary64_removal.

(** Two sampled states; B matters most in the first and C in the second. *)
Example binary64_importance_case :
  (forall K, In K [burn; burn2] ->
     moderate K /\ fk_nsp K = length abc /\ (length (fk_rop K) <= 3)%nat /\
     forall a, (a < length abc)%nat -> not_tiny (drgep_total (exact K) a)) /\
  exists r, f_importance_coeffs 20 abc ["A"] (map f_drgep_matrix [burn; burn2]) = Ok r /\
    f_below r ["A"] (b64_of_frac 999 1000) abc = Ok ["B"] /\
    f_below r ["A"] (b64_of_frac 9 10) abc = Ok [].
Proof. split; [exact burns_ready|]. eexists. split; [vm_compute; reflexivity|].
  split; vm_compute; reflexivity. Qed.

(** C76: DRG with doubles keeps what the exact coefficients keep at a
    threshold larger by the error, and nothing that they drop at a threshold
    smaller by the error. *)
Theorem binary64_drg_keeps :
  forall K names targets thr,
    moderate K -> fk_nsp K = length names ->
    (forall a, (a < length names)%nat -> not_tiny (drg_total (exact K) a)) ->
    incl targets names -> b64_finite thr ->
    let e := coefficient_error (length (fk_rop K)) in
    e < b64_val thr ->
    exists r, f_trim_drg (f_drg_matrix K) names targets thr = Ok r /\ NoDup r /\
      (forall x, In x r <-> exists t, In t targets /\ freach names (f_drg_matrix K) thr t x) /\
      (forall t x, In t targets -> reach names (create_drg_matrix (exact K)) (b64_val thr + e) t x -> In x r) /\
      (forall x, In x r -> exists t, In t targets /\
         reach names (create_drg_matrix (exact K)) (b64_val thr - e) t x).
Proof. exact drg_sandwich. Qed.
Print Assumptions binary64_drg_keeps.

Example binary64_drg_keeps_case :
  moderate burn /\ coefficient_error (length (fk_rop burn)) < b64_val (b64_of_frac 1 100) /\
  f_trim_drg (f_drg_matrix burn) abc ["A"] (b64_of_frac 1 100) = Ok ["A"; "B"; "C"] /\
  f_trim_drg (f_drg_matrix burn2) abc ["A"] (b64_of_frac 9 10) = Ok ["A"; "C"].
Proof. split; [exact burn_moderate|]. split; [vm_compute; reflexivity|]. split; vm_compute; reflexivity. Qed.

(** C77: close to the threshold rounding does change the decision. *)
Theorem rounding_decides_removal_refuted :
  moderate tie /\
  (exists m, is_importance abc ["A"] [create_drgep_matrix (exact tie)] "B" m /\ m < 1 # 2) /\
  b64_val (b64_of_frac 1 2) == 1 # 2 /\
  exists coeffs, f_importance_coeffs 20 abc ["A"] [f_drgep_matrix tie] = Ok coeffs /\
    f_below coeffs nil (b64_of_frac 1 2) abc = Ok nil.
Proof. split; [exact tie_moderate|]. split; [exact tie_exact|]. split; [vm_compute; reflexivity|exact tie_float]. Qed.
Print Assumptions rounding_decides_removal_refuted.
