(** Packaged graph facts and concrete cases. *)
From Coq Require Import String List QArith Bool Arith Lia Lqa Permutation.
From Verif.Base Require Import Py Num B64.
From Verif.Model Require Import Mech Matrices Graph.
From Verif.Spec Require Import GraphSpec.
From Verif.Proofs Require Import PyFacts NumFacts MatrixFacts DfsFacts DijkstraFacts ImportanceFacts.
Import ListNotations.
Local Open Scope string_scope.
Local Open Scope Q_scope.

(** A -> B -> C -> A is a cycle, D is reached late with a small weight, E only
    leads into the rest. *)
Definition cyc : matrix :=
  [[0; 1#2; 0; 1#5; 0]; [0; 0; 1#4; 0; 0]; [1#3; 0; 0; 0; 0]; [0; 1#20; 0; 0; 0]; [0; 0; 0; 3#4; 0]].
Definition cyc2 : matrix :=
  [[0; 0; 9#10; 0; 0]; [0; 0; 0; 0; 0]; [0; 0; 0; 0; 0]; [0; 0; 0; 0; 0]; [1; 0; 0; 0; 0]].
(** B <-> C with product 21/20. *)
Definition grow : matrix := [[0; 1#2; 0]; [0; 0; 3#2]; [0; 7#10; 0]].

Lemma trim_drg_targets M names targets thr r :
  trim_drg M names targets thr = Ok r -> incl targets names.
Proof.
  intros H t Ht. destruct (in_dec string_dec t names); auto.
  rewrite (trim_drg_fail M names targets thr t) in H; auto. discriminate.
Qed.

Lemma trim_keeps_targets M names targets thr r t :
  (trim_drg M names targets thr = Ok r \/ trim_pfa M names targets thr = Ok r) ->
  In t targets -> In t r.
Proof.
  change (trim_pfa M names targets thr) with (trim_drg M names targets thr).
  intros H Ht. assert (trim_drg M names targets thr = Ok r) as R by tauto.
  pose proof (trim_drg_targets _ _ _ _ _ R) as I.
  destruct (trim_drg_spec M names targets thr I) as (r' & R' & _ & K).
  rewrite R in R'. inversion R'; subst. apply K. exists t. split; auto. constructor; auto.
Qed.

Lemma trim_unknown M names targets thr t :
  In t targets -> ~ In t names ->
  trim_drg M names targets thr = Raise KeyError /\ trim_pfa M names targets thr = Raise KeyError.
Proof. intros. split; eapply trim_drg_fail; eauto. Qed.

Lemma trim_drg_antitone M names targets thr thr' r r' :
  thr <= thr' -> trim_drg M names targets thr = Ok r -> trim_drg M names targets thr' = Ok r' ->
  incl r' r.
Proof.
  intros L R R' x Hx. pose proof (trim_drg_targets _ _ _ _ _ R) as I.
  destruct (trim_drg_spec M names targets thr I) as (q & Q1 & _ & K).
  destruct (trim_drg_spec M names targets thr' I) as (q' & Q1' & _ & K').
  rewrite R in Q1. rewrite R' in Q1'. inversion Q1; inversion Q1'; subst.
  apply K' in Hx. destruct Hx as (t & Ht & Hr). apply K. exists t. split; auto.
  eapply reach_antitone; eauto.
Qed.

Lemma dijkstra_diverges_pkg g s v p c :
  In s (g_nodes g) -> edges_within (g_nodes g) (g_edges g) -> nonneg_weights (g_edges g) ->
  walk (g_edges g) s v p -> 0 < p ->
  walk_avoiding (g_edges g) s v v c -> 1 < c ->
  forall fuel, ss_dijkstra fuel g s None = NoFuel.
Proof. intros. eapply dijkstra_diverges_lemma; eauto. Qed.

(** Checkers. *)
Definition unitb (E : list (string * string * Q)) : bool :=
  forallb (fun e => Qle_bool 0 (snd e) && Qle_bool (snd e) 1) E.

Lemma unitb_sound E : unitb E = true -> unit_weights E.
Proof.
  unfold unitb. rewrite forallb_forall. intros H a b w I. specialize (H _ I). simpl in H.
  apply andb_true_iff in H. destruct H as [A B]. apply Qle_bool_iff in A. apply Qle_bool_iff in B. auto.
Qed.

Definition unit_matrixb (M : matrix) : bool :=
  forallb (forallb (fun w => Qle_bool 0 w && Qle_bool w 1)) M.

Lemma unit_matrixb_sound n M : unit_matrixb M = true -> unit_matrix n M.
Proof.
  unfold unit_matrixb. rewrite forallb_forall. intros H i j _ _. unfold mget.
  destruct (nth_in_or_default i M nil) as [I| ->].
  - specialize (H _ I). rewrite forallb_forall in H.
    destruct (nth_in_or_default j (nth i M nil) 0) as [J| ->]; [|lra].
    specialize (H _ J). apply andb_true_iff in H. destruct H as [A B].
    apply Qle_bool_iff in A. apply Qle_bool_iff in B. auto.
  - destruct j; simpl; lra.
Qed.

Lemma cyc_dijkstra :
  unit_weights (g_edges (graph_of ["A"; "B"; "C"; "D"; "E"] cyc)) /\
  exists r, ss_dijkstra 20 (graph_of ["A"; "B"; "C"; "D"; "E"] cyc) "A" None = Ok r /\
    map (fun kv => (fst kv, Qred (snd kv))) r = [("A", 1); ("D", 1 # 5); ("B", 1 # 2); ("C", 1 # 8)].
Proof.
  split; [apply unitb_sound; vm_compute; reflexivity|].
  eexists. split; vm_compute; reflexivity.
Qed.

Lemma grow_case :
  let E := g_edges (graph_of ["A"; "B"; "C"] grow) in
  nonneg_weights E /\ (exists p, walk E "A" "B" p /\ 0 < p) /\
  (exists c, walk_avoiding E "A" "B" "B" c /\ 1 < c).
Proof.
  vm_compute g_edges. cbv zeta. split; [|split].
  - intros a b w [H|[H|[H|[]]]]; inversion H; subst; vm_compute; discriminate.
  - exists (1 * (1#2)). split; [|reflexivity]. eapply walk_step; [apply walk_here|]. simpl; auto.
  - exists (1 * (3#2) * (7#10)). split; [|reflexivity].
    eapply wa_step with (v := "C"); [|simpl; auto|discriminate].
    eapply wa_step; [apply wa_here; discriminate|simpl; auto|discriminate].
Qed.

Lemma cyc_cutoff :
  let g := graph_of ["A"; "B"; "C"; "D"; "E"] cyc in
  ss_dijkstra 20 g "A" (Some (1 # 10)) = Ok [("A", 1)] /\
  exists r m, ss_dijkstra 20 g "A" None = Ok r /\ dget "B" r = Some m /\ m == 1 # 2.
Proof.
  split; [vm_compute; reflexivity|]. do 2 eexists. split; [vm_compute; reflexivity|].
  split; [vm_compute; reflexivity|]. vm_compute. reflexivity.
Qed.

Lemma cyc_importance :
  unit_matrix 5 cyc /\ unit_matrix 5 cyc2 /\
  exists r, get_importance_coeffs 20 ["A"; "B"; "C"; "D"; "E"] ["A"] [cyc; cyc2] = Ok r /\
    map (fun kv => (fst kv, Qred (snd kv))) r =
    [("A", 1); ("B", 1 # 2); ("C", 9 # 10); ("D", 1 # 5); ("E", 0)].
Proof.
  split; [apply unit_matrixb_sound; reflexivity|].
  split; [apply unit_matrixb_sound; reflexivity|].
  eexists. split; vm_compute; reflexivity.
Qed.

Lemma importance_range_lemma names targets Ms k m :
  (forall M, In M Ms -> unit_matrix (length names) M) ->
  is_importance names targets Ms k m ->
  0 <= m <= 1 /\ (Ms <> nil -> In k targets -> In k names -> m == 1).
Proof.
  intros U B. split; [eapply importance_bounds; eauto|]. intros NE Ht Hn.
  exact (importance_target names targets Ms k m U NE Ht Hn B).
Qed.

Lemma drgep_search_total names targets Ks :
  NoDup names -> incl targets names -> (forall K, In K Ks -> k_nsp K = length names) ->
  exists r N,
    (forall fuel, (N <= fuel)%nat ->
      get_importance_coeffs fuel names targets (map create_drgep_matrix Ks) = Ok r) /\
    dkeys r = names /\
    (forall k m, dget k r = Some m ->
       is_importance names targets (map create_drgep_matrix Ks) k m).
Proof.
  intros ND I HK. apply importance_spec; auto. intros M HM. apply in_map_iff in HM.
  destruct HM as (K & <- & HK'). intros i j Hi Hj. rewrite <- (HK K HK') in *. now apply drgep_bounds.
Qed.

Lemma ratio_above_one : exists l l', Permutation l l' /\
  b64_lt (b64_of_Z 1) (b64_div (b64_sum l) (b64_sum l')) = true.
Proof.
  exists [b64_of_frac 1 10; b64_of_frac 2 10; b64_of_frac 3 10],
         [b64_of_frac 3 10; b64_of_frac 2 10; b64_of_frac 1 10].
  split; [|vm_compute; reflexivity].
  change [b64_of_frac 3 10; b64_of_frac 2 10; b64_of_frac 1 10]
    with (rev [b64_of_frac 1 10; b64_of_frac 2 10; b64_of_frac 3 10]).
  apply Permutation_rev.
Qed.
