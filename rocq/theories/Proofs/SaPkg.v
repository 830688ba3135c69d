(** The properties of sensitivity analysis as stated in [Props]. *)
From Coq Require Import String List QArith Bool Arith Lia Permutation.
From Verif.Base Require Import Py Num XNum Paths.
From Verif.Model Require Import Mech World Metrics Drivers Sensitivity.
From Verif.Spec Require Import TrimSpec MetricSpec DriverSpec SensitivitySpec.
From Verif.Proofs Require Import PyFacts TrimFacts StepFacts SaFacts.
From Verif.Proofs Require Export SaMore.
Import ListNotations.
Local Open Scope string_scope.

Lemma sa_pkg K w tmp tmp2 sol fuel r w' cands : sa_started K w tmp tmp2 sol -> candidates K w sol cands ->
  run_sa fuel tmp tmp2 K w = (Ok r, w') ->
  exists ref removed tried rest, found K w ref /\
    Permutation cands (removed ++ tried ++ rest)%list /\
    removals (s_phase K) sol removed (r_model r) /\
    (removed = nil /\ r_model r = sol /\ r_error r = s_start K \/
     removed <> nil /\ xgt (r_error r) (s_limit K) = false /\ error_of (s_conds K) ref (r_model r) = Ok (r_error r)) /\
    stopped K ref (r_model r) tried rest /\
    (s_alg K = Greedy -> cands <> nil -> (tried ++ rest)%list <> nil) /\
    (snd (start_list K w sol) = true -> w_shared w' = rest) /\
    (snd (start_list K w sol) = false -> w_shared w' = w_shared w).
Proof.
  intros ST C E. rewrite (candidates_start K w sol cands (sa_wf _ _ _ _ _ ST) C).
  destruct (run_ok _ _ _ _ _ _ _ _ ST E) as (ref & errs & m & e & rest & RF & -> & EM & EP & _ & SF & SH).
  destruct (loop_sound _ _ _ _ _ _ _ _ _ _ (mapM_length _ _ _ EM) EP) as (L & tried & P & R & O & S & G).
  exists ref, L, tried, rest. simpl. auto 10.
Qed.

Lemma sa_limit K w tmp tmp2 sol fuel r w' ref : sa_started K w tmp tmp2 sol -> found K w ref -> s_limit K <> NaN ->
  run_sa fuel tmp tmp2 K w = (Ok r, w') ->
  (r_model r = sol /\ r_error r = s_start K) \/
  (error_of (s_conds K) ref (r_model r) = Ok (r_error r) /\
   (xle (r_error r) (s_limit K) = true \/ r_error r = NaN)).
Proof.
  intros ST RF NL E. destruct (sa_pkg _ _ _ _ _ _ _ _ _ ST (start_candidates K w sol) E)
    as (ref' & removed & tried & rest & RF' & _ & _ & O & _).
  assert (ref' = ref) by (unfold found in *; congruence). subst ref'.
  destruct O as [(_ & A & B)|(_ & A & B)]; auto. right. split; auto. clear - A NL. unfold xgt in A.
  destruct (r_error r) as [p| | |], (s_limit K) as [q| | |]; simpl in *; auto; try discriminate; try contradiction.
  left. apply NumFacts.Qlt_bool_false in A. now apply Qle_bool_iff.
Qed.

Lemma nodup_app_l {A} (a b : list A) : NoDup (a ++ b)%list -> NoDup a.
Proof. induction a; simpl; intros H; [constructor|]. inversion H; subst. constructor; auto. intros X. apply H2. apply in_app_iff; auto. Qed.

Lemma sa_only K w tmp tmp2 sol fuel r w' cands : sa_started K w tmp tmp2 sol -> candidates K w sol cands ->
  run_sa fuel tmp tmp2 K w = (Ok r, w') ->
  exists removed, incl removed cands /\ (NoDup cands -> NoDup removed) /\
    removals (s_phase K) sol removed (r_model r) /\
    sublist (m_species (r_model r)) (m_species sol) /\
    forall s, In s (species_names (r_model r)) <-> In s (species_names sol) /\ ~ In s removed.
Proof.
  intros ST C E. destruct (sa_pkg _ _ _ _ _ _ _ _ _ ST C E) as (ref & removed & tried & rest & RF & P & R & _).
  exists removed. split; [|split; [|split; [auto|split]]].
  - intros x H. eapply Permutation_in; [apply Permutation_sym; exact P|]. apply in_app_iff. auto.
  - intros N. apply nodup_app_l with (tried ++ rest)%list. eapply Permutation_NoDup; eauto.
  - rewrite (removals_species _ _ _ _ R). apply filter_sublist.
  - apply (removals_names _ _ _ _ R).
Qed.

Lemma sa_default K w tmp tmp2 sol fuel r w' : sa_started K w tmp tmp2 sol -> given_limbo w (s_limbo K) = nil ->
  run_sa fuel tmp tmp2 K w = (Ok r, w') ->
  forall s, In s (s_safe K) -> In s (species_names sol) -> In s (species_names (r_model r)).
Proof.
  intros ST G E s S I. pose proof (start_candidates K w sol) as C.
  destruct (sa_only _ _ _ _ _ _ _ _ _ ST C E) as (removed & IN & _ & _ & _ & H). apply H. split; auto.
  intros X. apply IN in X. destruct C as [(A & B)|(_ & _ & B)]; [rewrite G in A; contradiction|].
  apply B in X. tauto.
Qed.

Lemma sa_greedy_left K w tmp tmp2 sol fuel r w' cands : sa_started K w tmp tmp2 sol -> candidates K w sol cands ->
  cands <> nil -> s_alg K = Greedy -> NoDup cands -> incl cands (species_names sol) ->
  run_sa fuel tmp tmp2 K w = (Ok r, w') ->
  exists s, In s cands /\ In s (species_names (r_model r)).
Proof.
  intros ST C NE AL ND IC E. destruct (sa_pkg _ _ _ _ _ _ _ _ _ ST C E) as (ref & removed & tried & rest & RF & P & R & _ & _ & G & _).
  specialize (G AL NE). destruct (tried ++ rest)%list as [|s l] eqn:EL; [contradiction|].
  assert (In s cands) as Hs by (eapply Permutation_in; [apply Permutation_sym; exact P|]; apply in_app_iff; simpl; auto).
  exists s. split; auto. apply (removals_names _ _ _ _ R). split; auto.
  pose proof (Permutation_NoDup P ND) as N. intros X. apply NoDup_remove_2 in N. apply N. apply in_app_iff. auto.
Qed.

Lemma sa_file_name K w tmp tmp2 sol fuel r w' : sa_started K w tmp tmp2 sol -> run_sa fuel tmp tmp2 K w = (Ok r, w') ->
  r_file r = reduced_name (n_species (r_model r)) /\
  w_fs w' (path_join (s_path K) (r_file r)) = Some (FMech [r_model r]) /\
  (path_join (s_path K) (r_file r) <> r_file r -> w_fs w' (r_file r) = w_fs w (r_file r)).
Proof.
  intros ST E. destruct (run_ok _ _ _ _ _ _ _ _ ST E) as (ref & errs & m & e & rest & RF & ER & EM & EP & F & _).
  split; [subst r; reflexivity|]. split.
  - rewrite F, String.eqb_refl. reflexivity.
  - intros N. rewrite F. destruct (String.eqb_spec (r_file r) (path_join (s_path K) (r_file r))) as [EQ|_]; auto.
    exfalso. apply N. symmetry. exact EQ.
Qed.

Lemma sa_stop K w tmp tmp2 sol fuel r w' ref cands : sa_started K w tmp tmp2 sol -> found K w ref -> candidates K w sol cands ->
  run_sa fuel tmp tmp2 K w = (Ok r, w') ->
  exists removed tried rest, Permutation cands (removed ++ tried ++ rest)%list /\
    removals (s_phase K) sol removed (r_model r) /\ stopped K ref (r_model r) tried rest.
Proof.
  intros ST RF C E. destruct (sa_pkg _ _ _ _ _ _ _ _ _ ST C E) as (ref' & removed & tried & rest & RF' & P & R & _ & S & _).
  assert (ref' = ref) by (unfold found in *; congruence). subst ref'. eauto 8.
Qed.

Lemma sa_frame K w tmp tmp2 sol fuel g : sa_started K w tmp tmp2 sol ->
  ((forall n, g <> path_join (s_path K) (reduced_name n)) ->
   w_fs (snd (run_sa fuel tmp tmp2 K w)) g = w_fs w g) /\
  ((forall r, fst (run_sa fuel tmp tmp2 K w) <> Ok r) -> w_fs (snd (run_sa fuel tmp tmp2 K w)) g = w_fs w g).
Proof.
  intros ST. destruct (run_eq K w tmp tmp2 sol fuel ST) as (R & w' & E & ER & F & _). rewrite E. simpl.
  destruct R as [r|x|]; [|auto|auto]. split.
  - intros N. rewrite F. destruct (String.eqb_spec g (path_join (s_path K) (r_file r))) as [->|]; auto.
    destruct (sa_file_name _ _ _ _ _ _ _ _ ST E) as (FN & _). rewrite FN in N. exfalso. apply (N (n_species (r_model r))). reflexivity.
  - intros N. exfalso. eapply N; eauto.
Qed.

Lemma sa_shared K w tmp tmp2 sol fuel r w' cands : sa_started K w tmp tmp2 sol -> candidates K w sol cands ->
  run_sa fuel tmp tmp2 K w = (Ok r, w') ->
  (s_limbo K = Shared -> w_shared w <> nil ->
     exists removed tried, Permutation (w_shared w) (removed ++ tried ++ w_shared w')%list /\
       removals (s_phase K) sol removed (r_model r) /\ (length tried <= 1)%nat) /\
  ((exists l, s_limbo K = Own l) \/ w_shared w = nil -> w_shared w' = w_shared w).
Proof.
  intros ST C E. destruct (sa_pkg _ _ _ _ _ _ _ _ _ ST C E) as (ref & removed & tried & rest & RF & P & R & _ & S & _ & ST1 & SF).
  split.
  - intros EL NE. exists removed, tried. 
    assert (snd (start_list K w sol) = true /\ cands = w_shared w) as [X ->].
    { rewrite (candidates_start K w sol cands (sa_wf _ _ _ _ _ ST) C). unfold start_list, given_limbo. rewrite EL.
      destruct (w_shared w); [contradiction|]. auto. }
    rewrite (ST1 X). split; auto. split; auto.
    destruct S as [(-> & _)|[(s & e & -> & _)|(_ & -> & _)]]; simpl; lia.
  - intros D. apply SF. unfold start_list, given_limbo. destruct D as [(l & ->)|EW].
    + destruct l; reflexivity.
    + rewrite EW. destruct (s_limbo K) as [|l]; [reflexivity|destruct l; reflexivity].
Qed.
