(** Facts about the samples of Spec/FloatMainSamples.v. *)
From Coq Require Import String List ZArith QArith Qabs Bool Arith Lia Lqa.
From Verif.Base Require Import Py Num XNum Paths B64.
From Verif.Model Require Import Mech Matrices Graph World Metrics Drivers Sensitivity Simulation Sampling Main
  FloatDrivers FloatMatrix FloatRun DoubleError FloatMain.
From Verif.Spec Require Import TrimSpec Samples GraphSpec MetricSpec DriverSpec DriverSamples SensitivitySpec SimSpec SimSamples SamplingSpec
  SamplingSamples MainSpec MainSamples FloatSpec FloatMatrixSpec FloatSamples FloatRunSpec FloatRunSamples DoubleErrorSpec FloatMainSpec FloatMainSamples.
From Verif.Proofs Require Import FloatMainFacts PyFacts NumFacts LoopFacts DriverFacts SimFacts MainEnd SampleFacts DriverSampleFacts SamplingLate MainCli FloatDriverFacts FloatSampleFacts FloatRunSampleFacts DoubleErrorMain FloatSimulationFacts.
Import ListNotations.
Local Open Scope string_scope.

Lemma eighth_blind s : physics_blind (eighths s).
Proof. intros m m' (E & _). unfold eighths, full_physics, wide, wide_pp, species_names. cbn. rewrite E. auto. Qed.

Lemma eighth_shaped s C m : shaped (eighths s) C m.
Proof.
  pose proof (full_shaped C m) as [H1 H2 H3]. constructor; [|exact H2|exact H3].
  intros c _. split; [apply map_length|]. intros k p E. injection E as <-. apply map_length.
Qed.

Lemma eighth_starts s mx m : starts_right (eighths s) (cases_with mx) m.
Proof.
  intros c H. apply starts_double; [|reflexivity]. simpl in H.
  assert (ig_T c = 1000%Q) as -> by (destruct H as [<-|[]]; reflexivity).
  split; [exists (b64_of_Z 1000); split; reflexivity|split; discriminate].
Qed.

Lemma ftoy_prepared me safe sa up : prepared (eighth_machine "HO2") (cases_with "N2") (toy_main me safe sa up) toy_world toy.
Proof.
  constructor; cbn [toy_main a_file a_phase a_targets a_path a_limit eighth_machine k_physics].
  - apply wf_mechb_sound. reflexivity.
  - apply toy_holds.
  - split; [discriminate|]. intros x [<-|[]]. cbn. auto.
  - intros n E. unfold path_join, reduced_name in E. cbn in E. discriminate.
  - apply apart_example. cbn. lia.
  - apply toy_fresh.
  - apply eighth_shaped.
  - apply eighth_starts.
  - apply eighth_blind.
  - reflexivity.
Qed.

Lemma ffork_prepared me : prepared (eighth_machine "B") (cases_with "A") (fork_in me) fork_world fork.
Proof.
  destruct fork_started as [S1 S2 S3 _ _ _].
  constructor; cbn [fork_in a_file a_phase a_targets a_path a_limit eighth_machine k_physics].
  - exact S1.
  - exact S2.
  - exact S3.
  - intros n E. unfold path_join, reduced_name in E. cbn in E. discriminate.
  - apply apart_example. cbn. lia.
  - intros f I. unfold sample_files in I. simpl in I. intuition (subst; reflexivity).
  - apply eighth_shaped.
  - apply eighth_starts.
  - apply eighth_blind.
  - reflexivity.
Qed.

Lemma half_metric : double_metric (Fin (4 # 8)).
Proof.
  apply whole_metric with (b64_of_frac 1 2); [vm_compute; reflexivity|reflexivity|].
  split; apply Qle_bool_iff; vm_compute; reflexivity.
Qed.
Lemma six_metric : double_metric (Fin (6 # 8)).
Proof.
  apply whole_metric with (b64_of_frac 3 4); [vm_compute; reflexivity|reflexivity|].
  split; apply Qle_bool_iff; vm_compute; reflexivity.
Qed.

Lemma eighth_metrics s mx m ts : metrics_of (conds_of 50 (eighths s) None (cases_with mx)) m = Ok ts ->
  ts = [Fin (4 # 8)] \/ ts = [Fin (6 # 8)].
Proof.
  unfold metrics_of, conds_of, cases_with. cbn [ca_ign ca_psr ca_flame map c_ign c_psr c_flame app mapM].
  unfold ign_cond. destruct (setup_gas _ m) as [u|e|]; try discriminate. cbn [bind].
  unfold calculate. cbn [ph_reactor eighths ig_end ig_T].
  destruct (str_in s (species_names m)); intros E; vm_compute in E; injection E as <-; auto.
Qed.

Lemma eighth_posed s mx l a sol : moderate (fkin_of sol (map b64_of_Z l)) ->
  (Z.of_nat (n_species sol) <= 2 ^ 28)%Z -> a_upper a = None \/ a_upper a = Some 1%Q ->
  double_posed (eighth_machine s) (steady_rates l) None (cases_with mx) a sol.
Proof.
  intros M N U.
  assert (forall m ts, metrics_of (conds_of 50 (eighths s) None (cases_with mx)) m = Ok ts ->
            ts <> nil /\ forall x, In x ts -> double_metric x) as X.
  { intros m ts E. apply eighth_metrics in E. destruct E as [-> | ->]; (split; [discriminate|]); intros x [<-|[]];
      [apply half_metric|apply six_metric]. }
  constructor; auto.
  - intros ref E. exact (X _ _ E).
  - intros m ts E x Ix. left. now apply (X _ _ E).
  - intros st rop E. injection E as <-. exact M.
  - intros u E. exists (b64_of_Z 1). destruct U as [U|U]; rewrite U in E; [discriminate|]. injection E as <-.
    split; vm_compute; reflexivity.
Qed.

Lemma ftoy_posed me safe sa up : up = None \/ up = Some 1%Q ->
  double_posed (eighth_machine "HO2") (steady_rates [2; 0; 3; (-2); 4]%Z) None (cases_with "N2") (toy_main me safe sa up) toy.
Proof.
  intros U. apply eighth_posed; [|vm_compute; discriminate|exact U].
  apply moderateb_ok. vm_compute. reflexivity.
Qed.

Lemma ffork_posed b c me : moderateb (fkin_of fork [b64_of_Z b; b64_of_Z c]) = true ->
  double_posed (eighth_machine "B") (steady_rates [b; c]) None (cases_with "A") (fork_in me) fork.
Proof. intros H. apply eighth_posed; [|vm_compute; discriminate|now left]. now apply moderateb_ok. Qed.

Lemma outcome_ok (x : res rmodel * world) l e :
  match x with (Ok r, _) => Some (species_names (r_model r), r_error r) | _ => None end = Some (l, e) ->
  exists r w', x = (Ok r, w') /\ species_names (r_model r) = l /\ r_error r = e.
Proof. destruct x as [[r|z|] w']; try discriminate. intros E. injection E as <- <-. eauto. Qed.

Lemma ffork_outcome me : exists r w' e, ffork 3 97 (method_name me) fork_world = (Ok r, w') /\
  species_names (r_model r) = ["A"; "C"] /\ r_error r = Fin e /\ (e == 50)%Q.
Proof.
  destruct (outcome_ok (ffork 3 97 (method_name me) fork_world) ["A"; "C"] (Fin (7036874417766400 # 140737488355328)))
    as (r & w' & E1 & E2 & E3); [destruct me; vm_compute; reflexivity|].
  exists r, w', (7036874417766400 # 140737488355328)%Q. repeat split; auto.
Qed.

Lemma ffan_prepared me : prepared (eighth_machine "B") (cases_with "A") (fork_in me) (fan_world "mech.yaml") fan.
Proof.
  constructor; cbn [fork_in a_file a_phase a_targets a_path a_limit eighth_machine k_physics].
  - apply wf_mechb_sound. reflexivity.
  - exists [fan]. split; reflexivity.
  - split; [discriminate|]. intros x [<-|[]]. cbn. auto.
  - intros n E. unfold path_join, reduced_name in E. cbn in E. discriminate.
  - apply apart_example. cbn. lia.
  - intros f I. unfold sample_files in I. simpl in I. intuition (subst; reflexivity).
  - apply eighth_shaped.
  - apply eighth_starts.
  - apply eighth_blind.
  - reflexivity.
Qed.

Lemma ffan_posed me : double_posed (eighth_machine "B") (steady_rates [61; 35; 904]%Z) None (cases_with "A") (fork_in me) fan.
Proof. apply eighth_posed; [|vm_compute; discriminate|now left]. apply moderateb_ok. vm_compute. reflexivity. Qed.

(** *** A run away from the edge *)
Section Away.
  Let a := fork_in "DRG".
  Let cs := double_conds (conds_of 50 (eighths "B") None (cases_with "A")).
  Let J := graph_job a cs.
  Let F0 : fmatrix := f_drg_matrix (fkin_of fan [b64_of_Z 61; b64_of_Z 35; b64_of_Z 904]).

  Variables (rops : list (list b64)).
  Hypothesis NE : rops <> nil.
  Hypothesis EACH : forall y, In y rops -> y = [b64_of_Z 61; b64_of_Z 35; b64_of_Z 904].

  Lemma away_matrix F : In F (fmatrices DRG fan rops) -> F = F0.
  Proof. intros I. apply in_map_iff in I. destruct I as (y & <- & I). now rewrite (EACH y I). Qed.
  Lemma away_has : In F0 (fmatrices DRG fan rops).
  Proof.
    destruct rops as [|y l]; [contradiction|]. left. rewrite (EACH y); [reflexivity|now left].
  Qed.

  Lemma away_entry i j : fget F0 i j = match i, j with
    | 0, 1 => fget F0 0 1 | 0, 2 => fget F0 0 2 | 0, 3 => fget F0 0 3
    | 1, 0 => fget F0 1 0 | 2, 0 => fget F0 2 0 | 3, 0 => fget F0 3 0 | _, _ => fzero end%nat.
  Proof.
    destruct (Nat.le_gt_cases 4 i) as [L|L]; [|destruct (Nat.le_gt_cases 4 j) as [L'|L']].
    - unfold fget. rewrite (nth_overflow F0) by (vm_compute; lia). destruct i as [|[|[|[|i]]]]; try lia. now destruct j.
    - unfold fget. rewrite nth_overflow; [destruct i as [|[|[|[|i]]]], j as [|[|[|[|j]]]]; try lia; reflexivity|].
      destruct i as [|[|[|[|i]]]]; try lia; vm_compute; lia.
    - destruct i as [|[|[|[|i]]]], j as [|[|[|[|j]]]]; try lia; vm_compute; reflexivity.
  Qed.

  (** At 0.01 B is kept, at 0.07 only A and D are. *)
  Lemma away_low : fkept DRG J fan rops (start_f 0) "B".
  Proof.
    right. exists F0, "A". split; [apply away_has|]. split; [now left|].
    apply freach_step with "A" (fget F0 0 1).
    - apply freach_here. now left.
    - exists 0%nat, 1%nat. repeat split.
    - vm_compute. discriminate.
    - vm_compute. discriminate.
  Qed.

  Lemma away_high s : fkept DRG J fan rops (climb_f 0 6) s -> s = "A" \/ s = "D".
  Proof.
    intros [[]|(F & tgt & IF & [<-|[]] & R)]. apply away_matrix in IF. subst F.
    induction R as [|b c v R IH (i & j & Ni & Nj & Ev) Nz Le]; auto. subst v. rewrite away_entry in Nz, Le.
    destruct IH as [-> | ->].
    - destruct i as [|i]; [|destruct i as [|[|[|i]]]; [discriminate|discriminate|discriminate|destruct i; discriminate]].
      destruct j as [|[|[|[|j]]]]; [left; now injection Nj as <-| | |right; now injection Nj as <-|]; exfalso; vm_compute in Le, Nz.
      + now apply Le.
      + now apply Le.
      + now apply Nz.
    - left. destruct i as [|[|[|[|i]]]]; [discriminate|discriminate|discriminate| |destruct i; discriminate].
      destruct j as [|j]; [now injection Nj as <-|exfalso; now apply Nz].
  Qed.

  Lemma away_error m e : error_of cs [Fin (4 # 8)] m = Ok e -> e = Fin (if str_in "B" (species_names m) then 0 else 7036874417766400 # 140737488355328)%Q.
  Proof.
    unfold error_of, cs, metrics_of, double_conds, conds_of, cases_with. cbn [ca_ign ca_psr ca_flame map c_ign c_psr c_flame app mapM].
    unfold ign_cond. destruct (setup_gas _ m) as [u|x|]; try discriminate. cbn [bind].
    unfold calculate. cbn [ph_reactor eighths ig_end ig_T].
    destruct (str_in "B" (species_names m)); intros E; vm_compute in E; injection E as <-; reflexivity.
  Qed.

  Lemma away_start : ~ exceeds J fan [Fin (4 # 8)] (Fin 10) (fkept DRG J fan rops (start_f 0)).
  Proof.
    intros (m & x & C & E & G). change (j_conds J) with cs in E. apply away_error in E.
    assert (In "B" (species_names m)) as I by (eapply cut_has; [exact C|now right; left|apply away_low]).
    apply str_in_iff in I. rewrite I in E. subst x. discriminate.
  Qed.

  Lemma away_end : ~ passes J fan [Fin (4 # 8)] (Fin 10) (fkept DRG J fan rops (climb_f 0 6)).
  Proof.
    intros (m & x & C & E & G). change (j_conds J) with cs in E. apply away_error in E.
    destruct (str_in "B" (species_names m)) eqn:I; [|subst x; discriminate]. apply str_in_iff in I.
    destruct C as (rm & R & C). apply (cut_names J fan rm m C) in I. destruct I as [I1 I2].
    apply I2. apply R; auto. intros X. apply away_high in X. destruct X; discriminate.
  Qed.

  Definition apart (v : Q) (k : nat) : bool := Qlt_bool ((2 # 1) ^ (-49) * climb_v 0 k) (Qabs (v - climb_v 0 k)).

  Lemma away_apart : forallb (fun v => forallb (apart (b64_val v)) (seq 0 6))
    [fget F0 0 1; fget F0 0 2; fget F0 0 3; fget F0 1 0; fget F0 2 0; fget F0 3 0; fzero] = true.
  Proof. vm_compute. reflexivity. Qed.

  Lemma away_close k : (k <= 5)%nat -> ~ fclose_coefficient DRG J fan rops (climb_v 0 k).
  Proof.
    intros L (v & (F & i & j & IF & ->) & H). apply away_matrix in IF. subst F.
    assert (In (fget F0 i j) [fget F0 0 1; fget F0 0 2; fget F0 0 3; fget F0 1 0; fget F0 2 0; fget F0 3 0; fzero]) as I.
    { rewrite away_entry. clear. generalize F0. intros F. destruct i as [|[|[|[|i]]]], j as [|[|[|[|j]]]]; simpl; auto 10. }
    pose proof away_apart as A. rewrite forallb_forall in A. specialize (A _ I). rewrite forallb_forall in A.
    assert (In k (seq 0 6)) as Ik by (apply in_seq; lia). specialize (A k Ik). unfold apart in A.
    apply Qlt_bool_iff in A. lra.
  Qed.
End Away.

Lemma away : ~ at_the_edge DRG (eighth_machine "B") (steady_rates [61; 35; 904]%Z) None (cases_with "A") (fork_in "DRG") fan.
Proof.
  intros (ref & rops & j & n & S & Hj & H1 & H2 & H3 & H4).
  destruct (FloatMainFacts.gives_sampled (eighth_machine "B") (steady_rates [61; 35; 904]%Z) None (cases_with "A") (fork_in "DRG") (fan_world "mech.yaml") fan
              (ffan_prepared "DRG") ref rops S) as (w1 & SO).
  pose proof (so_metrics _ _ _ _ _ _ _ _ _ _ SO) as M. vm_compute in M. injection M as <-.
  assert (rops <> nil) as NE by (apply (so_rops _ _ _ _ _ _ _ _ _ _ SO); discriminate).
  assert (forall y, In y rops -> y = [b64_of_Z 61; b64_of_Z 35; b64_of_Z 904]) as EACH.
  { intros y I. destruct (so_each _ _ _ _ _ _ _ _ _ _ SO y I) as (st & E). now injection E as <-. }
  assert (j = 0)%nat as ->.
  { destruct j as [|j]; auto. exfalso. apply (away_start rops NE EACH), (H1 0%nat). lia. }
  assert (n <= 5)%nat as L.
  { destruct (le_lt_dec n 5) as [|G]; auto. exfalso. apply (away_end rops EACH), (H2 6%nat). lia. }
  exact (away_close rops EACH n L H4).
Qed.
