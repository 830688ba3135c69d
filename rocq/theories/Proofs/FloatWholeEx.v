(** The sample runs of Spec/FloatWholeSamples.v. *)
From Coq Require Import String Ascii List QArith ZArith Bool Arith Lia.
From Verif.Base Require Import Py Num XNum Paths B64.
From Verif.Model Require Import Mech World Metrics Drivers Sensitivity Simulation Sampling Inputs Main Cli SaveText FloatDrivers FloatMatrix FloatRun DoubleError FloatMain
  Pool PoolMain Program.
From Verif.Spec Require Import TrimSpec Samples MetricSpec DriverSpec DriverSamples SensitivitySpec SimSpec SamplingSpec SamplingSamples InputSpec ArgsSpec
  InputSamples MainSpec MainSamples CliSpec FloatSpec FloatMatrixSpec FloatSamples FloatRunSpec FloatRunSamples DoubleErrorSpec FloatMainSpec FloatMainSamples ProgramSamples
  FloatAgreeSpec FloatWholeSpec FloatWholeSamples.
From Verif.Proofs Require Import PyFacts SaSampleFacts ArgsFacts SamplingTop MainEnd MainCli CliMain FloatRunSampleFacts FloatMainFacts FloatMainEx FloatAgreeEx ProgramEx FloatWholeFacts TrimFacts.
Import ListNotations.
Local Open Scope string_scope.

Lemma of_mapM {A B} (f : A -> res B) l l' : mapM f l = Ok l' -> Forall2 (fun x y => f x = Ok y) l l'.
Proof.
  revert l'. induction l as [|x l IH]; intros l' E; cbn [mapM] in E; [injection E as <-; constructor|].
  destruct (f x) as [y|e|] eqn:F; try discriminate. cbn [bind] in E. destruct (mapM f l) as [ys|e|]; try discriminate.
  injection E as <-. constructor; auto.
Qed.

(** A successful run of the sampler shows what the cases give. *)
Lemma sampler_gives K rates floor C a w sol ref rops : prepared K C a w sol ->
  match sampler_with K rates floor C a w with (Ok x, _) => Some x | _ => None end = Some (ref, rops) ->
  detailed_gives K rates floor C sol ref rops.
Proof.
  intros RD E. unfold sampler_with, mbind in E. rewrite (load_holds _ _ _ _ (rd_file _ _ _ _ _ RD)) in E.
  unfold sampler_of, mbind in E.
  destruct (exec (sample (k_torn K) (k_fuel K) (k_physics K) floor (a_file a) (a_phase a) (a_path a) C) w) as [[x|e|] w2] eqn:X;
    try discriminate.
  unfold mlift in E. destruct (mapM (rates sol) (snd x)) as [rs|e|] eqn:RR; try discriminate.
  unfold mret in E. injection E as <- <-.
  destruct (fresh_done _ _ _ _ _ _ _ _ _ (rd_samples _ _ _ _ _ RD) (rd_shaped _ _ _ _ _ RD) (rd_starts _ _ _ _ _ RD) _ _ _
              (rd_file _ _ _ _ _ RD) (rd_fresh _ _ _ _ _ RD) X) as (xi & xp & xf & ME & -> & _).
  exists xi, xp, xf. split; [exact ME|]. split; [reflexivity|]. now apply of_mapM.
Qed.

Lemma fork_prepared : prepared (eighth_machine "B") (cases_with "A") fork_main fork_world fork.
Proof. destruct (ffork_prepared "DRG") as [H1 H2 H3 H4 H5 H6 H7 H8 H9 H10]. constructor; assumption. Qed.
Lemma fork_prepared_d : prepared (eighth_machine "B") (cases_with "A") (as_doubles fork_main) fork_world fork.
Proof. destruct (ffork_prepared "DRG") as [H1 H2 H3 H4 H5 H6 H7 H8 H9 H10]. constructor; try assumption. Qed.

Lemma fork_posed b c : moderateb (fkin_of fork [b64_of_Z b; b64_of_Z c]) = true ->
  double_posed (eighth_machine "B") (steady_rates [b; c]) None (cases_with "A") (as_doubles fork_main) fork.
Proof. intros H. destruct (ffork_posed b c "DRG" H) as [H1 H2 H3 H4 _]. constructor; try assumption. discriminate. Qed.

Lemma fork_gives b c : match sampler_with (eighth_machine "B") (steady_rates [b; c]) None (cases_with "A") (as_doubles fork_main) fork_world
                       with (Ok x, _) => Some x | _ => None end = Some ([Fin (4 # 8)], fork_sampled b c) ->
  detailed_gives (eighth_machine "B") (steady_rates [b; c]) None (cases_with "A") fork [Fin (4 # 8)] (fork_sampled b c).
Proof. apply sampler_gives. exact fork_prepared_d. Qed.

Lemma fork_sampled_measured b c : FloatRunSpec.measured DRG 2 fork (fork_rates b c) -> FloatRunSpec.measured DRG 2 fork (fork_sampled b c).
Proof. intros H rop I. apply H. left. symmetry. now apply repeat_spec in I. Qed.

Definition fork_JA : job := job_for (eighth_machine "B") None (cases_with "A") fork_analysed.
Definition fork_J : job := job_for (eighth_machine "B") None (cases_with "A") (as_doubles fork_main).

(** Rates that repeat count once. *)
Lemma repeat_matrix b c Mx : In Mx (xmatrices DRG fork (fork_sampled b c)) <-> In Mx (xmatrices DRG fork (fork_rates b c)).
Proof.
  unfold xmatrices, fork_sampled, fork_rates. rewrite !in_map_iff. split; intros (x & E & I); exists x; (split; [exact E|]).
  - apply repeat_spec in I. now left.
  - destruct I as [<-|[]]. now left.
Qed.
Lemma repeat_kept b c J t s : xkept DRG J fork (fork_sampled b c) t s <-> xkept DRG J fork (fork_rates b c) t s.
Proof.
  unfold xkept. split; (intros [H|(Mx & tg & H & H2)]; [now left|right]; exists Mx, tg; split; [apply repeat_matrix; exact H|exact H2]).
Qed.
Lemma repeat_cut b c J t m : cut_to J fork (xkept DRG J fork (fork_rates b c) t) m -> cut_to J fork (xkept DRG J fork (fork_sampled b c) t) m.
Proof. intros (rm & H & E). exists rm. split; [|exact E]. intros s Hs. rewrite repeat_kept. auto. Qed.
Lemma repeat_off b c J n i k : stays_off DRG J fork (fork_rates b c) n i k -> stays_off DRG J fork (fork_sampled b c) n i k.
Proof.
  intros [H1 H2]. split; [exact H1|]. intros v (Mx & x & y & H & E). apply H2. exists Mx, x, y. split; [apply repeat_matrix; exact H|exact E].
Qed.

Lemma quarter_documented :
  documented_at DRG 2 (eighth_machine "B") (steady_rates [25; 9975]%Z) None (cases_with "A") (as_doubles fork_main) toy_limits
    fork [Fin (4 # 8)] (fork_sampled 25 9975) 1 2.
Proof.
  assert (incl (j_targets fork_J) (species_names fork)) as T by (intros x [<-|[]]; now left).
  constructor; fold fork_J.
  - apply fork_gives. vm_compute. reflexivity.
  - apply fork_sampled_measured, fork_measured; vm_compute; reflexivity.
  - unfold starts_f. lia.
  - reflexivity.
  - split; [|split; [lia|split]].
    + intros i Hi. assert (i = 0)%nat as -> by lia.
      eexists _, _. split; [apply repeat_cut, (drops_ok _ _ _ T); vm_compute; reflexivity|]. split; [vm_compute; reflexivity|vm_compute; reflexivity].
    + intros i Hi. assert (i = 1 \/ i = 2)%nat as [-> | ->] by lia;
        (eexists _, _; split; [apply repeat_cut, (drops_ok _ _ _ T); vm_compute; reflexivity|]; split; [vm_compute; reflexivity|vm_compute; reflexivity]).
    + eexists _, _. split; [apply repeat_cut, (drops_ok _ _ _ T); vm_compute; reflexivity|]. split; [vm_compute; reflexivity|vm_compute; reflexivity].
  - intros i Hi. assert (i = 0)%nat as -> by lia. apply repeat_off, apart_ok. vm_compute. reflexivity.
  - intros i Hi. assert (i = 0 \/ i = 1 \/ i = 2)%nat as [-> | [-> | ->]] by lia; apply repeat_off, apart_ok; vm_compute; reflexivity.
  - discriminate.
  - cbn [toy_limits b_thr]. lia.
Qed.

Lemma trace_fails :
  fails_at_all DRG 2 (eighth_machine "B") (steady_rates [1; 9999999]%Z) None (cases_with "A") (as_doubles fork_main) toy_limits
    fork [Fin (4 # 8)] (fork_sampled 1 9999999).
Proof.
  assert (incl (j_targets fork_J) (species_names fork)) as T by (intros x [<-|[]]; now left).
  constructor; fold fork_J.
  - apply fork_gives. vm_compute. reflexivity.
  - apply fork_sampled_measured, fork_measured; vm_compute; reflexivity.
  - intros i Hi. change (i < 3)%nat in Hi. assert (i = 0 \/ i = 1 \/ i = 2)%nat as [-> | [-> | ->]] by lia;
      (split; [apply repeat_off, apart_ok; vm_compute; reflexivity|];
       eexists _, _; split; [apply repeat_cut, (drops_ok _ _ _ T); vm_compute; reflexivity|]; split; [vm_compute; reflexivity|vm_compute; reflexivity]).
  - intros m E. unfold error_of in E. 
    destruct (metrics_of (j_conds fork_J) m) as [ts|e|] eqn:M; [|injection E as ->|discriminate E].
    + change (metrics_of (conds_of 50 (eighths "B") None (cases_with "A")) m = Ok ts) in M.
      apply eighth_metrics in M. destruct M as [-> | ->]; vm_compute in E; discriminate E.
    + revert M. unfold fork_J, job_for, metrics_of, conds_of, cases_with. cbn [graph_job j_conds double_conds ca_ign ca_psr ca_flame map c_ign c_psr c_flame app mapM eighth_machine k_fuel k_physics].
      unfold ign_cond. destruct (setup_gas _ m) as [u|e|] eqn:S; cbn [bind].
      * unfold calculate. cbn [ph_reactor eighths ig_end ig_T].
        destruct (str_in "B" (species_names m)); intros E; vm_compute in E; discriminate E.
      * intros E. injection E as ->. revert S. unfold setup_gas. cbn. destruct (str_in "A" (species_names m)); discriminate.
      * discriminate.
  - discriminate.
  - vm_compute. lia.
Qed.

Lemma fork_parsed : exists I d', parse_inputs (YDict fork_file) fork_world = (Ok (I, d'), fork_world) /\ hands I "out" fork_main (cases_with "A") None /\
  blank (in_sa I) /\ in_method I = YStr (method_name DRG) /\ yaml_name (in_model I) = true.
Proof.
  do 2 eexists. split; [vm_compute; reflexivity|].
  split; [apply hands_iff; repeat split; reflexivity|]. split; [constructor|]. split; reflexivity.
Qed.

Lemma quarter_program :
  (forall n z, In (n, z) [("4", 4%Z); ("0", 0%Z); ("1", 1%Z)] ->
     exists ss, spelled (run_args n) ss /\ asked ss (Reduce "in.yaml" None None "out" z)) /\
  (exists I d', parse_inputs (YDict fork_file) fork_world = (Ok (I, d'), fork_world) /\
     hands I "out" fork_main (cases_with "A") None /\ blank (in_sa I) /\ in_method I = YStr (method_name DRG) /\
     yaml_name (in_model I) = true) /\
  prepared (eighth_machine "B") (cases_with "A") fork_main fork_world fork /\
  forall n, In n ["4"; "0"; "1"] -> exists m w', fork_program 25 9975 (run_args n) fork_world (Ok tt) w' /\
    species_names m = ["A"; "B"; "C"] /\ w_fs w' "out/reduced_3.yaml" = Some (FMech [m]).
Proof.
  assert (forall n z, In (n, z) [("4", 4%Z); ("0", 0%Z); ("1", 1%Z)] ->
     exists ss, spelled (run_args n) ss /\ asked ss (Reduce "in.yaml" None None "out" z)) as AS.
  { intros n z H. apply run_asked. simpl in *. tauto. }
  split; [exact AS|]. split; [exact fork_parsed|]. split; [exact fork_prepared|].
  assert (forall n z, In (n, z) [("4", 4%Z); ("0", 0%Z); ("1", 1%Z)] -> (0 <= z)%Z ->
     exists m w', fork_program 25 9975 (run_args n) fork_world (Ok tt) w' /\
       species_names m = ["A"; "B"; "C"] /\ w_fs w' "out/reduced_3.yaml" = Some (FMech [m])) as G.
  { intros n z H Z. destruct (AS n z H) as (ss & S & A). destruct fork_parsed as (I & d' & P & HA & BL & ME & YN).
    destruct (prog_documented (fun _ => mret (YDict fork_file)) (fun _ _ _ _ => mret tt) (fun _ _ _ => just (mraise TypeError)) 4
                toy_limits (eighth_machine "B") (steady_rates [25; 9975]%Z) (run_args n) ss "in.yaml" None None "out" z fork_world
                fork_file I d' fork_main (cases_with "A") None fork DRG 2 _ _ 1 2 S A ltac:(lia) Z eq_refl P YN HA BL ME fork_prepared
                (fork_posed 25 9975 ltac:(vm_compute; reflexivity)) quarter_documented) as (m & w' & R & _ & CU & F).
    exists m, w'. split; [exact R|].
    assert (species_names m = ["A"; "B"; "C"]) as N.
    { assert (incl (j_targets fork_J) (species_names fork)) as T by (intros x [<-|[]]; now left).
      destruct CU as (rm & H1 & E).
      rewrite (trim_set_only fork rm nil) in E; [|apply fork_prepared|].
      - vm_compute in E. injection E as <-. reflexivity.
      - intros s Hs. split; [|intros []]. intros Hr. exfalso. apply (proj1 (H1 s Hs) Hr). apply repeat_kept, (keeps_ok _ _ _ T).
        destruct Hs as [<-|[<-|[<-|[]]]]; vm_compute; tauto. }
    split; [exact N|]. assert (n_species m = 3)%nat as L by (unfold n_species; apply (f_equal (@length _)) in N; unfold species_names in N; rewrite map_length in N; exact N).
    rewrite L in F. exact F. }
  intros n [<-|[<-|[<-|[]]]]; [apply (G "4" 4%Z)|apply (G "0" 0%Z)|apply (G "1" 1%Z)]; simpl; auto; lia.
Qed.

Lemma quarter_analysed :
  prepared (eighth_machine "B") (cases_with "A") fork_analysed fork_world fork /\
  double_posed (eighth_machine "B") (steady_rates [25; 9975]%Z) None (cases_with "A") fork_analysed fork /\
  temps_ok fork_world "out" toy_limits /\
  documented_at DRG 2 (eighth_machine "B") (steady_rates [25; 9975]%Z) None (cases_with "A") fork_analysed toy_limits
    fork [Fin (4 # 8)] (fork_sampled 25 9975) 1 2 /\
  view (fmain toy_limits (eighth_machine "B") (steady_rates [25; 9975]%Z) None (cases_with "A") fork_analysed fork_world) =
    Ok (["A"; "B"], "reduced_2.yaml", Fin 0, []).
Proof.
  assert (prepared (eighth_machine "B") (cases_with "A") fork_analysed fork_world fork) as RD.
  { destruct (ffork_prepared "DRG") as [H1 H2 H3 H4 H5 H6 H7 H8 H9 H10]. constructor; assumption. }
  split; [exact RD|].
  split. { destruct (ffork_posed 25 9975 "DRG" ltac:(vm_compute; reflexivity)) as [H1 H2 H3 H4 _]. constructor; try assumption. discriminate. }
  split.
  { split; [|split; intros n; reflexivity]. constructor;
      [exists "a"%char; split; [reflexivity|discriminate]|exists "b"%char; split; [reflexivity|discriminate]|..];
      (intros f H; apply prefix_iff in H; destruct H as (r & ->); reflexivity). }
  split; [|vm_compute; reflexivity].
  assert (incl (j_targets fork_JA) (species_names fork)) as T by (intros x [<-|[]]; now left).
  constructor; fold fork_JA.
  - apply (sampler_gives _ _ _ _ fork_analysed fork_world _ _ _ RD). vm_compute. reflexivity.
  - apply fork_sampled_measured, fork_measured; vm_compute; reflexivity.
  - unfold starts_f. lia.
  - reflexivity.
  - split; [|split; [lia|split]].
    + intros i Hi. assert (i = 0)%nat as -> by lia.
      eexists _, _. split; [apply repeat_cut, (drops_ok _ _ _ T); vm_compute; reflexivity|]. split; [vm_compute; reflexivity|vm_compute; reflexivity].
    + intros i Hi. assert (i = 1 \/ i = 2)%nat as [-> | ->] by lia;
        (eexists _, _; split; [apply repeat_cut, (drops_ok _ _ _ T); vm_compute; reflexivity|]; split; [vm_compute; reflexivity|vm_compute; reflexivity]).
    + eexists _, _. split; [apply repeat_cut, (drops_ok _ _ _ T); vm_compute; reflexivity|]. split; [vm_compute; reflexivity|vm_compute; reflexivity].
  - intros i Hi. assert (i = 0)%nat as -> by lia. apply repeat_off, apart_ok. vm_compute. reflexivity.
  - intros i Hi. assert (i = 0 \/ i = 1 \/ i = 2)%nat as [-> | [-> | ->]] by lia; apply repeat_off, apart_ok; vm_compute; reflexivity.
  - discriminate.
  - cbn [toy_limits b_thr]. lia.
Qed.
