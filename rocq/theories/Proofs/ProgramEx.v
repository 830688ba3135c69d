(** The sample run of Spec/ProgramSamples.v. *)
From Coq Require Import String List QArith ZArith Bool Arith Lia.
From Verif.Base Require Import Py Num XNum Paths B64.
From Verif.Model Require Import Mech World Metrics Drivers Sensitivity Simulation Sampling Inputs Main Cli SaveText FloatDrivers FloatRun DoubleError FloatMain
  Pool PoolMain Program.
From Verif.Spec Require Import TrimSpec Samples MetricSpec DriverSpec DriverSamples SensitivitySpec SimSpec SamplingSpec SamplingSamples InputSpec ArgsSpec
  InputSamples MainSpec MainSamples CliSpec FloatSpec DoubleErrorSpec FloatMainSpec FloatMainSamples ProgramSpec ProgramSamples.
From Verif.Proofs Require Import FloatRunFacts ArgsFacts MainCli CliMain FloatMainFacts FloatMainEx PoolMainFacts ProgramFacts.
Import ListNotations.
Local Open Scope string_scope.

Lemma run_asked n z : In (n, z) [("4", 4%Z); ("0", 0%Z); ("1", 1%Z); ("-2", (-2)%Z)] ->
  exists ss, spelled (run_args n) ss /\ asked ss (Reduce "in.yaml" None None "out" z).
Proof. intros H. apply command_goes. repeat (destruct H as [H|H]; [injection H as <- <-; vm_compute; reflexivity|]). destruct H. Qed.

Lemma run_parsed : exists I d', parse_inputs (YDict run_file) toy_world = (Ok (I, d'), toy_world) /\ main_args I "out" = Some run_main_in /\
  typed_cases I = Some (cases_with "N2") /\ ymaybe (in_floor I) = Some None /\ used I "N2" /\ yaml_name (in_model I) = true /\ in_model I = "mech.yaml".
Proof.
  do 2 eexists. split; [vm_compute; reflexivity|]. split; [reflexivity|]. split; [reflexivity|]. split; [reflexivity|].
  split; [|split; reflexivity]. eexists. split; [left; reflexivity|]. do 2 eexists. split; [right; right; reflexivity|left; reflexivity].
Qed.

Lemma run_prepared : prepared (eighth_machine "HO2") (cases_with "N2") run_main_in toy_world toy.
Proof. destruct (ftoy_prepared "DRGEP" ["N2"] true None) as [H1 H2 H3 H4 H5 H6 H7 H8 H9 H10]. constructor; assumption. Qed.

Lemma run_posed : double_posed (eighth_machine "HO2") (steady_rates [2; 0; 3; (-2); 4]%Z) None (cases_with "N2") (as_doubles run_main_in) toy.
Proof.
  destruct (ftoy_posed "DRGEP" ["N2"] true None (or_introl eq_refl)) as [H1 H2 H3 H4 _]. constructor; try assumption.
  intros u E. exists (b64_of_Q false (1 # 10)). injection E as <-. split; [vm_compute; reflexivity|reflexivity].
Qed.

Lemma run_doubles_posed : double_posed (eighth_machine "HO2") (steady_rates [2; 0; 3; (-2); 4]%Z) None (cases_with "N2") run_doubles toy.
Proof.
  destruct (ftoy_posed "DRGEP" ["N2"] true None (or_introl eq_refl)) as [H1 H2 H3 H4 _]. constructor; try assumption.
  intros u E. exists (b64_of_Q false (1 # 10)). injection E as <-. split; vm_compute; reflexivity.
Qed.
Lemma run_in_doubles : in_doubles run_main_in run_doubles.
Proof.
  constructor; try reflexivity; cbn.
  - discriminate.
  - intros u E (d & F & V). injection E as <-. exfalso. pose proof (of_Q_val _ d F V) as [_ X]. vm_compute in X. discriminate.
  - intros _. eexists. split; reflexivity.
Qed.

Lemma run_apart : model_apart "out" (cases_with "N2") "mech.yaml".
Proof. exact (rd_samples _ _ _ _ _ run_prepared). Qed.

Lemma run_one : exists w', run_program (run_args "1") toy_world (Ok tt) w' /\
  look w' ["mech.yaml"; "out/reduced_3.yaml"; "out/reduced_2.yaml"; "out/0.h5"] = [Some 6%nat; Some 3%nat; None; None].
Proof.
  destruct run_parsed as (I & d' & P & MA & TC & FL & _ & YN & _).
  destruct (run_asked "1" 1) as (ss & S & A); [do 2 right; now left|].
  destruct (fmain toy_limits (eighth_machine "HO2") (steady_rates [2; 0; 3; (-2); 4]%Z) None (cases_with "N2") (as_doubles run_main_in) toy_world)
    as (r & w') eqn:E.
  assert ((match r with Ok x => true | _ => false end, look w' ["mech.yaml"; "out/reduced_3.yaml"; "out/reduced_2.yaml"; "out/0.h5"])
          = (true, [Some 6%nat; Some 3%nat; None; None])) as F.
  { pose proof (f_equal fst E) as E1. pose proof (f_equal snd E) as E2. cbn [fst snd] in E1, E2. rewrite <- E1, <- E2. vm_compute. reflexivity. }
  destruct r as [r| |]; try discriminate F. exists w'. split; [|exact (f_equal snd F)].
  unfold run_program. eapply reduce_prog; [exact S|exact A|reflexivity|exact P|].
  rewrite YN. unfold call_main. rewrite MA, TC, FL. apply et_ok with (a := r) (w1 := w'); [|reflexivity].
  apply main_any; [lia|lia|exact run_apart|exact E].
Qed.

Lemma run_holds :
  (forall n z, In (n, z) [("4", 4%Z); ("0", 0%Z); ("1", 1%Z)] ->
     exists ss, spelled (run_args n) ss /\ asked ss (Reduce "in.yaml" None None "out" z)) /\
  inputb run_file = true /\
  (exists I d', parse_inputs (YDict run_file) toy_world = (Ok (I, d'), toy_world) /\ hands I "out" run_main_in (cases_with "N2") None /\
     used I "N2") /\
  prepared (eighth_machine "HO2") (cases_with "N2") run_main_in toy_world toy /\
  double_posed (eighth_machine "HO2") (steady_rates [2; 0; 3; (-2); 4]%Z) None (cases_with "N2") run_doubles toy /\
  in_doubles run_main_in run_doubles /\ temps_ok toy_world "out" toy_limits /\ limbo_harmless DRGEP run_doubles toy_world /\
  model_apart "out" (cases_with "N2") "mech.yaml" /\
  forall n, In n ["4"; "0"; "1"] -> exists w', run_program (run_args n) toy_world (Ok tt) w' /\
    look w' ["mech.yaml"; "out/reduced_3.yaml"; "out/reduced_2.yaml"; "out/0.h5"] = [Some 6%nat; Some 3%nat; None; None].
Proof.
  split. { intros n z H. apply run_asked. simpl in *. tauto. }
  split; [reflexivity|].
  split. { destruct run_parsed as (I & d' & P & MA & TC & FL & U & _). exists I, d'. split; [exact P|]. split; [apply hands_iff; auto|exact U]. }
  split; [exact run_prepared|]. split; [exact run_doubles_posed|]. split; [exact run_in_doubles|]. split; [exact toy_temps|].
  split. { split; [reflexivity|]. intros u E. injection E as <-. vm_compute. discriminate. }
  split; [exact run_apart|].
  assert (forall n z, In (n, z) [("4", 4%Z); ("0", 0%Z); ("1", 1%Z); ("-2", (-2)%Z)] -> (0 <= z)%Z -> exists w', run_program (run_args n) toy_world (Ok tt) w' /\
    look w' ["mech.yaml"; "out/reduced_3.yaml"; "out/reduced_2.yaml"; "out/0.h5"] = [Some 6%nat; Some 3%nat; None; None]) as G.
  { intros n z H Z. destruct run_one as (w' & R & L). exists w'. split; [|exact L].
    destruct run_parsed as (I & d' & P & MA & TC & FL & _ & YN & IM).
    destruct (run_asked "1" 1) as (ss & S & A); [do 2 right; now left|]. destruct (run_asked n z H) as (ss' & S' & A').
    unfold run_program in *. eapply prog_any with (n := 1%Z) (n' := z); [exact S|exact A|exact S'|exact A'|lia|lia|exact Z|reflexivity|exact P|apply hands_iff; eauto| |exact R].
    rewrite IM. exact run_apart. }
  intros n [<-|[<-|[<-|[]]]]; [apply (G "4" 4%Z)|apply (G "0" 0%Z)|apply (G "1" 1%Z)]; simpl; auto; lia.
Qed.

Lemma run_refused : (exists ss, spelled (run_args "-2") ss /\ asked ss (Reduce "in.yaml" None None "out" (-2))) /\
  run_program (run_args "-2") toy_world (Raise ValueError) toy_world.
Proof.
  split; [apply run_asked; simpl; auto|].
  destruct run_parsed as (I & d' & P & MA & TC & FL & _ & YN & _).
  destruct (run_asked "-2" (-2)) as (ss & S & A); [simpl; auto|].
  unfold run_program. eapply reduce_prog; [exact S|exact A|reflexivity|exact P|].
  rewrite YN. unfold call_main. rewrite MA, TC, FL.
  apply et_raise. apply et_raise. apply et_raise. eapply et_ok; [reflexivity|]. apply et_raise. eapply et_ok; [reflexivity|].
  apply et_raise. apply et_raise. eapply et_ok; [reflexivity|]. apply et_raise. apply et_raise. apply rw_refused. reflexivity.
Qed.
