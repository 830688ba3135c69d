(** Mixed and blocked directories; examples for the properties of sampling. *)
From Coq Require Import String Ascii List QArith ZArith Bool Arith Lia Permutation.
From Verif.Base Require Import Py Num XNum Paths.
From Verif.Model Require Import Mech World Metrics Drivers Simulation Sampling.
From Verif.Spec Require Import Samples MetricSpec DriverSpec DriverSamples SimSpec SimSamples SamplingSpec SamplingSamples.
From Verif.Proofs Require Import PyFacts MetricFacts SimFacts SimMore ProgFacts SamplingFacts SamplingMore SamplingEnd SamplingWhole SamplingTop.
Import ListNotations.
Local Open Scope string_scope.

Lemma table_arr2 rows : table rows -> text_array (FTable rows) = Ok (Arr2 rows).
Proof.
  intros (L & n & N & W). unfold text_array. destruct rows as [|r [|r' t]]; simpl in L; try lia.
  assert (rect (r :: r' :: t) = true) as ->.
  { simpl. apply andb_true_iff. split.
    - apply Nat.eqb_eq. rewrite !W; simpl; auto.
    - apply forallb_forall. intros x I. apply Nat.eqb_eq. rewrite !W; simpl; auto. }
  simpl. rewrite (W r) by (simpl; auto). destruct n as [|[|n]]; try lia. reflexivity.
Qed.

Lemma no_self_error torn fuel Ph floor model phase path C m w r w' :
  model_apart path C model -> shaped Ph C m -> starts_right Ph C m ->
  holds w model phase m -> fresh w ->
  exec (sample torn fuel Ph floor model phase path C) w = (Ok r, w') ->
  metrics_of (conds_of fuel Ph floor C) m = Ok (fst r) /\
  (fst r <> nil -> (forall x, In x (fst r) -> positive x) ->
   exists e, error_of (conds_of fuel Ph floor C) (fst r) m = Ok (Fin e) /\ (e == 0)%Q).
Proof.
  intros AP SH SR H FR E.
  destruct (fresh_done torn fuel Ph floor model phase path C m AP SH SR w r w' H FR E) as (xi & xp & xf & ME & -> & _).
  pose proof (conds_of_measured fuel Ph floor C m SR xi xp xf ME) as MO. split; [exact MO|].
  intros N P. unfold error_of. rewrite MO. simpl bind. now apply self_error.
Qed.

Lemma trusted torn fuel Ph floor model phase path C m w xi xp xf :
  holds w model phase m ->
  looks_saved (ca_ign C) 1 20 m w data_ignition output_ignition xi ->
  looks_saved (ca_psr C) 3 3 m w data_psr output_psr xp ->
  looks_saved (ca_flame C) 1 20 m w data_flame output_flame xf ->
  exec (sample torn fuel Ph floor model phase path C) w = (Ok (together [xi; xp; xf]), w).
Proof.
  intros H SI SP SF.
  assert (forall A (cs : list A) a pc data output jobs x, (2 <= pc)%nat ->
    looks_saved cs a pc m w data output x -> exec (part_of torn model phase cs data output a pc jobs) w = (Ok x, w)) as K.
  { intros A cs a pc data output jobs x PC L. unfold part_of. destruct cs as [|c t] eqn:EC; [unfold looks_saved in L; subst x; reflexivity|].
    unfold looks_saved in L. rewrite <- EC in L |- *. rewrite (if_any_ne _ _ _ _ EC).
    destruct L as (D & O & L1 & L2 & L3). eapply part_ready; [exact H|].
    exists (FTable (snd x)), (FNums (fst x)). split; [exact D|]. split; [exact O|]. split; [reflexivity|].
    assert (2 <= pc * length cs)%nat as TW by (rewrite EC; simpl; lia).
    split. { apply table_arr2. split; [lia|]. exists (2 + n_species m)%nat. split; [lia|exact L3]. }
    split; [exact L1|]. split; [exact L2|].
    destruct (snd x) as [|r rr]; [simpl in L2; lia|]. exists r, rr. split; [reflexivity|]. apply L3. simpl; auto. }
  rewrite sample_parts, exec_bind. unfold pI. rewrite (K _ _ _ _ _ _ _ xi); [|lia|exact SI].
  rewrite exec_bind. unfold pP. rewrite (K _ _ _ _ _ _ _ xp); [|lia|exact SP].
  rewrite exec_bind. unfold pF. rewrite (K _ _ _ _ _ _ _ xf); [|lia|exact SF].
  unfold pret. cbn [exec]. unfold together. simpl. rewrite !app_nil_r. reflexivity.
Qed.

Section Late.
  Context (torn : xnum -> list xnum) (fuel : nat) (Ph : physics) (floor : option Q)
          (model phase path : string) (cs : list in_ign) (m : mech).
  Let C := mkCases cs nil nil.
  Hypothesis AP : model_apart path C model.
  Hypothesis SH : shaped Ph C m.
  Hypothesis NE : cs <> nil.

  Lemma states_part w v :
    In v (states (sample_part torn model phase data_ignition output_ignition
            (length cs) (length cs) 20 (ign_jobs fuel Ph model phase path cs)) w) ->
    In v (states (sample torn fuel Ph floor model phase path C) w).
  Proof. intros I. unfold C. rewrite sample_ign by exact NE. now apply states_left. Qed.

  Lemma ign_result w r w1 : holds w model phase m ->
    exec (recompute torn data_ignition output_ignition (ign_jobs fuel Ph model phase path cs)) w = (Ok r, w1) ->
    sized m (length cs) (20 * length cs) r.
  Proof.
    intros H E. destruct (ign_jobs_exec fuel Ph model phase path m cs w (proj1 AP) H) as (wj & EJ & _).
    destruct (mapM (ign_pure fuel Ph m) cs) as [xs|e|] eqn:EM; simpl in EJ.
    - destruct (recompute_exec torn data_ignition output_ignition (ign_jobs fuel Ph model phase path cs) ltac:(discriminate) w _ _ EJ) as (w3 & E3 & _).
      rewrite E3 in E. injection E as <- _.
      pose proof (ign_sized fuel Ph C m SH xs EM) as Z. cbn [C ca_ign] in Z. rewrite Nat.mul_1_l in Z. exact Z.
    - rewrite (recompute_fails _ _ _ _ _ _ _ EJ) in E. discriminate.
    - rewrite (recompute_fuel _ _ _ _ _ _ EJ) in E. discriminate.
  Qed.

  Lemma two_rows : (2 <= 20 * length cs)%nat.
  Proof. destruct cs; [congruence|simpl; lia]. Qed.

  Lemma mixes_c w r w1 old ds :
    holds w model phase m ->
    w_fs w output_ignition = Some (FNums old) -> length old = length cs ->
    w_fs w data_ignition = Some (FTable ds) -> table ds ->
    ~ (length ds = (20 * length cs)%nat /\ length (hd nil ds) = (2 + n_species m)%nat) ->
    exec (sample torn fuel Ph floor model phase path C) w = (Ok r, w1) ->
    exists v, In v (states (sample torn fuel Ph floor model phase path C) w) /\
      exec (sample torn fuel Ph floor model phase path C) v = (Ok (old, snd r), v).
  Proof.
    intros H O LO D T N E. unfold C in E. apply sample_ign_eq in E; [|exact NE].
    assert (mismatched cs m w) as MM.
    { exists old, ds. split; [exact O|]. split; [exact D|]. split; [now apply table_arr2|]. tauto. }
    destruct (mismatched_exec torn fuel Ph model phase path cs m w H MM) as (E1 & S1).
    rewrite E1 in E.
    pose proof (ign_result w r w1 H E) as SZ.
    destruct (recompute_states torn fuel Ph model phase path cs m AP w r w1 H E) as (v & _ & I & _ & DV & OV & HV & _).
    rewrite <- S1 in I. exists v. split; [now apply states_part|].
    unfold C. apply sample_ign_eq; [exact NE|]. eapply part_ready; [exact HV|].
    eapply saved_ready.
    - exact two_rows.
    - destruct SZ as [Z1 Z2 Z3]. constructor; simpl; [exact LO|exact Z2|exact Z3].
    - split; simpl; [exact DV|]. rewrite OV. exact O.
  Qed.

  Lemma blocks_c w r w1 :
    holds w model phase m -> fresh w ->
    exec (sample torn fuel Ph floor model phase path C) w = (Ok r, w1) ->
    exists v v', In v (states (sample torn fuel Ph floor model phase path C) w) /\
      In v' (states (sample torn fuel Ph floor model phase path C) v) /\
      exec (sample torn fuel Ph floor model phase path C) v' = (Raise IndexError, v').
  Proof.
    intros H FR E. unfold C in E. apply sample_ign_eq in E; [|exact NE].
    assert (w_fs w output_ignition = None) as NO by (apply FR; unfold sample_files; simpl; tauto).
    destruct (unusable_exec torn model phase data_ignition output_ignition (length cs) (length cs) 20
                (ign_jobs fuel Ph model phase path cs) m w H (or_introl NO)) as (E1 & S1).
    rewrite E1 in E. pose proof (ign_result w r w1 H E) as SZ.
    destruct (recompute_states torn fuel Ph model phase path cs m AP w r w1 H E)
      as (_ & _ & _ & _ & _ & _ & _ & _ & _ & _ & v & I & DV & OV & HV).
    rewrite <- S1 in I. exists v.
    (* the second run finds an empty output file beside the data *)
    assert (mismatched cs m v) as MM.
    { exists nil, (snd r). split; [exact OV|]. split; [exact DV|]. split.
      - destruct SZ as [Z1 Z2 Z3].
        assert (table (snd r)) as TB.
        { split; [rewrite Z2; exact two_rows|]. exists (2 + n_species m)%nat. split; [lia|exact Z3]. }
        now apply table_arr2.
      - simpl. destruct cs; [congruence|]. simpl. lia. }
    destruct (mismatched_exec torn fuel Ph model phase path cs m v HV MM) as (E2 & S2).
    destruct (ign_jobs_exec fuel Ph model phase path m cs w (proj1 AP) H) as (wj & EJ & _).
    destruct (ign_jobs_exec fuel Ph model phase path m cs v (proj1 AP) HV) as (wk & EK & _).
    destruct (mapM (ign_pure fuel Ph m) cs) as [xs|e|] eqn:EM; simpl in EJ, EK.
    2:{ rewrite (recompute_fails _ _ _ _ _ _ _ EJ) in E. discriminate. }
    2:{ rewrite (recompute_fuel _ _ _ _ _ _ EJ) in E. discriminate. }
    destruct (recompute_exec torn data_ignition output_ignition (ign_jobs fuel Ph model phase path cs) ltac:(discriminate) v _ _ EK) as (w3 & E3 & _).
    destruct (recompute_states torn fuel Ph model phase path cs m AP v _ w3 HV E3)
      as (_ & v' & _ & I' & _ & _ & _ & DV' & OV' & HV' & _).
    rewrite <- S2 in I'. exists v'. split; [now apply states_part|]. split; [now apply states_part|].
    unfold C. eapply blocked; eauto. rewrite OV'. exact OV.
  Qed.
End Late.

Lemma mixes torn fuel Ph floor model phase path cs m w r w1 old ds :
  let C := mkCases cs nil nil in
  model_apart path C model -> shaped Ph C m -> cs <> nil -> holds w model phase m ->
  w_fs w output_ignition = Some (FNums old) -> length old = length cs ->
  w_fs w data_ignition = Some (FTable ds) -> table ds ->
  ~ (length ds = (20 * length cs)%nat /\ length (hd nil ds) = (2 + n_species m)%nat) ->
  exec (sample torn fuel Ph floor model phase path C) w = (Ok r, w1) ->
  exists v, In v (states (sample torn fuel Ph floor model phase path C) w) /\
    exec (sample torn fuel Ph floor model phase path C) v = (Ok (old, snd r), v).
Proof. intros C AP SH NE H O LO D T N E. eapply mixes_c; eauto. Qed.

Lemma blocks torn fuel Ph floor model phase path cs m w r w1 :
  let C := mkCases cs nil nil in
  model_apart path C model -> shaped Ph C m -> cs <> nil -> holds w model phase m -> fresh w ->
  exec (sample torn fuel Ph floor model phase path C) w = (Ok r, w1) ->
  exists v v', In v (states (sample torn fuel Ph floor model phase path C) w) /\
    In v' (states (sample torn fuel Ph floor model phase path C) v) /\
    exec (sample torn fuel Ph floor model phase path C) v' = (Raise IndexError, v').
Proof. intros C AP SH NE H FR E. eapply blocks_c; eauto. Qed.

(** ** Examples *)

Lemma apart_example C : (length (ca_ign C) <= 2)%nat -> model_apart "out" C "mech.yaml".
Proof.
  intros L. split.
  - intros (i & K & E). destruct i as [|[|i]]; [discriminate|discriminate|lia].
  - unfold sample_files. simpl. intuition discriminate.
Qed.
Lemma toy_holds : holds toy_world "mech.yaml" "" toy.
Proof. exists [toy]. split; reflexivity. Qed.

Lemma torn_accepted :
  exists torn fuel Ph model phase path C m w r w1 v r',
    model_apart path C model /\ shaped Ph C m /\ starts_right Ph C m /\ holds w model phase m /\ fresh w /\
    exec (sample torn fuel Ph None model phase path C) w = (Ok r, w1) /\
    In v (states (sample torn fuel Ph None model phase path C) w) /\
    exec (sample torn fuel Ph None model phase path C) v = (Ok r', v) /\
    fst r = [Fin (3 # 10); Fin (3 # 10)] /\ fst r' = [Fin (3 # 10); Fin (300 # 10)].
Proof.
  exists cut_exponent, 50%nat, full_physics, "mech.yaml", "", "out", ign_cases, toy, toy_world.
  pose (s := sample cut_exponent 50 full_physics None "mech.yaml" "" "out" ign_cases).
  pose (n := (length (states s toy_world) - 2)%nat).
  assert (exists r w1, exec s toy_world = (Ok r, w1) /\ fst r = [Fin (3 # 10); Fin (3 # 10)]) as (r & w1 & E & F).
  { eexists. eexists. split; [vm_compute; reflexivity|reflexivity]. }
  assert (n < length (states s toy_world))%nat as L by (vm_compute; lia).
  pose (v := nth n (states s toy_world) toy_world).
  assert (In v (states s toy_world)) as I by (apply nth_In; exact L).
  assert (exists r', exec s v = (Ok r', v) /\ fst r' = [Fin (3 # 10); Fin (300 # 10)]) as (r' & E' & F').
  { vm_compute. eexists. split; reflexivity. }
  exists r, w1, v, r'. split; [apply apart_example; simpl; lia|]. split; [apply full_shaped|]. split; [apply full_starts|].
  split; [apply toy_holds|]. split; [apply toy_fresh|]. auto.
Qed.

Lemma recover_all v :
  let s := sample whole 50 full_physics None "mech.yaml" "" "out" full_cases in
  In v (states s toy_world) -> fst (exec s v) = fst (exec s toy_world).
Proof.
  intros s I. destruct (exec s toy_world) as [[r|e|] w1] eqn:E.
  - destruct (crash_rerun whole 50 full_physics None "mech.yaml" "" "out" full_cases toy
      (apart_example full_cases ltac:(simpl; lia)) (full_shaped _ _) (full_starts _ _) toy_world r w1 v toy_holds toy_fresh E I)
      as [(w2 & E2)|(xi & xp & xf & _ & _ & [(_ & D)|[(_ & D)|(_ & D)]])]; [fold s in E2; rewrite E2; reflexivity| | |];
      destruct D as (l & x & y & _ & [] & _).
  - vm_compute in E. discriminate.
  - vm_compute in E. discriminate.
Qed.

(** Two workers taking turns. *)
Definition nth_step {A} (p : prog A) (w : world) : prog A * world :=
  match p with Ret r => (Ret r, w) | Get f k => (k (w_fs w f), w) | Put f c q => (q, set_file f c w) end.

Lemma turn_first {A} (p q : prog A) w s : steps ([fst (nth_step p w); q], snd (nth_step p w)) s -> steps ([p; q], w) s.
Proof.
  destruct p as [r|f k|f c p]; simpl; intros H; auto.
  - eapply steps_more; [apply (step_get nil [q])|exact H].
  - eapply steps_more; [apply (step_put nil [q])|exact H].
Qed.
Lemma turn_second {A} (p q : prog A) w s : steps ([p; fst (nth_step q w)], snd (nth_step q w)) s -> steps ([p; q], w) s.
Proof.
  destruct q as [r|f k|f c q]; simpl; intros H; auto.
  - eapply steps_more; [apply (step_get [p] nil)|exact H].
  - eapply steps_more; [apply (step_put [p] nil)|exact H].
Qed.
Fixpoint turns {A} (n : nat) (p q : prog A) (w : world) : prog A * prog A * world :=
  match n with
  | O => (p, q, w)
  | S n => let (p', w1) := nth_step p w in let (q', w2) := nth_step q w1 in turns n p' q' w2
  end.
Lemma turns_steps {A} n (p q p' q' : prog A) w w' : turns n p q w = (p', q', w') -> steps ([p; q], w) ([p'; q'], w').
Proof.
  revert p q w. induction n as [|n IH]; simpl; intros p q w E.
  - injection E as -> -> ->. apply steps_refl.
  - apply turn_first. destruct (nth_step p w) as [p1 w1]. simpl. apply turn_second. destruct (nth_step q w1) as [q1 w2]. simpl. auto.
Qed.

Lemma two_workers_in_turns :
  exists rs w', steps (map (ign_sample_worker 50 full_physics "mech.yaml" "" "out") (jobs_of two_ign), toy_world) (map Ret rs, w') /\
    map (fun r => match r with Ok x => fst x | _ => nil end) rs = [[Fin (3 # 10)]; [Fin (3 # 10)]] /\
    w_fs w' "out/0.h5" = None /\ w_fs w' "out/1.h5" = None.
Proof.
  pose (jobs := map (ign_sample_worker 50 full_physics "mech.yaml" "" "out") (jobs_of two_ign)).
  assert (exists a b w', turns 6 (nth 0 jobs (Ret NoFuel)) (nth 1 jobs (Ret NoFuel)) toy_world = (Ret a, Ret b, w') /\
    map (fun r : res case_result => match r with Ok x => fst x | _ => nil end) [a; b] = [[Fin (3 # 10)]; [Fin (3 # 10)]] /\
    w_fs w' "out/0.h5" = None /\ w_fs w' "out/1.h5" = None) as (a & b & w' & T & M & X & Y).
  { eexists. eexists. eexists. split; [vm_compute; reflexivity|]. split; [reflexivity|]. split; reflexivity. }
  exists [a; b], w'. split; [|auto]. apply (turns_steps 6). exact T.
Qed.
