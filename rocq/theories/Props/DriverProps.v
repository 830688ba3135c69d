(** Properties of the three drivers (C16, C18–C23, C29, C40, C49), with exact
    threshold arithmetic unless said otherwise. *)
From Coq Require Import String List QArith Bool Arith Lia.
From Verif.Base Require Import Py Num XNum Paths.
From Verif.Model Require Import Mech Matrices Graph World Metrics Drivers.
From Verif.Spec Require Import TrimSpec Samples GraphSpec MetricSpec DriverSpec DriverSamples.
From Verif.Proofs Require Import RunFacts DriverFacts DriverSampleFacts.
Import ListNotations.
Local Open Scope string_scope.

(** The hypotheses [started] and [fair] are met by a concrete job, which the
    drivers complete. *)
Example toy_runs :
  let J := toy_job ["N2"] (Fin 3) in
  started J toy_sampler toy_world toy [Fin 2] toy_rops toy_world /\
  fair J toy [Fin 2] (Fin 10) /\
  map (fun me => view (run me exactA (floor_of me) 400 60 J toy_sampler (Fin 10) toy_world)) [DRG; DRGEP] =
  [Ok (["H"; "O2"; "HO2"; "N2"], "out/reduced_4.yaml", Fin (0 # 2), []);
   Ok (["H"; "O2"; "HO2"; "H2"; "N2"], "out/reduced_5.yaml", Fin (0 # 2), [])].
Proof.
  split; [apply toy_started|]. split; [now apply toy_fair|]. vm_compute. reflexivity.
Qed.

(** C16: a returned model evaluates to the reported error, within the limit. *)
Theorem returned_model_within_limit :
  forall me J smp w sol sampled rops w1 limit fuel dfuel r w',
    started J smp w sol sampled rops w1 -> fair J sol sampled limit ->
    run me exactA (floor_of me) fuel dfuel J smp limit w = (Ok r, w') ->
    xle (r_error r) limit = true /\ error_of (j_conds J) sampled (r_model r) = Ok (r_error r).
Proof.
  intros * ST FA E. split; [eapply driver_within; eauto|eapply (driver_file _ _ _ _ _ _ _ _ _ ST exactA); eauto].
Qed.
Print Assumptions returned_model_within_limit.

(** C16 with C28: so each metric of the returned model is within the limit in
    percent of its reference. *)
Theorem returned_model_metrics_close :
  forall me J smp w sol sampled rops w1 l fuel dfuel r w' ts,
    started J smp w sol sampled rops w1 -> fair J sol sampled (Fin l) -> l < 100 -> exact_errors (j_conds J) ->
    (forall o, In o sampled -> positive o) ->
    run me exactA (floor_of me) fuel dfuel J smp (Fin l) w = (Ok r, w') ->
    metrics_of (j_conds J) (r_model r) = Ok ts -> length sampled = length ts ->
    forall o t, In (o, t) (combine sampled ts) -> usable t /\ within l o t.
Proof. intros. eapply driver_metrics; eauto. Qed.
Print Assumptions returned_model_metrics_close.

(** C16: what is returned is the model of the last threshold before the first
    one that exceeds the limit, counting from the first starting threshold
    that works. *)
Theorem returned_model_is_last_acceptable :
  forall me J smp w sol sampled rops w1 limit fuel dfuel r w',
    started J smp w sol sampled rops w1 -> fair J sol sampled limit ->
    run me exactA (floor_of me) fuel dfuel J smp limit w = (Ok r, w') ->
    exists j n, scanned J sol sampled limit (kept me J sol rops) j n /\
      cut_to J sol (kept me J sol rops (times n (start_at j))) (r_model r).
Proof. intros. eapply driver_scan; eauto. Qed.
Print Assumptions returned_model_is_last_acceptable.

(** ... and conversely the driver does return in that situation. *)
Theorem driver_returns_last_acceptable :
  forall me J smp w sol sampled rops w1 limit fuel dfuel j n,
    started J smp w sol sampled rops w1 -> fair J sol sampled limit ->
    rops <> nil -> search_ends me dfuel J sol rops ->
    (j < starts me)%nat -> scanned J sol sampled limit (kept me J sol rops) j n -> (j + n + 1 <= fuel)%nat ->
    exists r w', run me exactA (floor_of me) fuel dfuel J smp limit w = (Ok r, w') /\
      cut_to J sol (kept me J sol rops (times n (start_at j))) (r_model r).
Proof. intros. eapply driver_returns; eauto. Qed.
Print Assumptions driver_returns_last_acceptable.

(** C40: no driver loses a target or a safe species — DRGEP neither, although
    its step does so above threshold 1. *)
Theorem returned_model_has_targets_and_safe :
  forall me J smp w sol sampled rops w1 limit fuel dfuel r w',
    started J smp w sol sampled rops w1 -> fair J sol sampled limit -> rops <> nil ->
    run me exactA (floor_of me) fuel dfuel J smp limit w = (Ok r, w') ->
    incl (j_targets J) (species_names (r_model r)) /\
    (forall s, In s (j_safe J) -> In s (species_names sol) -> In s (species_names (r_model r))).
Proof. intros. eapply driver_keeps; eauto. Qed.
Print Assumptions returned_model_has_targets_and_safe.

(** C18: a driver gives up exactly if the models of all starting thresholds
    exceed the limit: 1/100, 1/1000, 1/10000 and, for DRGEP, 1/100000. *)
Theorem gives_up_iff_all_starts_fail :
  forall me J smp w sol sampled rops w1 limit fuel dfuel,
    started J smp w sol sampled rops w1 -> fair J sol sampled limit ->
    (forall m, error_of (j_conds J) sampled m <> Raise SystemExit) ->
    rops <> nil -> search_ends me dfuel J sol rops -> (starts me <= fuel)%nat ->
    (fst (run me exactA (floor_of me) fuel dfuel J smp limit w) = Raise SystemExit <->
     forall i, (i < starts me)%nat -> exceeds J sol sampled limit (kept me J sol rops (start_at i))).
Proof.
  intros * ST FA NX NE SE Lf. apply (driver_exit me J smp w sol sampled rops w1 limit ST FA); auto.
  destruct me; simpl; auto.
Qed.
Print Assumptions gives_up_iff_all_starts_fail.

Example gives_up_iff_all_starts_fail_case :
  map (fun me => view (run me exactA (floor_of me) 4 60
        (mkJob "mech.yaml" "" "out" ["O2"] nil (mkConds [needs "AR" (Fin 3)] nil nil) None)
        toy_sampler (Fin 10) toy_world)) [DRG; PFA; DRGEP] =
  [Raise SystemExit; Raise SystemExit; Raise SystemExit].
Proof. vm_compute. reflexivity. Qed.

(** C19: a driver ends if the model of the targets and safe species (DRGEP: of
    the safe species) exceeds the limit, or there are none. *)
Theorem driver_ends :
  forall me J smp w sol sampled rops w1 limit,
    started J smp w sol sampled rops w1 -> fair J sol sampled limit -> rops <> nil ->
    (forall m, error_of (j_conds J) sampled m <> NoFuel) ->
    (exceeds J sol sampled limit (core me J) \/ (forall s, In s (species_names sol) -> ~ core me J s)) ->
    exists N, forall fuel dfuel, (N <= fuel)%nat -> (N <= dfuel)%nat ->
      fst (run me exactA (floor_of me) fuel dfuel J smp limit w) <> NoFuel.
Proof. intros. eapply driver_terminates_core; eauto. Qed.
Print Assumptions driver_ends.

Example driver_ends_case :
  let J := toy_job ["N2"] (Fin 3) in
  exceeds J toy [Fin 2] (Fin 10) (core DRG J).
Proof.
  eexists. exists (Fin (100 # 2)). split; [|split].
  - exists ["H"; "HO2"; "AR"; "H2"]. split; [|reflexivity].
    intros s Hs. unfold core. simpl in *. intuition (subst; try discriminate; intuition discriminate).
  - vm_compute. reflexivity.
  - vm_compute. reflexivity.
Qed.

(** C19: a driver never returns if all models along the way stay within the
    limit. *)
Theorem driver_never_returns :
  forall me J smp w sol sampled rops w1 limit fuel dfuel,
    started J smp w sol sampled rops w1 -> fair J sol sampled limit ->
    rops <> nil -> search_ends me dfuel J sol rops ->
    (forall n, (1 <= n)%nat -> passes J sol sampled limit (kept me J sol rops (times n (1 # 100)))) ->
    fst (run me exactA (floor_of me) fuel dfuel J smp limit w) = NoFuel.
Proof. intros. eapply driver_forever; eauto. Qed.
Print Assumptions driver_never_returns.

(** The hypothesis of [driver_never_returns] holds for every model if the
    metrics do not depend on it. *)
Example driver_never_returns_case :
  let J := mkJob "mech.yaml" "" "out" ["O2"] ["N2"] (mkConds [fun _ => Ok [Fin 2]] nil nil) None in
  forall fuel, fst (run DRG exactA (floor_of DRG) fuel 0 J toy_sampler (Fin 10) toy_world) = NoFuel.
Proof.
  intros J fuel. eapply driver_forever with (sol := toy) (sampled := [Fin 2]) (rops := toy_rops) (w1 := toy_world).
  - destruct (toy_started ["N2"] (Fin 3)). constructor; auto.
  - constructor.
    + intros c m m' [<- | []] _. reflexivity.
    + reflexivity.
    + exists (Fin (0 # 2)). split; reflexivity.
  - discriminate.
  - discriminate.
  - intros n _. apply always_passes.
    + apply (st_wf _ _ _ _ _ _ _ (toy_started ["N2"] (Fin 3))).
    + apply (st_job _ _ _ _ _ _ _ (toy_started ["N2"] (Fin 3))).
    + discriminate.
    + intros m. exists (Fin (0 # 2)). split; reflexivity.
    + exists "N2". split; [simpl; tauto|]. left. simpl. auto.
Qed.

(** C20: the returned file is <path>/reduced_<n>.yaml with n the number of
    species, and loading it gives the returned model.  Any arithmetic. *)
Theorem returned_file_holds_model :
  forall me A floor J smp w sol sampled rops w1 limit fuel dfuel r w',
    started J smp w sol sampled rops w1 ->
    run me A floor fuel dfuel J smp limit w = (Ok r, w') ->
    r_file r = out_file J (n_species (r_model r)) /\
    w_fs w' (r_file r) = Some (FMech [r_model r]) /\
    holds w' (r_file r) (j_phase J) (r_model r).
Proof.
  intros * ST E. destruct (driver_file _ _ _ _ _ _ _ _ _ ST A _ _ _ _ _ E) as (H1 & H2 & H3 & _). auto.
Qed.
Print Assumptions returned_file_holds_model.

(** C20: whatever happens after sampling, only <path>/reduced_<k>.yaml files
    change. *)
Theorem only_reduced_files_change :
  forall me A floor J smp w sol sampled rops w1 limit fuel dfuel g,
    started J smp w sol sampled rops w1 -> (forall n, g <> out_file J n) ->
    w_fs (snd (run me A floor fuel dfuel J smp limit w)) g = w_fs w1 g.
Proof. intros. eapply driver_frame; eauto. Qed.
Print Assumptions only_reduced_files_change.

(** C20, C21: in this run the result is in reduced_4.yaml, the input is intact,
    and reduced_2.yaml is left over from the rejected first attempt. *)
Theorem rejected_first_attempt_left_behind :
  exists J smp w sol sampled rops,
    started J smp w sol sampled rops w /\ fair J sol sampled (Fin 10) /\
    forall me, exists w' r,
      run me exactA (floor_of me) 20 60 J smp (Fin 10) w = (Ok r, w') /\ r_file r = "reduced_4.yaml" /\
      look w ["mech.yaml"; "reduced_2.yaml"; "reduced_3.yaml"; "reduced_4.yaml"] = [Some 4; None; None; None]%nat /\
      look w' ["mech.yaml"; "reduced_2.yaml"; "reduced_3.yaml"; "reduced_4.yaml"] = [Some 4; Some 2; None; Some 4]%nat.
Proof.
  exists (fan_job "mech.yaml"), fan_sampler, (fan_world "mech.yaml"), fan, [Fin 2], fan_rops.
  split; [apply fan_started; intros n; unfold path_join; simpl; discriminate|].
  split; [now apply fan_fair|]. intros me.
  destruct me; do 2 eexists; (split; [vm_compute; reflexivity|]); repeat split; vm_compute; reflexivity.
Qed.
Print Assumptions rejected_first_attempt_left_behind.

(** C21: an input called reduced_3.yaml is overwritten and deleted; one called
    reduced_2.yaml is replaced by a model with 2 species. *)
Theorem input_named_like_output_lost :
  forall me,
    let x := run me exactA (floor_of me) 20 60 (fan_job "reduced_3.yaml") fan_sampler (Fin 10) (fan_world "reduced_3.yaml") in
    let y := run me exactA (floor_of me) 20 60 (fan_job "reduced_2.yaml") fan_sampler (Fin 10) (fan_world "reduced_2.yaml") in
    look (fan_world "reduced_3.yaml") ["reduced_3.yaml"] = [Some 4%nat] /\
    fst x = Raise CanteraError /\ look (snd x) ["reduced_3.yaml"] = [None] /\
    fst y = Raise SystemExit /\ look (snd y) ["reduced_2.yaml"] = [Some 2%nat].
Proof. intros [ | | ]; vm_compute; auto. Qed.
Print Assumptions input_named_like_output_lost.

(** C22: DRG returns as limbo what is reachable at the upper threshold; PFA
    returns none.  Any arithmetic. *)
Theorem limbo_of_driver :
  forall me A floor J smp w sol sampled rops w1 limit fuel dfuel r w',
    started J smp w sol sampled rops w1 ->
    run me A floor fuel dfuel J smp limit w = (Ok r, w') ->
    limbo_spec me J sol rops (r_limbo r).
Proof. intros. eapply driver_limbo; eauto. Qed.
Print Assumptions limbo_of_driver.

(** C23: the limbo list of a DRGEP result consists of whatever the process-wide
    list held before, followed by the non-safe species of the model that are
    less important than the upper threshold. *)
Theorem drgep_limbo_extends_shared_list :
  forall A floor J smp w sol sampled rops w1 limit fuel dfuel r w',
    started J smp w sol sampled rops w1 ->
    run DRGEP A floor fuel dfuel J smp limit w = (Ok r, w') ->
    exists l, limbo_of w' r = (w_shared w1 ++ l)%list /\ w_shared w' = (w_shared w1 ++ l)%list /\
      drgep_limbo J sol rops (r_model r) l.
Proof.
  intros * ST E. destruct (driver_limbo _ _ _ _ _ _ _ _ _ ST _ _ _ _ _ _ E) as (L & _ & D).
  destruct (D eq_refl) as (l & S & H). exists l. simpl in L. unfold limbo_of. rewrite L. auto.
Qed.
Print Assumptions drgep_limbo_extends_shared_list.

(** C23: hence a second call in the same process also reports the species of
    the first, whatever the two models are. *)
Theorem second_drgep_call_reports_first :
  forall A floor J1 smp1 w sol1 sampled1 rops1 w1 limit1 fuel1 dfuel1 r1 w2
         J2 smp2 sol2 sampled2 rops2 w3 limit2 fuel2 dfuel2 r2 w4,
    started J1 smp1 w sol1 sampled1 rops1 w1 ->
    run DRGEP A floor fuel1 dfuel1 J1 smp1 limit1 w = (Ok r1, w2) ->
    started J2 smp2 w2 sol2 sampled2 rops2 w3 -> w_shared w3 = w_shared w2 ->
    run DRGEP A floor fuel2 dfuel2 J2 smp2 limit2 w2 = (Ok r2, w4) ->
    exists l, limbo_of w4 r2 = (limbo_of w2 r1 ++ l)%list /\ drgep_limbo J2 sol2 rops2 (r_model r2) l.
Proof.
  intros * S1 E1 S2 Eq E2.
  destruct (drgep_limbo_extends_shared_list _ _ _ _ _ _ _ _ _ _ _ _ _ _ S1 E1) as (l1 & A1 & B1 & _).
  destruct (drgep_limbo_extends_shared_list _ _ _ _ _ _ _ _ _ _ _ _ _ _ S2 E2) as (l2 & A2 & _ & D2).
  exists l2. rewrite A2, Eq, B1, <- A1. auto.
Qed.
Print Assumptions second_drgep_call_reports_first.

(** C23: a concrete pair of calls; the second reports species of the first
    model that its own model does not even have. *)
Example second_drgep_call_reports_first_case :
  let x := run DRGEP exactA floor6 400 60 (with_upper (1 # 2) (toy_job ["N2"] (Fin 3))) toy_sampler (Fin 10) toy_world in
  let J2 := mkJob "fan.yaml" "" "" ["A"] nil (mkConds [needs "B" (Fin 3)] nil nil) (Some (999 # 1000)) in
  let w2 := mkWorld (fs_set "fan.yaml" (Some (FMech [fan])) (w_fs (snd x))) (w_shared (snd x)) in
  let y := run DRGEP exactA floor6 400 60 J2 fan_sampler (Fin 10) w2 in
  view x = Ok (["H"; "O2"; "HO2"; "H2"; "N2"], "out/reduced_5.yaml", Fin (0 # 2), ["H"; "HO2"; "H2"]) /\
  view y = Ok (["A"; "B"], "reduced_2.yaml", Fin (0 # 2), ["H"; "HO2"; "H2"; "B"]).
Proof. split; vm_compute; reflexivity. Qed.

(** C29: if the first unacceptable model on the way has error NaN, the driver
    ends with AttributeError instead of a model, and the file of that model is
    gone. *)
Theorem nan_error_crashes_driver :
  forall me J smp w sol sampled rops w1 l fuel dfuel j n mm,
    started J smp w sol sampled rops w1 -> fair J sol sampled (Fin l) ->
    rops <> nil -> search_ends me dfuel J sol rops -> (j < starts me)%nat ->
    (forall i, (i < j)%nat -> exceeds J sol sampled (Fin l) (kept me J sol rops (start_at i))) ->
    (forall i, (1 <= i <= n)%nat -> passes J sol sampled (Fin l) (kept me J sol rops (times i (start_at j)))) ->
    cut_to J sol (kept me J sol rops (times (S n) (start_at j))) mm ->
    error_of (j_conds J) sampled mm = Ok NaN -> (j + n + 1 <= fuel)%nat ->
    exists w', run me exactA (floor_of me) fuel dfuel J smp (Fin l) w = (Raise AttributeError, w') /\
      w_fs w' (out_file J (n_species mm)) = None.
Proof. intros. eapply driver_nan with (j := j) (n := n); eauto. Qed.
Print Assumptions nan_error_crashes_driver.

Example nan_error_crashes_driver_case :
  map (fun me => view (run me exactA (floor_of me) 400 60 (toy_job nil NaN) toy_sampler (Fin 10) toy_world))
      [DRG; PFA; DRGEP] = [Raise AttributeError; Raise AttributeError; Raise AttributeError].
Proof. vm_compute. reflexivity. Qed.

(** C49: with a limit that 0 does not meet, PFA and DRGEP fail with an unbound
    variable; DRG does so for NaN, and for a negative limit returns the model
    of threshold -1/100 with whatever error it has. *)
Theorem negative_limit :
  forall me J smp w sol sampled rops w1 limit fuel dfuel,
    started J smp w sol sampled rops w1 -> search_ends me dfuel J sol rops -> xle (Fin 0) limit = false ->
    (me <> DRG \/ xgt (Fin 0) limit = false ->
       run me exactA (floor_of me) fuel dfuel J smp limit w = (Raise UnboundLocalError, w1)) /\
    (me = DRG -> xgt (Fin 0) limit = true -> forall m e,
       cut_to J sol (kept DRG J sol rops ((1 # 100) - 2 * (1 # 100))) m ->
       error_of (j_conds J) sampled m = Ok e ->
       exists r w', run me exactA (floor_of me) fuel dfuel J smp limit w = (Ok r, w') /\
                    r_model r = m /\ r_error r = e).
Proof. intros. eapply (driver_bad_limit me exactA); eauto. Qed.
Print Assumptions negative_limit.

Example negative_limit_case :
  map (fun me => view (run me exactA (floor_of me) 4 60 (toy_job nil (Fin 3)) toy_sampler (Fin (-5)) toy_world))
      [DRG; PFA; DRGEP] =
  [Ok (["H"; "O2"; "HO2"; "H2"], "out/reduced_4.yaml", Fin (0 # 2), []);
   Raise UnboundLocalError; Raise UnboundLocalError].
Proof. vm_compute. reflexivity. Qed.
