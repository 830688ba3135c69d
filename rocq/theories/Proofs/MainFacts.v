(** Lemmas about the whole program. *)
From Coq Require Import String List QArith Bool Arith Lia Lqa.
From Verif.Base Require Import Py Num XNum Paths.
From Verif.Model Require Import Mech Matrices Graph World Metrics Drivers Sensitivity Simulation Sampling Main.
From Verif.Spec Require Import TrimSpec GraphSpec MetricSpec DriverSpec SensitivitySpec SimSpec SamplingSpec MainSpec.
From Verif.Proofs Require Import PyFacts NumFacts TrimFacts ImportanceFacts StepFacts StepInst RunFacts ReduceFacts DriverFacts SaPkg.
Import ListNotations.
Local Open Scope string_scope.

Lemma importance_le names ts Ms k v m : is_importance names ts Ms k v -> is_importance names ts Ms k m -> (m <= v)%Q.
Proof.
  intros [V1 V2] [M1 [(Mx & t & p & H1 & H2 & H3 & E)|[N E]]].
  - rewrite <- E. eauto.
  - destruct V2 as [(Mx & t & p & H1 & H2 & H3 & _)|[_ E2]]; [exfalso; eapply N; eauto|]. lra.
Qed.

(** The call of [run_sa] after a driver. *)
Definition sa_with (far : xnum -> xnum -> xnum) (a : main_in) (cs : conds) (file : string) (e : xnum) (l : limbo) : sa_job :=
  mkSAWith file (a_phase a) (a_path a) e cs (a_limit a) (a_targets a ++ a_safe a)
       (if String.eqb (if String.eqb (a_type a) "" then "greedy" else a_type a) "greedy" then Greedy else Initial) l far.
Notation sa_after := (sa_with error_distance).

Definition fl_of {A} (me : method) (fl5 fl6 : A -> bool) : A -> bool := match me with DRG | PFA => fl5 | DRGEP => fl6 end.

Lemma main_with_graph me drg drgep pfa far B cs a w : a_method a = method_name me -> a_targets a <> nil ->
  main_with drg drgep pfa far B cs a w =
  match match me with DRG => drg | DRGEP => drgep | PFA => pfa end (graph_job a cs) w with
  | (Ok r, w2) =>
      if a_sa a then run_sa (b_sa B) (b_tmp B) (b_tmp2 B) (sa_with far a cs (r_file r) (r_error r) (r_limbo r)) w2
      else (Ok r, w2)
  | (Raise e, w2) => (Raise e, w2)
  | (NoFuel, w2) => (NoFuel, w2)
  end.
Proof.
  intros E T. destruct (a_targets a) as [|x ts] eqn:Et; [contradiction|].
  destruct a as [f l m tg sf ph sa up ty pa]. cbn [a_method a_targets] in *. subst m tg.
  destruct me; unfold main_with; cbn [method_name a_method a_targets a_sa graph_method str_in existsb String.eqb Ascii.eqb Bool.eqb andb orb];
    unfold mbind, sa_with; cbn [a_file a_limit a_method a_targets a_safe a_phase a_sa a_upper a_type a_path];
    match goal with |- context [match ?t w with _ => _ end] => destruct (t w) as [[r|e|] w2] end;
    cbn; destruct sa; reflexivity.
Qed.

Lemma main_graph me A fl5 fl6 B smp cs a w : a_method a = method_name me -> a_targets a <> nil ->
  main A fl5 fl6 B smp cs a w =
  match run me A (fl_of me fl5 fl6) (b_thr B) (b_path B) (graph_job a cs) smp (a_limit a) w with
  | (Ok r, w2) =>
      if a_sa a then run_sa (b_sa B) (b_tmp B) (b_tmp2 B) (sa_after a cs (r_file r) (r_error r) (r_limbo r)) w2
      else (Ok r, w2)
  | (Raise e, w2) => (Raise e, w2)
  | (NoFuel, w2) => (NoFuel, w2)
  end.
Proof. intros E T. unfold main. rewrite (main_with_graph me) by auto. now destruct me. Qed.

Lemma main_alone A fl5 fl6 B smp cs a w : graph_method (a_method a) = false -> a_sa a = true ->
  main A fl5 fl6 B smp cs a w =
  run_sa (b_sa B) (b_tmp B) (b_tmp2 B) (sa_after a cs (a_file a) (Fin 0) (Own nil)) w.
Proof.
  intros G S. destruct a as [f l m tg sf ph sa up ty pa]. cbn [a_method a_sa] in *. subst sa.
  unfold main, main_with. cbn [a_method a_targets a_sa]. rewrite G. cbn [andb].
  unfold graph_method, str_in, existsb in G. rewrite !orb_false_iff in G. destruct G as (G1 & G2 & G3 & _).
  rewrite G1, G2, G3. cbn [negb]. rewrite andb_false_r. reflexivity.
Qed.

Lemma main_unknown A fl5 fl6 B smp cs a w : graph_method (a_method a) = false -> a_sa a = false ->
  fst (main A fl5 fl6 B smp cs a w) = Raise (if String.eqb (a_method a) "" then ValueError else UnboundLocalError).
Proof.
  intros G S. destruct a as [f l m tg sf ph sa up ty pa]. cbn [a_method a_sa] in *. subst sa.
  unfold main, main_with. cbn [a_method a_targets a_sa]. rewrite G. cbn [andb negb]. rewrite andb_true_r.
  unfold graph_method, str_in, existsb in G. rewrite !orb_false_iff in G. destruct G as (G1 & G2 & G3 & _).
  rewrite G1, G2, G3. destruct (String.eqb m ""); reflexivity.
Qed.

Lemma exact_floor me : fl_of me floor5 floor6 = floor_of me.
Proof. now destruct me. Qed.

Section After.
  Variables (me : method) (a : main_in) (cs : conds) (B : limits) (smp : sampler) (w : world) (sol : mech).
  Variables (sampled : list xnum) (rops : list (list Q)) (w1 : world).
  Notation J := (graph_job a cs).
  Hypothesis NAME : a_method a = method_name me.
  Hypothesis ST : started J smp w sol sampled rops w1.
  Hypothesis FA : fair J sol sampled (a_limit a).

  Lemma main_targets : a_targets a <> nil.
  Proof. exact (proj1 (st_job _ _ _ _ _ _ _ ST)). Qed.

  Variables (r : rmodel) (w2 : world).
  Hypothesis R : run me exactA (floor_of me) (b_thr B) (b_path B) J smp (a_limit a) w = (Ok r, w2).
  Hypothesis T : temps_ok w1 (a_path a) B.

  Lemma after_wf : wf_mech (r_model r).
  Proof.
    destruct (driver_scan _ _ _ _ _ _ _ _ _ ST FA _ _ _ _ R) as (j & n & _ & rm & _ & C).
    eapply trim_no_dangling; [apply (st_wf _ _ _ _ _ _ _ ST)|exact C].
  Qed.

  Lemma after_frame g : (forall n, g <> out_file J n) -> w_fs w2 g = w_fs w1 g.
  Proof.
    intros G. pose proof (driver_frame me J smp w sol sampled rops w1 (a_limit a) ST exactA (floor_of me) (b_thr B) (b_path B) g) as H.
    rewrite R in H. apply H. exact G.
  Qed.

  Lemma after_temps : temps w2 (b_tmp B) (b_tmp2 B).
  Proof.
    destruct T as ([N1 N2 AP F1 F2] & O1 & O2). constructor; auto.
    - intros f U. rewrite after_frame; auto. intros n ->. unfold out_file in U. cbn [j_path graph_job] in U. rewrite O1 in U. discriminate.
    - intros f U. rewrite after_frame; auto. intros n ->. unfold out_file in U. cbn [j_path graph_job] in U. rewrite O2 in U. discriminate.
  Qed.

  Lemma after_started : sa_started (sa_after a cs (r_file r) (r_error r) (r_limbo r)) w2 (b_tmp B) (b_tmp2 B) (r_model r).
  Proof.
    constructor; [apply after_wf| |apply after_temps].
    exact (proj1 (proj2 (proj2 (driver_file _ _ _ _ _ _ _ _ _ ST exactA _ _ _ _ _ R)))).
  Qed.

  Lemma limbo_case : rops <> nil -> limbo_harmless me a w1 ->
    forall s, In s (a_targets a ++ a_safe a) -> ~ In s (given_limbo w2 (r_limbo r)).
  Proof.
    intros NE LH s Hs Hg. destruct (driver_limbo _ _ _ _ _ _ _ _ _ ST _ _ _ _ _ _ R) as (L & L1 & L2).
    destruct me.
    - destruct L as (ss & E & L). rewrite E in Hg. cbn [given_limbo] in Hg. cbn [limbo_harmless] in LH.
      cbn [j_upper graph_job] in L. rewrite NAME in L. cbn [method_name] in L.
      change (String.eqb "DRG" "PFA") with false in L. cbv iota in L. rewrite LH in L. subst ss. destruct Hg.
    - cbn [limbo_spec] in L. rewrite L in Hg. destruct Hg.
    - cbn [limbo_spec] in L. rewrite L in Hg. cbn [given_limbo] in Hg. destruct LH as [N U].
      destruct (L2 eq_refl) as (l & E & D). rewrite N in E. cbn [app] in E. rewrite E in Hg. clear E.
      unfold drgep_limbo in D. destruct (truthy (j_upper J)) eqn:Tr; [|subst l; destruct Hg].
      destruct D as [_ D]. apply D in Hg. destruct Hg as (Hn & Ns & v & Iv & Lv).
      apply in_app_or in Hs. destruct Hs as [Hs|Hs]; [|contradiction].
      assert (upper_of J <= 1)%Q as Le.
      { unfold upper_of. cbn [j_upper graph_job]. rewrite NAME. cbn [method_name].
        change (String.eqb "DRGEP" "PFA") with false. cbv iota. destruct (a_upper a) as [u|] eqn:Eu; [apply U; auto|lra]. }
      pose proof (st_wf _ _ _ _ _ _ _ ST) as WF. pose proof (st_job _ _ _ _ _ _ _ ST) as JO.
      assert (kept DRGEP J sol rops (upper_of J) s) as [K|(m & Im & Lm)] by (eapply target_kept; eauto); [contradiction|].
      pose proof (importance_le _ _ _ _ _ _ Iv Im). lra.
  Qed.
End After.

Lemma sa_keeps K w tmp tmp2 sol fuel r w' : sa_started K w tmp tmp2 sol ->
  (forall s, In s (s_safe K) -> ~ In s (given_limbo w (s_limbo K))) ->
  run_sa fuel tmp tmp2 K w = (Ok r, w') ->
  forall s, In s (s_safe K) -> In s (species_names sol) -> In s (species_names (r_model r)).
Proof.
  intros SS H E s Hs Hn. destruct (given_limbo w (s_limbo K)) as [|x l] eqn:G.
  - eapply sa_default; eauto.
  - assert (candidates K w sol (x :: l)) as C by (left; rewrite G; split; [auto|discriminate]).
    destruct (sa_only _ _ _ _ _ _ _ _ _ SS C E) as (rm & I & _ & _ & _ & S). apply S. split; auto.
    intros Hr. apply (H s Hs). now apply I.
Qed.

Lemma main_keeps me a cs B smp w sol sampled rops w1 r w' :
  a_method a = method_name me -> started (graph_job a cs) smp w sol sampled rops w1 ->
  fair (graph_job a cs) sol sampled (a_limit a) -> rops <> nil ->
  (a_sa a = true -> temps_ok w1 (a_path a) B /\ limbo_harmless me a w1) ->
  main exactA floor5 floor6 B smp cs a w = (Ok r, w') ->
  forall s, In s (a_targets a ++ a_safe a) -> In s (species_names sol) -> In s (species_names (r_model r)).
Proof.
  intros N ST FA NE S E. rewrite (main_graph me) in E by (auto; eapply main_targets; eauto).
  rewrite exact_floor in E.
  destruct (run me exactA (floor_of me) (b_thr B) (b_path B) (graph_job a cs) smp (a_limit a) w) as [[r1|e|] w2] eqn:R;
    try discriminate.
  destruct (driver_keeps _ _ _ _ _ _ _ _ _ ST FA _ _ _ _ NE R) as [KT KS].
  assert (forall s, In s (a_targets a ++ a_safe a) -> In s (species_names sol) -> In s (species_names (r_model r1))) as K1.
  { intros s Hs Hn. apply in_app_or in Hs. destruct Hs as [Hs|Hs]; [now apply KT|now apply KS]. }
  destruct (a_sa a) eqn:Sa.
  - destruct (S eq_refl) as [T LH].
    pose proof (after_started me a cs B smp w sol sampled rops w1 ST FA r1 w2 R T) as SS.
    intros s Hs Hn. eapply (sa_keeps _ _ _ _ _ _ _ _ SS); [|exact E|exact Hs|auto].
    intros x Hx. eapply limbo_case; eauto.
  - injection E as <- <-. exact K1.
Qed.

Lemma alone_keeps a cs B smp w sol r w' A fl5 fl6 :
  graph_method (a_method a) = false -> wf_mech sol -> holds w (a_file a) (a_phase a) sol ->
  temps w (b_tmp B) (b_tmp2 B) -> main A fl5 fl6 B smp cs a w = (Ok r, w') ->
  forall s, In s (a_targets a ++ a_safe a) -> In s (species_names sol) -> In s (species_names (r_model r)).
Proof.
  intros G WF H T E. destruct (a_sa a) eqn:S.
  - rewrite main_alone in E by auto.
    assert (sa_started (sa_after a cs (a_file a) (Fin 0) (Own nil)) w (b_tmp B) (b_tmp2 B) sol) as SS by (constructor; auto).
    exact (sa_keeps _ _ _ _ _ _ _ _ SS (fun _ _ X => X) E).
  - pose proof (main_unknown A fl5 fl6 B smp cs a w G S) as X. rewrite E in X. discriminate.
Qed.
