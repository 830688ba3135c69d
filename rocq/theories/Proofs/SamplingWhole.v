(** [sample]: reuse, crashes, and what a first call measures. *)
From Coq Require Import String Ascii List QArith ZArith Bool Arith Lia Permutation.
From Verif.Base Require Import Py Num XNum Paths.
From Verif.Model Require Import Mech World Metrics Drivers Simulation Sampling.
From Verif.Spec Require Import DriverSpec SimSpec SamplingSpec.
From Verif.Proofs Require Import SimFacts SimMore ProgFacts SamplingFacts SamplingMore SamplingEnd.
Import ListNotations.
Local Open Scope string_scope.

Lemma not_scratch path n f : In f sample_files -> ~ scratch path n f.
Proof. intros I (i & _ & E). exact (h5_not_saved path i f I E). Qed.

Lemma if_any_ne {A} (cs : list A) c cs' p : cs = c :: cs' -> if_any cs p = p.
Proof. intros ->. reflexivity. Qed.

Section Whole.
  Variables (torn : xnum -> list xnum) (fuel : nat) (Ph : physics) (floor : option Q) (model phase path : string) (C : cases) (m : mech).
  Hypothesis AP : model_apart path C model.
  Hypothesis SH : shaped Ph C m.

  Let Sc := scratch path (length (ca_ign C)).
  Let mi := mapM (ign_pure fuel Ph m) (ca_ign C).
  Let mp := mapM (psr_pure Ph m) (ca_psr C).
  Let mf := mapM (flame_pure Ph floor m) (ca_flame C).

  Lemma off f : In f sample_files -> model <> f.
  Proof. intros I ->. apply (proj2 AP). exact I. Qed.

  Definition part_of {A} (cs : list A) (data output : string) (a pc : nat) (jobs : prog case_result) : prog case_result :=
    if_any cs (sample_part torn model phase data output (a * length cs) (length cs) pc jobs).
  Definition pI := part_of (ca_ign C) data_ignition output_ignition 1 20 (ign_jobs fuel Ph model phase path (ca_ign C)).
  Definition pP := part_of (ca_psr C) data_psr output_psr 3 3 (psr_jobs Ph model phase (ca_psr C)).
  Definition pF := part_of (ca_flame C) data_flame output_flame 1 20 (flame_jobs Ph floor model phase (ca_flame C)).

  Lemma sample_parts : sample torn fuel Ph floor model phase path C =
    (i <~ pI ;; p <~ pP ;; f <~ pF ;; pret (fst i ++ fst p ++ fst f, snd i ++ snd p ++ snd f)%list).
  Proof. unfold sample, pI, pP, pF, part_of. rewrite !Nat.mul_1_l. reflexivity. Qed.

  Section OnePart.
    Context {A : Type} (cs : list A) (data output : string) (a pc : nat) (jobs : prog case_result) (mx : res (list case_result)).
    Hypothesis data_in : In data sample_files.
    Hypothesis out_in : In output sample_files.
    Hypothesis distinct : data <> output.
    Hypothesis pc2 : (2 <= pc)%nat.
    Hypothesis jobs_within : within jobs (fun f => f = model) Sc.
    Hypothesis jobs_exec : forall w, holds w model phase m -> exists w', exec jobs w = (bind mx (fun xs => Ok (together xs)), w').
    Hypothesis mx_sized : forall xs, mx = Ok xs -> sized m (a * length cs) (pc * length cs) (together xs).
    Hypothesis mx_nil : cs = nil -> mx = Ok nil.

    Let P := part_of cs data output a pc jobs.

    Lemma facts : (model <> data /\ model <> output /\ ~ Sc model) /\ (~ Sc data /\ ~ Sc output).
    Proof.
      split.
      - split; [now apply off|]. split; [now apply off|]. apply (proj1 AP).
      - split; now apply not_scratch.
    Qed.

    Lemma jobs_sized w x w' : holds w model phase m -> exec jobs w = (Ok x, w') -> sized m (a * length cs) (pc * length cs) x.
    Proof.
      intros H E. destruct (jobs_exec w H) as (w2 & E2). rewrite E in E2. destruct mx as [xs| |]; try discriminate.
      simpl in E2. injection E2 as -> _. auto.
    Qed.
    Lemma enough c cs' : cs = c :: cs' -> (2 <= pc * length cs)%nat.
    Proof. intros ->. simpl. lia. Qed.

    Lemma part_reused w x w1 : holds w model phase m -> exec P w = (Ok x, w1) ->
      match cs with nil => x = (nil, nil) | _ => ready model phase (a * length cs) (pc * length cs) data output m w1 x end /\
      (forall f, f <> data -> f <> output -> ~ Sc f -> w_fs w1 f = w_fs w f).
    Proof.
      destruct facts as (MO & SO). intros H E. unfold P, part_of in E. destruct cs as [|c cs'] eqn:EC.
      - simpl in E. injection E as <- <-. auto.
      - rewrite <- EC in *. rewrite (if_any_ne _ _ _ _ EC) in E. split.
        + eapply part_success with (jobs := jobs); eauto.
          * eapply enough; eauto.
          * intros. eapply jobs_sized; eauto.
        + intros f N1 N2 N3.
          pose proof (exec_frame _ _ _ (part_within torn model phase data output (a * length cs) (length cs) pc jobs Sc jobs_within) w f) as F.
          rewrite E in F. simpl in F. apply F. tauto.
    Qed.

    Lemma part_comp xs : mx = Ok xs ->
      comp_ok model phase Sc m torn (mkComp P data output (together xs) (match cs with nil => false | _ => true end)).
    Proof.
      destruct facts as (MO & SO). intros EX. pose proof (mx_sized xs EX) as SZ.
      assert (length (fst (together xs)) = a * length cs)%nat as LX by apply SZ.
      assert (cs = nil -> together xs = (nil, nil)) as TN.
      { intros N. rewrite (mx_nil N) in EX. injection EX as <-. reflexivity. }
      assert (forall w, holds w model phase m -> exists w', exec jobs w = (Ok (together xs), w')) as JR.
      { intros w H. destruct (jobs_exec w H) as (w' & E). rewrite EX in E. simpl in E. eauto. }
      unfold P, part_of. destruct cs as [|c cs'] eqn:EC.
      - rewrite (TN eq_refl). split; simpl; auto.
        + intros w _ _. exists w. split; [reflexivity|]. split; [discriminate|]. intros f _ _ _. reflexivity.
        + intros w v _ _ [<-|[]]. split; [left; intros X; discriminate|]. intros f _ _ _. reflexivity.
      - rewrite <- EC in *. rewrite (if_any_ne _ _ _ _ EC). pose proof (enough c cs' EC) as EN.
        split; [| |exact MO|exact SO].
        + intros w H R. unfold k_rec in R. cbn [k_used k_data k_out k_x] in R. rewrite LX in R.
          destruct (recover torn model phase data output (a * length cs) (length cs) pc jobs m Sc distinct jobs_within EN (together xs) JR SZ w H (R eq_refl)) as (w' & E & S & F).
          exists w'. split; [exact E|]. split; [intros _; exact S|]. exact F.
        + intros w v H U I. unfold k_uns in U. cbn [k_used k_data k_out k_x k_prog] in U, I.
          destruct (crash torn model phase data output (a * length cs) (length cs) pc jobs m Sc distinct MO SO jobs_within EN (together xs) JR SZ w v H (U eq_refl) I) as (D & F).
          split; [|exact F]. unfold k_rec, k_cut. cbn [k_used k_data k_out k_x k_prog]. rewrite LX. destruct D as [D|D]; [left; intros _; exact D|right; split; auto].
    Qed.

    (** With no result saved, a part computes its result. *)
    Lemma part_computes w x w1 : holds w model phase m -> w_fs w output = None -> exec P w = (Ok x, w1) ->
      exists xs, mx = Ok xs /\ x = together xs /\
        (cs <> nil -> exists w2, exec jobs w = (Ok x, w2) /\ forall f, f <> data -> f <> output -> w_fs w1 f = w_fs w2 f).
    Proof.
      intros H NO E. unfold P, part_of in E. destruct cs as [|c cs'] eqn:EC.
      - rewrite (mx_nil eq_refl). exists nil. simpl in E. injection E as <- <-. split; auto. split; auto. congruence.
      - rewrite <- EC in *. rewrite (if_any_ne _ _ _ _ EC) in E.
        destruct (unusable_exec torn model phase data output (a * length cs) (length cs) pc jobs m w H (or_introl NO)) as (E1 & _).
        rewrite E1 in E. destruct (jobs_exec w H) as (w2 & E2). destruct mx as [xs|e|]; simpl in E2.
        + destruct (recompute_exec torn data output jobs distinct w _ _ E2) as (w3 & E3 & _ & F3).
          rewrite E3 in E. injection E as <- <-. exists xs. split; auto. split; auto. intros _. eauto.
        + rewrite (recompute_fails torn data output jobs _ _ _ E2) in E. discriminate.
        + rewrite (recompute_fuel torn data output jobs _ _ E2) in E. discriminate.
    Qed.
  End OnePart.

  Ltac in_files := unfold sample_files; simpl; tauto.

  Lemma ign_sized xs : mi = Ok xs -> sized m (1 * length (ca_ign C)) (20 * length (ca_ign C)) (together xs).
  Proof. intros E. eapply mapM_sized; eauto. intros. eapply ign_one; eauto. Qed.
  Lemma psr_sized xs : mp = Ok xs -> sized m (3 * length (ca_psr C)) (3 * length (ca_psr C)) (together xs).
  Proof. intros E. eapply mapM_sized; eauto. intros. eapply psr_one; eauto. Qed.
  Lemma flame_sized xs : mf = Ok xs -> sized m (1 * length (ca_flame C)) (20 * length (ca_flame C)) (together xs).
  Proof. intros E. eapply mapM_sized; eauto. intros. eapply flame_one; eauto. Qed.

  Lemma ign_run w : holds w model phase m -> exists w', exec (ign_jobs fuel Ph model phase path (ca_ign C)) w = (bind mi (fun xs => Ok (together xs)), w').
  Proof. intros H. destruct (ign_jobs_exec fuel Ph model phase path m (ca_ign C) w (proj1 AP) H) as (w' & E & _). eauto. Qed.
  Lemma psr_run w : holds w model phase m -> exists w', exec (psr_jobs Ph model phase (ca_psr C)) w = (bind mp (fun xs => Ok (together xs)), w').
  Proof. intros H. destruct (psr_jobs_exec Ph model phase m (ca_psr C) w H) as (w' & E & _). eauto. Qed.
  Lemma flame_run w : holds w model phase m -> exists w', exec (flame_jobs Ph floor model phase (ca_flame C)) w = (bind mf (fun xs => Ok (together xs)), w').
  Proof. intros H. destruct (flame_jobs_exec Ph floor model phase m (ca_flame C) w H) as (w' & E & _). eauto. Qed.

  Lemma nil_map {A} (f : A -> res case_result) (l : list A) : l = nil -> mapM f l = Ok nil.
  Proof. intros ->. reflexivity. Qed.

  Lemma rI w x w1 : holds w model phase m -> exec pI w = (Ok x, w1) ->
    match ca_ign C with nil => x = (nil, nil) | _ => ready model phase (1 * length (ca_ign C)) (20 * length (ca_ign C)) data_ignition output_ignition m w1 x end /\
    (forall f, f <> data_ignition -> f <> output_ignition -> ~ Sc f -> w_fs w1 f = w_fs w f).
  Proof. intros H E. eapply (part_reused (ca_ign C) data_ignition output_ignition 1 20 (ign_jobs fuel Ph model phase path (ca_ign C)) mi); first [eassumption | exact ign_run | exact ign_sized | exact (nil_map _ _) | exact (ign_jobs_within fuel Ph model phase path (ca_ign C)) | in_files | discriminate | lia | assumption]. Qed.
  Lemma cI xs : mi = Ok xs -> comp_ok model phase Sc m torn (mkComp pI data_ignition output_ignition (together xs) (match ca_ign C with nil => false | _ => true end)).
  Proof. intros E. apply (part_comp (ca_ign C) data_ignition output_ignition 1 20 (ign_jobs fuel Ph model phase path (ca_ign C)) mi); first [eassumption | exact ign_run | exact ign_sized | exact (nil_map _ _) | exact (ign_jobs_within fuel Ph model phase path (ca_ign C)) | in_files | discriminate | lia | assumption]. Qed.
  Lemma vI w x w1 : holds w model phase m -> w_fs w output_ignition = None -> exec pI w = (Ok x, w1) ->
    exists xs, mi = Ok xs /\ x = together xs /\
      (ca_ign C <> nil -> exists w2, exec (ign_jobs fuel Ph model phase path (ca_ign C)) w = (Ok x, w2) /\ forall f, f <> data_ignition -> f <> output_ignition -> w_fs w1 f = w_fs w2 f).
  Proof. intros H N E. eapply (part_computes (ca_ign C) data_ignition output_ignition 1 20 (ign_jobs fuel Ph model phase path (ca_ign C)) mi); first [eassumption | exact ign_run | exact ign_sized | exact (nil_map _ _) | exact (ign_jobs_within fuel Ph model phase path (ca_ign C)) | in_files | discriminate | lia | assumption]. Qed.
  Lemma rP w x w1 : holds w model phase m -> exec pP w = (Ok x, w1) ->
    match ca_psr C with nil => x = (nil, nil) | _ => ready model phase (3 * length (ca_psr C)) (3 * length (ca_psr C)) data_psr output_psr m w1 x end /\
    (forall f, f <> data_psr -> f <> output_psr -> ~ Sc f -> w_fs w1 f = w_fs w f).
  Proof. intros H E. eapply (part_reused (ca_psr C) data_psr output_psr 3 3 (psr_jobs Ph model phase (ca_psr C)) mp); first [eassumption | exact psr_run | exact psr_sized | exact (nil_map _ _) | exact (psr_jobs_within Ph model phase (ca_psr C) Sc) | in_files | discriminate | lia | assumption]. Qed.
  Lemma cP xs : mp = Ok xs -> comp_ok model phase Sc m torn (mkComp pP data_psr output_psr (together xs) (match ca_psr C with nil => false | _ => true end)).
  Proof. intros E. apply (part_comp (ca_psr C) data_psr output_psr 3 3 (psr_jobs Ph model phase (ca_psr C)) mp); first [eassumption | exact psr_run | exact psr_sized | exact (nil_map _ _) | exact (psr_jobs_within Ph model phase (ca_psr C) Sc) | in_files | discriminate | lia | assumption]. Qed.
  Lemma vP w x w1 : holds w model phase m -> w_fs w output_psr = None -> exec pP w = (Ok x, w1) ->
    exists xs, mp = Ok xs /\ x = together xs /\
      (ca_psr C <> nil -> exists w2, exec (psr_jobs Ph model phase (ca_psr C)) w = (Ok x, w2) /\ forall f, f <> data_psr -> f <> output_psr -> w_fs w1 f = w_fs w2 f).
  Proof. intros H N E. eapply (part_computes (ca_psr C) data_psr output_psr 3 3 (psr_jobs Ph model phase (ca_psr C)) mp); first [eassumption | exact psr_run | exact psr_sized | exact (nil_map _ _) | exact (psr_jobs_within Ph model phase (ca_psr C) Sc) | in_files | discriminate | lia | assumption]. Qed.
  Lemma rF w x w1 : holds w model phase m -> exec pF w = (Ok x, w1) ->
    match ca_flame C with nil => x = (nil, nil) | _ => ready model phase (1 * length (ca_flame C)) (20 * length (ca_flame C)) data_flame output_flame m w1 x end /\
    (forall f, f <> data_flame -> f <> output_flame -> ~ Sc f -> w_fs w1 f = w_fs w f).
  Proof. intros H E. eapply (part_reused (ca_flame C) data_flame output_flame 1 20 (flame_jobs Ph floor model phase (ca_flame C)) mf); first [eassumption | exact flame_run | exact flame_sized | exact (nil_map _ _) | exact (flame_jobs_within Ph floor model phase (ca_flame C) Sc) | in_files | discriminate | lia | assumption]. Qed.
  Lemma cF xs : mf = Ok xs -> comp_ok model phase Sc m torn (mkComp pF data_flame output_flame (together xs) (match ca_flame C with nil => false | _ => true end)).
  Proof. intros E. apply (part_comp (ca_flame C) data_flame output_flame 1 20 (flame_jobs Ph floor model phase (ca_flame C)) mf); first [eassumption | exact flame_run | exact flame_sized | exact (nil_map _ _) | exact (flame_jobs_within Ph floor model phase (ca_flame C) Sc) | in_files | discriminate | lia | assumption]. Qed.
  Lemma vF w x w1 : holds w model phase m -> w_fs w output_flame = None -> exec pF w = (Ok x, w1) ->
    exists xs, mf = Ok xs /\ x = together xs /\
      (ca_flame C <> nil -> exists w2, exec (flame_jobs Ph floor model phase (ca_flame C)) w = (Ok x, w2) /\ forall f, f <> data_flame -> f <> output_flame -> w_fs w1 f = w_fs w2 f).
  Proof. intros H N E. eapply (part_computes (ca_flame C) data_flame output_flame 1 20 (flame_jobs Ph floor model phase (ca_flame C)) mf); first [eassumption | exact flame_run | exact flame_sized | exact (nil_map _ _) | exact (flame_jobs_within Ph floor model phase (ca_flame C) Sc) | in_files | discriminate | lia | assumption]. Qed.

  Lemma holds_same w w' : holds w model phase m -> w_fs w' model = w_fs w model -> holds w' model phase m.
  Proof. intros (ph & E & Q) F. exists ph. rewrite F. auto. Qed.

  Lemma split_success w r w3 : exec (sample torn fuel Ph floor model phase path C) w = (Ok r, w3) ->
    exists i w1 p w2 f, exec pI w = (Ok i, w1) /\ exec pP w1 = (Ok p, w2) /\ exec pF w2 = (Ok f, w3) /\
      r = (fst i ++ fst p ++ fst f, snd i ++ snd p ++ snd f)%list.
  Proof.
    rewrite sample_parts, exec_bind. destruct (exec pI w) as [[i| |] w1]; try discriminate.
    rewrite exec_bind. destruct (exec pP w1) as [[p| |] w2] eqn:E2; try discriminate.
    rewrite exec_bind. destruct (exec pF w2) as [[f| |] w3'] eqn:E3; try discriminate.
    simpl. intros E. injection E as <- <-. exists i, w1, p, w2, f. auto.
  Qed.

  Lemma ready_same nm rows data output w w' x :
    w_fs w' data = w_fs w data -> w_fs w' output = w_fs w output ->
    ready model phase nm rows data output m w x -> ready model phase nm rows data output m w' x.
  Proof. unfold ready. intros -> ->. auto. Qed.

  Ltac elsewhere F := apply F; [discriminate|discriminate|apply not_scratch; in_files].

  Lemma sample_ready w r w3 : holds w model phase m -> exec (sample torn fuel Ph floor model phase path C) w = (Ok r, w3) ->
    exists i p f, r = (fst i ++ fst p ++ fst f, snd i ++ snd p ++ snd f)%list /\ holds w3 model phase m /\
      match ca_ign C with nil => i = (nil, nil) | _ => ready model phase (1 * length (ca_ign C)) (20 * length (ca_ign C)) data_ignition output_ignition m w3 i end /\
      match ca_psr C with nil => p = (nil, nil) | _ => ready model phase (3 * length (ca_psr C)) (3 * length (ca_psr C)) data_psr output_psr m w3 p end /\
      match ca_flame C with nil => f = (nil, nil) | _ => ready model phase (1 * length (ca_flame C)) (20 * length (ca_flame C)) data_flame output_flame m w3 f end.
  Proof.
    intros H E. destruct (split_success _ _ _ E) as (i & w1 & p & w2 & f & E1 & E2 & E3 & ->).
    destruct (rI w i w1 H E1) as (R1 & F1).
    assert (holds w1 model phase m) as H1.
    { apply (holds_same w); auto. apply F1; [apply off; in_files|apply off; in_files|apply (proj1 AP)]. }
    destruct (rP w1 p w2 H1 E2) as (R2 & F2).
    assert (holds w2 model phase m) as H2.
    { apply (holds_same w1); auto. apply F2; [apply off; in_files|apply off; in_files|apply (proj1 AP)]. }
    destruct (rF w2 f w3 H2 E3) as (R3 & F3).
    assert (holds w3 model phase m) as H3.
    { apply (holds_same w2); auto. apply F3; [apply off; in_files|apply off; in_files|apply (proj1 AP)]. }
    exists i, p, f. split; [reflexivity|]. split; [exact H3|]. split; [|split; [|exact R3]].
    - destruct (ca_ign C); auto. eapply ready_same; [| |exact R1].
      + transitivity (w_fs w2 data_ignition); [elsewhere F3|elsewhere F2].
      + transitivity (w_fs w2 output_ignition); [elsewhere F3|elsewhere F2].
    - destruct (ca_psr C); auto. eapply ready_same; [| |exact R2]; elsewhere F3.
  Qed.

  Section First.
    Variables (xi xp xf : list case_result).
    Hypothesis EI : mi = Ok xi.
    Hypothesis EP : mp = Ok xp.
    Hypothesis EF : mf = Ok xf.

    Definition KI := mkComp pI data_ignition output_ignition (together xi) (match ca_ign C with nil => false | _ => true end).
    Definition KP := mkComp pP data_psr output_psr (together xp) (match ca_psr C with nil => false | _ => true end).
    Definition KF := mkComp pF data_flame output_flame (together xf) (match ca_flame C with nil => false | _ => true end).
    Let X : case_result := (fst (together xi) ++ fst (together xp) ++ fst (together xf), snd (together xi) ++ snd (together xp) ++ snd (together xf))%list.

    Ltac clr := split; [|split; [|split]]; discriminate.

    Lemma first_run w : holds w model phase m -> k_rec KI w -> k_rec KP w -> k_rec KF w ->
      exists w', exec (sample torn fuel Ph floor model phase path C) w = (Ok X, w') /\
        k_sv KI w' /\ k_sv KP w' /\ k_sv KF w' /\ holds w' model phase m.
    Proof.
      intros H R1 R2 R3. rewrite sample_parts.
      apply (all_run model phase Sc m torn KI KP KF (cI xi EI) (cP xp EP) (cF xf EF)); auto; clr.
    Qed.
    Lemma first_crash w v : holds w model phase m -> k_uns KI w -> k_uns KP w -> k_uns KF w ->
      In v (states (sample torn fuel Ph floor model phase path C) w) ->
      ((k_rec KI v /\ k_rec KP v /\ k_rec KF v) \/ k_cut torn KI v \/ k_cut torn KP v \/ k_cut torn KF v) /\ holds v model phase m.
    Proof.
      intros H R1 R2 R3 I. rewrite sample_parts in I.
      refine (all_crash model phase Sc m torn KI KP KF (cI xi EI) (cP xp EP) (cF xf EF) _ _ _ _ _ _ w v H R1 R2 R3 I); clr.
    Qed.
  End First.

  (** What a first call that succeeds has computed. *)
  Lemma first_success w r w3 : holds w model phase m -> fresh w ->
    exec (sample torn fuel Ph floor model phase path C) w = (Ok r, w3) ->
    exists xi xp xf, mi = Ok xi /\ mp = Ok xp /\ mf = Ok xf /\ r = together (xi ++ xp ++ xf)%list /\
      (forall f, ~ In f sample_files -> ~ Sc f -> w_fs w3 f = w_fs w f) /\
      (forall f, Sc f -> w_fs w3 f = None).
  Proof.
    intros H FR E. destruct (split_success _ _ _ E) as (i & w1 & p & w2 & f & E1 & E2 & E3 & ->).
    destruct (rI w i w1 H E1) as (_ & F1).
    assert (holds w1 model phase m) as H1.
    { apply (holds_same w); auto. apply F1; [apply off; in_files|apply off; in_files|apply (proj1 AP)]. }
    destruct (rP w1 p w2 H1 E2) as (_ & F2).
    assert (holds w2 model phase m) as H2.
    { apply (holds_same w1); auto. apply F2; [apply off; in_files|apply off; in_files|apply (proj1 AP)]. }
    destruct (rF w2 f w3 H2 E3) as (_ & F3).
    destruct (vI w i w1 H (FR output_ignition ltac:(in_files)) E1) as (xi & X1 & -> & Y1).
    assert (w_fs w1 output_psr = None) as N2.
    { transitivity (w_fs w output_psr); [elsewhere F1|apply FR; in_files]. }
    destruct (vP w1 p w2 H1 N2 E2) as (xp & X2 & -> & Y2).
    assert (w_fs w2 output_flame = None) as N3.
    { transitivity (w_fs w1 output_flame); [elsewhere F2|]. transitivity (w_fs w output_flame); [elsewhere F1|apply FR; in_files]. }
    destruct (vF w2 f w3 H2 N3 E3) as (xf & X3 & -> & Y3).
    exists xi, xp, xf. split; auto. split; auto. split; auto. split; [|split].
    - unfold together. simpl. rewrite !map_app, !concat_app. reflexivity.
    - intros g N S. assert (forall h, In h sample_files -> g <> h) as D by (intros h I ->; auto).
      transitivity (w_fs w2 g); [apply F3; auto; apply D; in_files|].
      transitivity (w_fs w1 g); [apply F2; auto; apply D; in_files|].
      apply F1; auto; apply D; in_files.
    - (* the intermediate files are gone *)
      intros g S. pose proof S as (k & K & ->).
      assert (forall h, In h sample_files -> h5_name path k <> h) as D by (intros h I E'; exact (h5_not_saved path k h I (eq_sym E'))).
      assert (ca_ign C <> nil) as NN by (destruct (ca_ign C); simpl in K; [lia|discriminate]).
      destruct (Y1 NN) as (wj & EJ & FJ).
      destruct (ign_jobs_exec fuel Ph model phase path m (ca_ign C) w (proj1 AP) H) as (wj' & EJ' & _ & G). rewrite EJ in EJ'. injection EJ' as _ <-.
      assert (w_fs w1 (h5_name path k) = None) as N1 by (rewrite FJ by (apply D; in_files); eapply G; eauto).
      (* the other parts have no intermediate files *)
      assert (w_fs w2 (h5_name path k) = w_fs w1 (h5_name path k)) as Z2.
      { pose proof (exec_frame pP (fun f => f = model) (fun f => f = data_psr \/ f = output_psr \/ False)) as FP.
        assert (within pP (fun f => f = model) (fun f => f = data_psr \/ f = output_psr \/ False)) as WP.
        { unfold pP, part_of. destruct (ca_psr C) eqn:EC; [simpl; auto|]. rewrite <- EC. rewrite (if_any_ne _ _ _ _ EC).
          apply (part_within torn model phase data_psr output_psr _ _ _ _ (fun _ => False)). apply psr_jobs_within. }
        specialize (FP WP w1 (h5_name path k)). rewrite E2 in FP. apply FP. intros [X|[X|[]]]; eapply D; eauto; in_files. }
      assert (w_fs w3 (h5_name path k) = w_fs w2 (h5_name path k)) as Z3.
      { pose proof (exec_frame pF (fun f => f = model) (fun f => f = data_flame \/ f = output_flame \/ False)) as FP.
        assert (within pF (fun f => f = model) (fun f => f = data_flame \/ f = output_flame \/ False)) as WP.
        { unfold pF, part_of. destruct (ca_flame C) eqn:EC; [simpl; auto|]. rewrite <- EC. rewrite (if_any_ne _ _ _ _ EC).
          apply (part_within torn model phase data_flame output_flame _ _ _ _ (fun _ => False)). apply flame_jobs_within. }
        specialize (FP WP w2 (h5_name path k)). rewrite E3 in FP. apply FP. intros [X|[X|[]]]; eapply D; eauto; in_files. }
      fold (h5_name path k). congruence.
  Qed.
End Whole.
