(** What the drivers with doubles throughout return. *)
From Coq Require Import String List ZArith QArith Qabs Bool Arith Lia Lqa.
From Verif.Base Require Import Py Num XNum Paths B64.
From Verif.Model Require Import Mech Matrices Graph World Metrics Drivers FloatDrivers FloatMatrix FloatPfa SaveText FloatRun.
From Verif.Spec Require Import TrimSpec Samples GraphSpec DriverSpec MatrixSpec FloatSpec FloatMatrixSpec FloatRunSpec.
From Verif.Proofs Require Import PyFacts NumFacts TrimFacts DfsFacts MatrixFacts ImportanceFacts GraphMore StepFacts StepInst
     LoopFacts RunFacts ReduceFacts LoopForward DriverFacts FloatFacts FloatArith FloatDriverFacts FloatMatrixFacts
     FloatImportance FloatMatrixFinal FloatPfaFinal SaveNumFacts FloatThrFacts FloatRunFacts.
Import ListNotations.
Local Open Scope string_scope.

(** More fuel does not change a finished search. *)
Lemma fdij_more g s : forall fuel dist seen fr n r,
  fdij_loop fuel g s dist seen fr n = Ok r ->
  forall fuel', (fuel <= fuel')%nat -> fdij_loop fuel' g s dist seen fr n = Ok r.
Proof.
  induction fuel as [|fuel IH]; intros dist seen fr n r H fuel' L.
  - simpl in H. destruct fuel'; simpl; destruct (fpop_min fr) as [[[[d k] v] fr']|]; auto; discriminate.
  - destruct fuel' as [|fuel']; [lia|]. simpl in *.
    destruct (fpop_min fr) as [[[[d k] v] fr']|]; auto.
    destruct (match dget v dist with Some dv => b64_lt d dv | None => false end).
    + eapply IH; eauto. lia.
    + destruct (str_in v (fg_nodes g)); [|discriminate].
      destruct (fold_left _ _ _) as [[seen' fr''] n']. eapply IH; eauto. lia.
Qed.

Lemma fsearch_more g ts : forall o fuel r, fgraph_search_drgep fuel g ts o = Ok r ->
  forall fuel', (fuel <= fuel')%nat -> fgraph_search_drgep fuel' g ts o = Ok r.
Proof.
  induction ts as [|t ts IH]; intros o fuel r H fuel' L; simpl in *; auto.
  destruct (fss_dijkstra fuel g t) as [co| |] eqn:E; try discriminate.
  unfold fss_dijkstra in *. rewrite (fdij_more _ _ _ _ _ _ _ _ E fuel' L). simpl in *.
  eapply IH; eauto.
Qed.

Lemma fimportance_more names targets Ms : forall imp fuel r, fimportance_loop fuel names targets Ms imp = Ok r ->
  forall fuel', (fuel <= fuel')%nat -> fimportance_loop fuel' names targets Ms imp = Ok r.
Proof.
  induction Ms as [|Mx Ms IH]; intros imp fuel r H fuel' L; simpl in *; auto.
  destruct (fgraph_search_drgep fuel _ _ _) as [co| |] eqn:E; try discriminate.
  rewrite (fsearch_more _ _ _ _ _ E fuel' L). simpl in *. eapply IH; eauto.
Qed.

Lemma fimportance_any fuel names targets Ms r :
  incl targets names -> (forall M, In M Ms -> unit_fmatrix (length names) M) ->
  f_importance_coeffs fuel names targets Ms = Ok r ->
  dkeys r = names /\ (forall k c, dget k r = Some c -> unit_b64 c /\ is_fimportance names targets Ms k c).
Proof.
  intros I U E. destruct (fimportance_spec names targets Ms I U) as (r' & N & H & K & B).
  assert (r = r') as ->; [|auto].
  pose proof (fimportance_more _ _ _ _ _ _ E (Nat.max fuel N)) as E1.
  specialize (H (Nat.max fuel N)). unfold f_importance_coeffs in H. rewrite E1 in H by lia.
  assert (Ok r = Ok r') as X by (apply H; lia). now injection X.
Qed.

Definition flimbo_ok (me : method) (J : job) (rops : list (list b64)) : Prop :=
  match me with PFA => truthy (j_upper J) = true -> rops <> nil | _ => True end.

(** What a driver does with the result of the loop. *)
Definition foutcome me J sol rops (x : res rmodel * world) (y : res rmodel * world) : Prop :=
  match x with
  | (Ok r, w2) => exists w', y = (Ok r, w') /\ (forall g, w_fs w' g = w_fs w2 g) /\
      (me <> DRGEP -> w_shared w' = w_shared w2) /\
      (me = DRGEP -> exists l, w_shared w' = (w_shared w2 ++ l)%list /\ fdrgep_limbo J sol rops (r_model r) l)
  | _ => y = x
  end.

Section Run.
  Variables (me : method) (dfuel : nat) (J : job).
  Variables (smp : fsampler) (sol : mech) (w : world).
  Variables (sampled : list xnum) (rops : list (list b64)) (w1 : world).
  Hypothesis ST : fstarted J smp w sol sampled rops w1.
  Hypothesis TA : tame J sol rops.

  Notation names := (species_names sol).
  Notation K := (vkept me J sol rops).

  Lemma drgep_funit F : In F (fmatrices DRGEP sol rops) -> unit_fmatrix (length names) F.
  Proof.
    intros H. unfold fmatrices in H. apply in_map_iff in H. destruct H as (rop & <- & HR).
    rewrite names_length. exact (proj2 (coefficients_unit _ (ta_rates _ _ _ TA rop HR))).
  Qed.

  (** The search of DRGEP always comes to an end. *)
  Lemma fsearch_total : exists imp N, forall fuel, (N <= fuel)%nat ->
    f_importance_coeffs fuel names (j_targets J) (fmatrices DRGEP sol rops) = Ok imp.
  Proof.
    destruct (fimportance_spec names (j_targets J) (fmatrices DRGEP sol rops)
                (proj2 (fs_job _ _ _ _ _ _ _ ST)) drgep_funit) as (r & N & H & _). eauto.
  Qed.

  Lemma frun_spec : fsearch_ends me dfuel J sol rops ->
    exists vred short lb,
      is_step J sol sampled vred K short lb /\ short_sound sol K short /\
      (flimbo_ok me J rops -> exists l, lb = Ok l) /\
      (forall e, lb = Raise e -> e = UnboundLocalError) /\ lb <> NoFuel /\
      (forall l, lb = Ok l -> flimbo_spec me J sol rops l) /\
      forall fuel limit,
        foutcome me J sol rops (thr_run floatA fuel J sol vred limit (floor_f me) (by_last me) w1)
                 (frun me fuel dfuel J smp limit w).
  Proof.
    intros SE. destruct ST as [WF HO [NE T] AP SM H1]. destruct (upper_truth J sol rops TA) as [UT1 UT2].
    destruct me.
    - set (Ms := map values (fmatrices DRG sol rops)).
      exists (reduce_drg (vjob J) Ms sampled), (gshort (vjob J) sol Ms), (drg_limbo (vjob J) sol Ms).
      pose proof (drg_step (vjob J) sol Ms sampled T) as S1.
      split; [exact S1|]. split; [exact (gshort_sound (vjob J) sol Ms T)|].
      assert (exists l, drg_limbo (vjob J) sol Ms = Ok l /\ flimbo_spec DRG J sol rops l) as (l & Hl & Sl).
      { unfold drg_limbo, flimbo_spec. rewrite UT2. destruct (truthy (j_upper J)) eqn:U; [|eauto].
        rewrite <- upper_eq.
        destruct (retained_spec Ms names (j_targets J) (b64_val match f_upper J with Some u => u | None => fzero end) T)
          as (keep & R & _ & R2).
        change (j_targets (vjob J)) with (j_targets J). rewrite R. simpl. eexists. split; [reflexivity|].
        exists keep. split; auto. intros d s Fd Vd. rewrite R2.
        assert (b64_val match f_upper J with Some u => u | None => fzero end == b64_val d)%Q as Eu.
        { rewrite Vd. unfold f_upper. pose proof (upper_fin J sol rops TA) as UF. unfold f_upper in UF.
          destruct (j_upper J) as [u|]; [|discriminate]. simpl. exact (proj2 (UF _ eq_refl)). }
        split.
        - intros (Mx & tgt & A1 & A2 & A3). unfold Ms in A1. apply in_map_iff in A1. destruct A1 as (F & <- & A1).
          exists F, tgt. split; auto. split; auto. apply freach_values.
          eapply reach_antitone; [|exact A3]. lra.
        - intros (F & tgt & A1 & A2 & A3). exists (values F), tgt. split; [now apply in_map|]. split; auto.
          apply freach_values in A3. eapply reach_antitone; [|exact A3]. lra. }
      rewrite Hl. split; [eauto|]. split; [discriminate|]. split; [discriminate|].
      split; [intros l' E'; injection E' as <-; auto|]. intros fuel limit.
      assert (frun DRG fuel dfuel J smp limit w =
              thr_run floatA fuel J sol (reduce_drg (vjob J) Ms sampled) limit (floor_f DRG) false w1) as ->.
      { unfold frun, frun_drg. rewrite mbind_eq, (load_holds _ _ _ _ HO).
        destruct (j_targets J) eqn:Et; [contradiction|]. rewrite mbind_eq, SM. cbn [fst snd].
        change (map (fun rop => f_drg_matrix (fkin_of sol rop)) rops) with (fmatrices DRG sol rops).
        refine (run_same J sol sampled limit _ _ _ _ _ S1 AP _ fuel (floor_f DRG) false w1 H1).
        intros t prev wx Ft Hx. exact (drg_same J sol rops sampled TA t prev wx Ft Hx). }
      simpl by_last. destruct (thr_run _ _ _ _ _ _ _ _ _) as [[r|e|] w2]; simpl; auto.
      exists w2. split; auto. split; auto. split; auto. discriminate.
    - set (Ms := map values (fmatrices PFA sol rops)).
      exists (reduce_pfa (vjob J) Ms sampled), (gshort (vjob J) sol Ms), (pfa_limbo (vjob J) Ms).
      pose proof (pfa_step_shape (vjob J) sol Ms sampled T) as S1.
      split; [exact S1|]. split; [exact (gshort_sound (vjob J) sol Ms T)|].
      assert ((flimbo_ok PFA J rops -> exists l, pfa_limbo (vjob J) Ms = Ok l) /\
              (forall e, pfa_limbo (vjob J) Ms = Raise e -> e = UnboundLocalError) /\
              pfa_limbo (vjob J) Ms <> NoFuel /\
              (forall l, pfa_limbo (vjob J) Ms = Ok l -> flimbo_spec PFA J sol rops l)) as (L1 & L2 & L3 & L4).
      { unfold pfa_limbo, flimbo_ok, flimbo_spec. rewrite UT2. destruct (truthy (j_upper J)).
        - destruct Ms eqn:Em.
          + split; [|split; [congruence|split; discriminate]]. intros N. exfalso. apply N; auto.
            unfold Ms in Em. destruct rops; [auto|discriminate].
          + split; [eauto|]. split; [discriminate|]. split; [discriminate|]. intros l' E'. now injection E' as <-.
        - split; [eauto|]. split; [discriminate|]. split; [discriminate|]. intros l' E'. now injection E' as <-. }
      split; [exact L1|]. split; [exact L2|]. split; [exact L3|]. split; [exact L4|]. intros fuel limit.
      assert (frun PFA fuel dfuel J smp limit w =
              thr_run floatA fuel J sol (reduce_pfa (vjob J) Ms sampled) limit (floor_f PFA) true w1) as ->.
      { unfold frun, frun_pfa. rewrite mbind_eq, (load_holds _ _ _ _ HO).
        destruct (j_targets J) eqn:Et; [contradiction|]. rewrite mbind_eq, SM. cbn [fst snd].
        change (map (fun rop => f_pfa_matrix (fkin_of sol rop)) rops) with (fmatrices PFA sol rops).
        refine (run_same J sol sampled limit _ _ _ _ _ S1 AP _ fuel (floor_f PFA) true w1 H1).
        intros t prev wx Ft Hx. exact (pfa_same J sol rops sampled TA t prev wx Ft Hx). }
      simpl by_last. destruct (thr_run _ _ _ _ _ _ _ _ _) as [[r|e|] w2]; simpl; auto.
      exists w2. split; auto. split; auto. split; auto. discriminate.
    - destruct (SE eq_refl) as [imp Himp].
      destruct (fimportance_any _ _ _ _ _ T drgep_funit Himp) as [Dk Db].
      assert (forall k c, dget k imp = Some c -> b64_finite c) as FI by (intros k c Hc; exact (proj1 (proj1 (Db k c Hc)))).
      assert (dkeys (dvalues imp) = names) as Kk by (now rewrite dkeys_dvalues).
      assert (forall k m, dget k (dvalues imp) = Some m -> vimp J sol rops k m) as Bb.
      { intros k m E. rewrite dget_dvalues in E. destruct (dget k imp) as [c|] eqn:Ec; [|discriminate].
        injection E as <-. exists c. split; auto. exact (proj2 (Db k c Ec)). }
      pose proof (pdrgep_step (vjob J) sol (vimp J sol rops) sampled (dvalues imp) (fimp_unique J sol rops) Kk Bb) as S1.
      exists (reduce_drgep (vjob J) (dvalues imp) sampled), (eshort (vjob J) sol (dvalues imp)), (Ok Shared).
      split; [exact S1|].
      split; [exact (pshort_sound (vjob J) sol (vimp J sol rops) (dvalues imp) (fimp_unique J sol rops) (proj1 WF) Kk Bb)|].
      split; [eauto|]. split; [discriminate|]. split; [discriminate|].
      split; [intros l' E'; now injection E' as <-|]. intros fuel limit.
      pose (post := fun r => if f_truthy (f_upper J) then
        l <- mlift (f_below imp (j_safe J) (match f_upper J with Some u => u | None => fzero end)
                            (species_names (r_model r))) ;;
        append_limbo r l else mret r).
      assert (frun DRGEP fuel dfuel J smp limit w =
              mbind (thr_run floatA fuel J sol (reduce_drgep (vjob J) (dvalues imp) sampled) limit (floor_f DRGEP) true) post w1) as ->.
      { unfold frun, frun_drgep. rewrite mbind_eq, (load_holds _ _ _ _ HO).
        destruct (j_targets J) as [|t0 tl] eqn:Et; [contradiction|]. rewrite <- Et in *. rewrite mbind_eq, SM.
        cbn [fst snd]. change (map (fun rop => f_drgep_matrix (fkin_of sol rop)) rops) with (fmatrices DRGEP sol rops).
        rewrite mbind_eq. unfold mlift at 1. rewrite Himp. rewrite !mbind_eq.
        rewrite (run_same J sol sampled limit (freduce_drgep J imp sampled) _ _ _ _ S1 AP
          (fun t prev wx Ft Hx => drgep_same J sol sampled imp t prev wx FI Ft Hx) fuel (floor_f DRGEP) true w1 H1).
        reflexivity. }
      rewrite mbind_eq. cbn [by_last].
      destruct (thr_run floatA fuel J sol (reduce_drgep (vjob J) (dvalues imp) sampled) limit (floor_f DRGEP) true w1)
        as [[r|e|] w2] eqn:R; simpl; auto.
      destruct (run_returns floatA J sol sampled _ _ _ _ limit S1 AP (floor_f DRGEP) fuel true w1 r w2 H1 R)
        as (s & w3 & _ & _ & F & _).
      destruct F as (C & _ & _ & Fl & _). pose proof (cut_incl _ _ _ _ C) as I.
      injection Fl as Fl. unfold post, fdrgep_limbo. rewrite UT1.
      destruct (truthy (j_upper J)) eqn:U.
      2: { exists w2. split; auto. split; auto. split; [contradiction|]. intros _. exists nil.
           now rewrite app_nil_r. }
      pose proof (upper_ok J sol rops TA) as UO.
      assert (b64_val match f_upper J with Some u => u | None => fzero end == upper_of J)%Q as Eu.
      { unfold f_upper. pose proof (upper_fin J sol rops TA) as UF. unfold f_upper in UF.
        destruct (j_upper J) as [u|]; [|discriminate]. simpl. exact (proj2 (UF _ eq_refl)). }
      set (ud := match f_upper J with Some u => u | None => fzero end) in *.
      rewrite mbind_eq. unfold mlift. rewrite (below_values imp (j_safe J) ud _ FI UO).
      rewrite (below_sub sol (dvalues imp) Kk _ _ _ I). unfold append_limbo. rewrite <- Fl.
      eexists. split; [reflexivity|]. split; [auto|]. split; [contradiction|]. intros _.
      eexists. split; [reflexivity|]. split; [apply filter_sublist|].
      intros x. rewrite filter_In, andb_true_iff, negb_true_iff, str_in_false, Qlt_bool_iff.
      split.
      + intros (X1 & X2 & X3). split; auto. split; auto.
        destruct (pcoeff_some sol (vimp J sol rops) (dvalues imp) Kk Bb x (I x X1)) as (v & _ & Ev & (c & Bc & ->)).
        rewrite Ev, Eu in X2. eauto.
      + intros (X1 & X2 & c & Bc & Lc). split; auto. split; auto.
        destruct (pcoeff_some sol (vimp J sol rops) (dvalues imp) Kk Bb x (I x X1)) as (v' & _ & -> & Bv').
        assert (vimp J sol rops x (b64_val c)) as Bv by (exists c; auto).
        pose proof (fimp_unique _ _ _ _ _ _ Bv Bv'). lra.
  Qed.

  Lemma frun_ok_search fuel limit r w' : frun me fuel dfuel J smp limit w = (Ok r, w') ->
    fsearch_ends me dfuel J sol rops.
  Proof.
    intros E Em. subst me. destruct ST as [WF HO [NE T] AP SM H1].
    unfold frun, frun_drgep in E. rewrite mbind_eq, (load_holds _ _ _ _ HO) in E.
    destruct (j_targets J) as [|t0 tl] eqn:Et; [discriminate|]. rewrite mbind_eq, SM in E.
    cbn [fst snd] in E. rewrite mbind_eq in E. unfold mlift at 1 in E.
    change (map (fun rop => f_drgep_matrix (fkin_of sol rop)) rops) with (fmatrices DRGEP sol rops) in E.
    destruct (f_importance_coeffs _ _ _ _) as [imp| |] eqn:Ei; try discriminate. eauto.
  Qed.
End Run.

Section Driver.
  Variables (me : method) (J : job) (smp : fsampler) (w : world) (sol : mech).
  Variables (sampled : list xnum) (rops : list (list b64)) (w1 : world) (limit : xnum).
  Hypothesis ST : fstarted J smp w sol sampled rops w1.
  Hypothesis TA : tame J sol rops.

  Notation K := (vkept me J sol rops).
  Notation FK := (fkept me J sol rops).
  Notation err := (error_of (j_conds J) sampled).
  Notation pass t := (passes J sol sampled limit (FK t)).
  Notation exceed t := (exceeds J sol sampled limit (FK t)).

  Lemma cut_vf t m : cut_to J sol (K (b64_val t)) m <-> cut_to J sol (FK t) m.
  Proof. split; apply cut_to_ext; intros s _; [|symmetry]; apply vkept_iff. Qed.
  Lemma pass_vf t : passes J sol sampled limit (K (b64_val t)) <-> pass t.
  Proof. split; intros (m & e & C & H); exists m, e; (split; [now apply cut_vf|exact H]). Qed.
  Lemma exceed_vf t : exceeds J sol sampled limit (K (b64_val t)) <-> exceed t.
  Proof. split; intros (m & e & C & H); exists m, e; (split; [now apply cut_vf|exact H]). Qed.

  Lemma fsol_nonempty : m_species sol <> nil.
  Proof.
    destruct (fs_job _ _ _ _ _ _ _ ST) as [N I]. destruct (j_targets J) as [|t l]; [contradiction|].
    intros E. specialize (I t (or_introl eq_refl)). unfold species_names in I. rewrite E in I. destruct I.
  Qed.

  Lemma fno_search fuel dfuel :
    fsearch_ends me dfuel J sol rops \/ snd (frun me fuel dfuel J smp limit w) = w1.
  Proof.
    destruct me eqn:Em; try (left; intros C; discriminate).
    destruct (f_importance_coeffs dfuel (species_names sol) (j_targets J) (fmatrices DRGEP sol rops))
      as [imp|e|] eqn:Ei; [left; intros _; eauto| |]; right;
      (unfold frun, frun_drgep; rewrite mbind_eq, (load_holds _ _ _ _ (fs_file _ _ _ _ _ _ _ ST));
       destruct (j_targets J) as [|t0 tl] eqn:Et;
         [destruct (fs_job _ _ _ _ _ _ _ ST) as [N _]; congruence|];
       rewrite mbind_eq, (fs_sample _ _ _ _ _ _ _ ST); cbn [fst snd];
       change (map (fun rop => f_drgep_matrix (fkin_of sol rop)) rops) with (fmatrices DRGEP sol rops);
       rewrite mbind_eq; unfold mlift at 1; rewrite Ei; reflexivity).
  Qed.

  Lemma foutcome_fs x y : foutcome me J sol rops x y -> forall g, w_fs (snd y) g = w_fs (snd x) g.
  Proof.
    destruct x as [[r|e|] w2]; simpl; intros O; try (subst y; reflexivity).
    destruct O as (w' & -> & H & _). exact H.
  Qed.

  Lemma fdriver_frame fuel dfuel g : (forall n, g <> out_file J n) ->
    w_fs (snd (frun me fuel dfuel J smp limit w)) g = w_fs w1 g.
  Proof.
    intros G. destruct (fno_search fuel dfuel) as [SE| ->]; auto.
    destruct (frun_spec me dfuel J smp sol w sampled rops w1 ST TA SE) as (red & short & lb & S1 & S2 & _ & _ & _ & S6 & O).
    specialize (O fuel limit).
    rewrite (foutcome_fs _ _ O).
    destruct (run_frame floatA J sol sampled red K short lb limit S1 (fs_apart _ _ _ _ _ _ _ ST)
                (floor_f me) fuel (by_last me) w1 (fs_file1 _ _ _ _ _ _ _ ST)) as [F _].
    now apply F.
  Qed.

  Lemma fdriver_ok fuel dfuel r w' : frun me fuel dfuel J smp limit w = (Ok r, w') ->
    exists red short lb w2,
      is_step J sol sampled red K short lb /\ short_sound sol K short /\
      thr_run floatA fuel J sol red limit (floor_f me) (by_last me) w1 = (Ok r, w2) /\
      (forall g, w_fs w' g = w_fs w2 g) /\ flimbo_spec me J sol rops (r_limbo r) /\
      (me <> DRGEP -> w_shared w' = w_shared w1) /\
      (me = DRGEP -> exists l, w_shared w' = (w_shared w1 ++ l)%list /\ fdrgep_limbo J sol rops (r_model r) l).
  Proof.
    intros E. pose proof (frun_ok_search me dfuel J smp sol w sampled rops w1 ST fuel limit r w' E) as SE.
    destruct (frun_spec me dfuel J smp sol w sampled rops w1 ST TA SE) as (red & short & lb & S1 & S2 & _ & _ & _ & S6 & O).
    specialize (O fuel limit). exists red, short, lb. rewrite E in O.
    pose proof (run_frame floatA J sol sampled red K short lb limit S1 (fs_apart _ _ _ _ _ _ _ ST)
                (floor_f me) fuel (by_last me) w1 (fs_file1 _ _ _ _ _ _ _ ST)) as [_ F].
    destruct (thr_run floatA fuel J sol red limit (floor_f me) (by_last me) w1) as [[r0|e|] w2] eqn:R; simpl in O; try discriminate.
    simpl in F. rewrite F in O.
    destruct (run_returns floatA J sol sampled red K short lb limit S1 (fs_apart _ _ _ _ _ _ _ ST) (floor_f me) fuel
                (by_last me) w1 r0 w2 (fs_file1 _ _ _ _ _ _ _ ST) R) as (s & w3 & _ & _ & Fr & _).
    destruct Fr as (_ & _ & _ & Fl & _). apply S6 in Fl.
    destruct O as (w'' & O & M1 & M2 & M3). injection O as <- <-. exists w2. auto 10.
  Qed.

  Lemma fdriver_file fuel dfuel r w' : frun me fuel dfuel J smp limit w = (Ok r, w') ->
    r_file r = out_file J (n_species (r_model r)) /\
    w_fs w' (r_file r) = Some (FMech [r_model r]) /\
    holds w' (r_file r) (j_phase J) (r_model r) /\
    err (r_model r) = Ok (r_error r) /\
    flimbo_spec me J sol rops (r_limbo r) /\
    (me <> DRGEP -> w_shared w' = w_shared w1) /\
    (me = DRGEP -> exists l, w_shared w' = (w_shared w1 ++ l)%list /\ fdrgep_limbo J sol rops (r_model r) l).
  Proof.
    intros E. destruct (fdriver_ok _ _ _ _ E) as (red & short & lb & w2 & S1 & S2 & R & M4 & M5).
    destruct (run_returns floatA J sol sampled red K short lb limit S1 (fs_apart _ _ _ _ _ _ _ ST) (floor_f me) fuel
                (by_last me) w1 r w2 (fs_file1 _ _ _ _ _ _ _ ST) R) as (s & w3 & _ & _ & F & _).
    destruct F as (C & Er & Fi & _ & W & _). rewrite M4. split; auto.
    assert (w_fs w2 (r_file r) = Some (FMech [r_model r])) as Hf by (rewrite W, String.eqb_refl; auto).
    split; auto. split; [|split; [exact Er|exact M5]]. exists [r_model r]. rewrite M4. split; auto.
    destruct C as (rm & _ & C). apply (trim_phase _ _ _ _ _ C).
  Qed.

  Section Fair.
    Hypothesis FA : fair J sol sampled limit.

    Lemma fdriver_scan fuel dfuel r w' : frun me fuel dfuel J smp limit w = (Ok r, w') ->
      exists j n t, (j < starts_f me)%nat /\ (forall i, (i < j)%nat -> exceed (start_f i)) /\
        (forall k, (k <= n)%nat -> pass (climb_f j k)) /\ exceed (climb_f j (S n)) /\
        b64_finite t /\
        (climb_v j n - (2 # 1) ^ (-49) * climb_v j n <= b64_val t <= climb_v j n + (2 # 1) ^ (-49) * climb_v j n)%Q /\
        cut_to J sol (FK t) (r_model r).
    Proof.
      intros E. destruct (fdriver_ok _ _ _ _ E) as (red & short & lb & w2 & S1 & S2 & R & _).
      destruct FA as [BL NN DE].
      destruct (run_scan_any floatA J sol sampled red K short lb limit S1 S2
        (fun t t' s => vkept_antitone me J sol rops t t' s) (fs_wf _ _ _ _ _ _ _ ST) (fs_apart _ _ _ _ _ _ _ ST)
        BL fsol_nonempty DE NN float_up (floor_f me) fuel (by_last me) w1 r w2 (fs_file1 _ _ _ _ _ _ _ ST) R)
        as (j & n & H1 & H2 & H3 & H4 & H5 & _).
      destruct n as [|n]; [lia|]. exists j, n, (A_back floatA (climb_at floatA j (S (S n))) (sd floatA j)).
      split; [destruct (le_lt_dec (starts_f me) j) as [G|]; auto; exfalso|].
      { assert (exists i, (S i = starts_f me)%nat) as [i Ei] by (destruct me; simpl; eauto).
        destruct (H1 i) as [_ Fl]; [lia|]. rewrite Ei in Fl. destruct me; vm_compute in Fl; discriminate. }
      split; [intros i Hi; apply exceed_vf; apply H1; auto|].
      split; [intros k Hk; apply pass_vf; apply H3; lia|].
      split; [apply exceed_vf; exact H4|]. split; [apply back_fin|]. split; [exact (back_rel j n)|].
      apply cut_vf. exact H5.
    Qed.

    (** No rounded coefficient between two thresholds. *)
    Lemma vkept_between a b : (a <= b)%Q ->
      (forall v, fcoefficient me J sol rops v -> (a <= v)%Q -> (b <= v)%Q) ->
      forall s, K a s <-> K b s.
    Proof.
      intros L H s. split; [|apply vkept_antitone; auto].
      assert (forall Fs, (forall F i j, In F Fs -> (a <= b64_val (fget F i j))%Q -> (b <= b64_val (fget F i j))%Q) ->
        gkept J sol (map values Fs) a s -> gkept J sol (map values Fs) b s) as G.
      { intros Fs HF [S|(Mx & tgt & H1 & H2 & H3)]; [now left|right]. exists Mx, tgt. split; auto. split; auto.
        apply in_map_iff in H1. destruct H1 as (F & <- & H1). clear H2.
        induction H3 as [|y z v R IH X Nz Le]; [now constructor|].
        econstructor; eauto. destruct X as (i & j & _ & _ & Ev). subst v. unfold values in *. rewrite mget_exact in *.
        now apply HF. }
      unfold fcoefficient, vkept in *. destruct me.
      - apply G. intros F i j HF. apply H. eauto.
      - apply G. intros F i j HF. apply H. eauto.
      - intros [S|(m & (c & Hc & ->) & Lm)]; [now left|right]. exists (b64_val c). split; [exists c; auto|].
        apply H; eauto.
    Qed.

    Lemma fclose_same t d : ~ fclose_coefficient me J sol rops (b64_val t) ->
      (b64_val t - (2 # 1) ^ (-49) * b64_val t <= b64_val d <= b64_val t + (2 # 1) ^ (-49) * b64_val t)%Q ->
      forall s, FK d s <-> FK t s.
    Proof.
      intros NC D s. rewrite <- !vkept_iff. destruct (Qlt_le_dec (b64_val d) (b64_val t)) as [L|L].
      - apply vkept_between; [lra|]. intros v Cv Lv. destruct (Qlt_le_dec v (b64_val t)); auto. exfalso.
        apply NC. exists v. split; auto. apply Qabs_Qle_condition. split; lra.
      - symmetry. apply vkept_between; auto. intros v Cv Lv. destruct (Qlt_le_dec v (b64_val d)); auto. exfalso.
        apply NC. exists v. split; auto. apply Qabs_Qle_condition. split; lra.
    Qed.

    Lemma fdriver_within fuel dfuel r w' : frun me fuel dfuel J smp limit w = (Ok r, w') ->
      exists j n, (j < starts_f me)%nat /\ (forall i, (i < j)%nat -> exceed (start_f i)) /\
        (forall k, (k <= n)%nat -> pass (climb_f j k)) /\ exceed (climb_f j (S n)) /\
        (~ fclose_coefficient me J sol rops (climb_v j n) ->
         xle (r_error r) limit = true /\ cut_to J sol (FK (climb_f j n)) (r_model r)).
    Proof.
      intros E. destruct (fdriver_scan _ _ _ _ E) as (j & n & t & Hj & H1 & H2 & H3 & Ft & H4 & H5).
      exists j, n. split; auto. split; auto. split; auto. split; auto. intros NC.
      assert (cut_to J sol (FK (climb_f j n)) (r_model r)) as C.
      { eapply cut_to_ext; [|exact H5]. intros s _. now apply fclose_same. }
      split; auto. destruct (H2 n (le_n _)) as (m & e & Cm & Em & L).
      destruct (fdriver_file _ _ _ _ E) as (_ & _ & _ & H6 & _).
      rewrite (cut_to_unique _ _ _ _ _ (fs_wf _ _ _ _ _ _ _ ST) Cm C), H6 in Em. injection Em as <-. auto.
    Qed.

    Lemma fdriver_exit fuel dfuel :
      (forall m, err m <> Raise SystemExit) -> rops <> nil -> fsearch_ends me dfuel J sol rops ->
      (starts_f me <= fuel)%nat ->
      fst (frun me fuel dfuel J smp limit w) = Raise SystemExit <->
      forall i, (i < starts_f me)%nat -> exceed (start_f i).
    Proof.
      intros NX NE SE Lf.
      destruct (frun_spec me dfuel J smp sol w sampled rops w1 ST TA SE) as (red & short & lb & S1 & S2 & S3 & S4 & S5 & S6 & O).
      specialize (O fuel limit). destruct FA as [BL NN DE].
      assert (lb <> Raise SystemExit) as LX by (intros C; apply S4 in C; discriminate).
      assert (exists l, lb = Ok l) as LO by (apply S3; unfold flimbo_ok; destruct me; auto).
      assert (length (map start_f (seq 0 (starts_f me))) <= fuel)%nat as Ll by (rewrite map_length, seq_length; auto).
      pose proof (run_exit_iff floatA J sol sampled red K short lb limit S1 S2
        (fs_wf _ _ _ _ _ _ _ ST) (fs_apart _ _ _ _ _ _ _ ST)
        BL fsol_nonempty DE NN NX LX (floor_f me) fuel (by_last me) w1 (map start_f (seq 0 (starts_f me)))
        (starts_attempts me) (fs_file1 _ _ _ _ _ _ _ ST) Ll LO) as X.
      transitivity (fst (thr_run floatA fuel J sol red limit (floor_f me) (by_last me) w1) = Raise SystemExit).
      - destruct (thr_run floatA fuel J sol red limit (floor_f me) (by_last me) w1) as [[r0|e|] w2]; simpl in O.
        + destruct O as (w' & -> & _). simpl. split; discriminate.
        + rewrite O. reflexivity.
        + rewrite O. reflexivity.
      - rewrite X, Forall_map, Forall_forall. split; intros H i Hi.
        + apply exceed_vf. apply (H i). apply in_seq. lia.
        + apply (exceed_vf (start_f i)). apply H. apply in_seq in Hi. lia.
    Qed.

    Lemma fdriver_forever fuel dfuel : rops <> nil -> fsearch_ends me dfuel J sol rops ->
      (forall n, pass (climb_f 0 n)) -> fst (frun me fuel dfuel J smp limit w) = NoFuel.
    Proof.
      intros NE SE P. destruct FA as [BL NN DE].
      destruct (frun_spec me dfuel J smp sol w sampled rops w1 ST TA SE) as (red & short & lb & S1 & S2 & S3 & S4 & S5 & S6 & O).
      specialize (O fuel limit).
      assert (exists l, lb = Ok l) as LO by (apply S3; unfold flimbo_ok; destruct me; auto).
      pose proof (run_diverges floatA J sol sampled red K short lb limit S1 (fs_wf _ _ _ _ _ _ _ ST)
        (fs_apart _ _ _ _ _ _ _ ST) NN (floor_f me) (by_last me) LO (fun n => proj2 (pass_vf (climb_f 0 n)) (P n))
        fuel w1 (fs_file1 _ _ _ _ _ _ _ ST)) as D.
      destruct (thr_run floatA fuel J sol red limit (floor_f me) (by_last me) w1) as [[r0|e|] w2]; simpl in D; try discriminate.
      simpl in O. rewrite O. reflexivity.
    Qed.

    (** *** High thresholds *)
    Lemma vhigh t s : rops <> nil -> (3 + 2 * inject_Z (Z.of_nat (n_species sol)) <= t)%Q ->
      (K t s <-> core me J s).
    Proof.
      intros NE Ht.
      assert (0 <= inject_Z (Z.of_nat (n_species sol)))%Q as Z0 by (change 0%Q with (inject_Z 0); rewrite <- Zle_Qle; lia).
      assert (forall k x, nth_error (species_names sol) k = Some x -> (k < n_species sol)%nat) as NL.
      { intros k x Hk. unfold n_species. rewrite <- (map_length sp_name). apply nth_error_Some.
        unfold species_names in Hk. congruence. }
      assert (forall Fs, Fs <> nil ->
        (forall F i j, In F Fs -> (i < n_species sol)%nat -> (j < n_species sol)%nat -> (b64_val (fget F i j) < t)%Q) ->
        (gkept J sol (map values Fs) t s <-> In s (j_safe J) \/ In s (j_targets J))) as G.
      { intros Fs NF B. unfold gkept. split; intros [H|H]; auto; right.
        - destruct H as (Mx & a & H1 & H2 & H3). apply in_map_iff in H1. destruct H1 as (F & <- & H1).
          destruct H3 as [|b c v Re (i & j & Ni & Nj & Ev) Nz Le]; auto. exfalso.
          apply NL in Ni. apply NL in Nj. subst v. unfold values in Le. rewrite mget_exact in Le.
          pose proof (B F i j H1 Ni Nj). lra.
        - destruct Fs as [|F Fs]; [contradiction|]. exists (values F), s. split; [simpl; auto|]. split; auto.
          constructor. now apply (proj2 (fs_job _ _ _ _ _ _ _ ST)). }
      assert (forall m, map (fun rop => m (fkin_of sol rop)) rops <> ([] : list fmatrix)) as NM.
      { intros m Hm. apply map_eq_nil in Hm. contradiction. }
      unfold core, vkept. destruct me.
      - rewrite G; [intuition congruence|apply NM|]. intros F i j HF Hi Hj. unfold fmatrices in HF. apply in_map_iff in HF.
        destruct HF as (rop & <- & HR).
        destruct (proj1 (coefficients_unit _ (ta_rates _ _ _ TA rop HR)) i j Hi Hj) as [_ U]. lra.
      - rewrite G; [intuition congruence|apply NM|]. intros F i j HF Hi Hj. unfold fmatrices in HF. apply in_map_iff in HF.
        destruct HF as (rop & <- & HR).
        destruct (pfa_range (fkin_of sol rop) (ta_rates _ _ _ TA rop HR)) as [R _].
        { simpl. pose proof (ta_size _ _ _ TA). lia. }
        destruct (R i j Hi Hj) as [_ U]. simpl fk_nsp in U. lra.
      - split; [|intros [H|[C _]]; [left; exact H|now contradiction C]].
        intros [H|(m & (c & Hc & ->) & Lm)]; [left; exact H|exfalso].
        assert (b64_val c <= 1)%Q.
        { destruct Hc as [_ [(F & tt & p & H1 & H2 & H3 & H4)|[_ Z]]]; [|lra].
          destruct (fchain_unit (species_names sol) F (drgep_funit J sol rops TA F H1) _ _ _ H3) as [_ U]. lra. }
        lra.
    Qed.

    Lemma fdriver_ends : rops <> nil -> (forall m, err m <> NoFuel) ->
      (exceeds J sol sampled limit (core me J) \/ (forall s, In s (species_names sol) -> ~ core me J s)) ->
      exists N, forall fuel dfuel, (N <= fuel)%nat -> (N <= dfuel)%nat ->
        fst (frun me fuel dfuel J smp limit w) <> NoFuel.
    Proof.
      intros NE NF HI. destruct FA as [BL NN DE].
      set (T := (3 + 2 * inject_Z (Z.of_nat (n_species sol)))%Q).
      destruct (fsearch_total J smp sol w sampled rops w1 ST TA) as (imp & N1 & HN1).
      assert (forall dfuel, (N1 <= dfuel)%nat -> fsearch_ends me dfuel J sol rops) as SE.
      { intros dfuel Ld _. eauto. }
      destruct (frun_spec me N1 J smp sol w sampled rops w1 ST TA (SE N1 (le_n _)))
        as (red & short & lb & S1 & S2 & S3 & S4 & S5 & S6 & O).
      assert (forall t, (T <= t)%Q -> exceeds J sol sampled limit (K t) \/ (forall s, In s (species_names sol) -> ~ K t s)) as HIGH.
      { intros t Ht. destruct HI as [(m & e & C & H)|HI].
        - left. exists m, e. split; auto. eapply cut_to_ext; [|exact C]. intros s _. symmetry. now apply vhigh.
        - right. intros s Hs Ks. apply (HI s Hs). now apply (vhigh t). }
      assert (T <= (2 # 1) ^ 30)%Q as HT.
      { unfold T. pose proof (ta_size _ _ _ TA) as SZ. rewrite Zle_Qle in SZ.
        change (inject_Z (2 ^ 28)) with (268435456 # 1)%Q in SZ. change ((2 # 1) ^ 30)%Q with (1073741824 # 1)%Q. lra. }
      destruct (run_ends floatA J sol sampled red K short lb limit S1 S2
        (fun t t' s => vkept_antitone me J sol rops t t' s) (fs_wf _ _ _ _ _ _ _ ST) (fs_apart _ _ _ _ _ _ _ ST) BL
        fsol_nonempty DE NN float_up NF S5 T HIGH
        (floor_f me) (by_last me) _ (starts_attempts me)) as [N2 HN2].
      { intros i Hi. rewrite map_length, seq_length in Hi. apply float_high; auto. destruct me; simpl in Hi; lia. }
      exists (max N1 N2). intros fuel dfuel Lf Ld E.
      assert (frun me fuel dfuel J smp limit w = frun me fuel N1 J smp limit w) as EQ.
      { destruct me; auto. unfold frun, frun_drgep. rewrite !mbind_eq. rewrite (load_holds _ _ _ _ (fs_file _ _ _ _ _ _ _ ST)).
        destruct (j_targets J) as [|t0 tl] eqn:Et; auto. rewrite !mbind_eq, (fs_sample _ _ _ _ _ _ _ ST). cbn [fst snd].
        change (map (fun rop => f_drgep_matrix (fkin_of sol rop)) rops) with (fmatrices DRGEP sol rops).
        rewrite !mbind_eq. unfold mlift. rewrite !HN1 by lia. reflexivity. }
      rewrite EQ in E. clear EQ.
      specialize (O fuel limit). specialize (HN2 fuel w1 ltac:(lia) (fs_file1 _ _ _ _ _ _ _ ST)).
      destruct (thr_run floatA fuel J sol red limit (floor_f me) (by_last me) w1) as [[r0|e|] w2]; simpl in O.
      - destruct O as (w' & O & _). rewrite O in E. discriminate.
      - rewrite O in E. discriminate.
      - now apply HN2.
    Qed.
  End Fair.
End Driver.
