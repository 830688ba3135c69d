(** The three reduction steps have the common shape. *)
From Coq Require Import String List QArith Bool Arith Lia Lqa.
From Verif.Base Require Import Py Num XNum Paths.
From Verif.Model Require Import Mech Matrices Graph World Metrics Drivers.
From Verif.Spec Require Import TrimSpec GraphSpec DriverSpec.
From Verif.Proofs Require Import PyFacts NumFacts TrimFacts DfsFacts GraphMore MatrixFacts ImportanceFacts StepFacts.
Import ListNotations.
Local Open Scope string_scope.

Lemma retained_spec Ms names targets thr : incl targets names ->
  exists keep, retained Ms names targets thr = Ok keep /\ NoDup keep /\
    (forall s, In s keep <-> exists Mx tgt, In Mx Ms /\ In tgt targets /\ reach names Mx thr tgt s).
Proof.
  intros I. unfold retained.
  assert (exists ls, mapM (fun Mx => trim_drg Mx names targets thr) Ms = Ok ls /\
    forall s, In s (concat ls) <-> exists Mx tgt, In Mx Ms /\ In tgt targets /\ reach names Mx thr tgt s)
    as (ls & E & H).
  { induction Ms as [|Mx Ms (ls & E & H)].
    - exists nil. split; auto. intros s. split; [intros []|]. intros (Mx & tgt & [] & _).
    - destruct (trim_drg_spec Mx names targets thr I) as (r & R & _ & K).
      exists (r :: ls). simpl. rewrite R. simpl. rewrite E. split; auto. intros s.
      rewrite in_app_iff, K, H. split.
      + intros [(tgt & T1 & T2)|(My & tgt & T0 & T1 & T2)]; [exists Mx, tgt|exists My, tgt]; auto.
      + intros (My & tgt & [<-|T0] & T1 & T2); [left; eauto|right; eauto 6]. }
  rewrite E. simpl. eexists. split; [reflexivity|]. split; [apply set_of_nodup|].
  intros s. now rewrite set_of_in.
Qed.

Lemma reach_names names Mx thr a s : reach names Mx thr a s -> In s names.
Proof. intros H. destruct H; auto. destruct H0 as (i & j & _ & E & _). eapply nth_error_In; eauto. Qed.

Section Graph.
  Variables (J : job) (sol : mech) (Ms : list matrix) (sampled : list xnum).
  Hypothesis T : incl (j_targets J) (species_names sol).

  (** The species kept by DRG and PFA at threshold [t]. *)
  Definition gkept (t : Q) (s : string) : Prop :=
    In s (j_safe J) \/
    exists Mx tgt, In Mx Ms /\ In tgt (j_targets J) /\ reach (species_names sol) Mx t tgt s.

  Definition gshort (t : Q) (p : rmodel) : bool :=
    match retained Ms (species_names sol) (j_targets J) t with
    | Ok keep => Nat.eqb (length keep) (n_species (r_model p))
    | _ => false
    end.

  Definition drg_limbo : res limbo :=
    if truthy (j_upper J)
    then bind (retained Ms (species_names sol) (j_targets J)
                        (match j_upper J with Some u => u | None => 0%Q end)) (fun l => Ok (Own l))
    else Ok (Own nil).

  Definition pfa_limbo : res limbo :=
    if truthy (j_upper J) then
      match Ms with nil => Raise UnboundLocalError | _ => Ok (Own nil) end
    else Ok (Own nil).

  Lemma gshort_sound : short_sound sol gkept gshort.
  Proof.
    intros t p S ND I H s Hs. unfold gshort in S.
    destruct (retained_spec Ms (species_names sol) (j_targets J) t T) as (keep & E & NK & K).
    rewrite E in S. apply Nat.eqb_eq in S. right. apply K.
    assert (incl keep (species_names (r_model p))) as I1.
    { intros x Hx. apply H.
      - apply K in Hx. destruct Hx as (Mx & tgt & _ & _ & R). eapply reach_names; eauto.
      - right. now apply K. }
    assert (incl (species_names (r_model p)) keep) as I2.
    { apply NoDup_length_incl; auto. rewrite names_length. lia. }
    auto.
  Qed.

  Lemma removed_spec keep t s :
    (forall s, In s keep <-> exists Mx tgt, In Mx Ms /\ In tgt (j_targets J) /\ reach (species_names sol) Mx t tgt s) ->
    In s (species_names sol) ->
    (~ In s (not_in (species_names sol) (keep ++ j_safe J)) <-> gkept t s).
  Proof.
    intros K Hs. rewrite not_in_spec, in_app_iff. unfold gkept. rewrite K.
    destruct (in_dec string_dec s keep) as [I|I]; destruct (in_dec string_dec s (j_safe J)) as [I'|I'];
      rewrite K in I; tauto.
  Qed.

  Lemma drg_step : is_step J sol sampled (reduce_drg J Ms sampled) gkept gshort drg_limbo.
  Proof.
    intros t.
    destruct (retained_spec Ms (species_names sol) (j_targets J) t T) as (keep & E & NK & K).
    exists (not_in (species_names sol) (keep ++ j_safe J)). split.
    { intros s Hs. now apply removed_spec. }
    intros prev w H. set (removed := not_in (species_names sol) (keep ++ j_safe J)).
    pose (go := r <- cut_and_score J sampled removed;;
      (let '(red, f, error) := r in
       limbo <- (if truthy (j_upper J)
              then mlift (retained Ms (species_names sol) (j_targets J)
                                   (match j_upper J with Some u => u | None => 0%Q end))
              else mret nil) ;;
       mret (mkRM red f error (Own limbo)))).
    assert (reduce_drg J Ms sampled t prev w =
            match prev with
            | Some p => if gshort t p then mret p else go
            | None => go
            end w) as R.
    { unfold reduce_drg, mbind at 1. rewrite (load_holds _ _ _ _ H). unfold mbind at 1, mlift at 1.
      rewrite E. destruct prev; [|reflexivity]. unfold gshort. rewrite E. reflexivity. }
    rewrite R. clear R.
    assert (match cut_removing J sol removed with
       | Ok m => exists w', wrote w (out_file J (n_species m)) m w' /\
           go w =
           (bind (error_of (j_conds J) sampled m) (fun e =>
              bind drg_limbo (fun l => Ok (mkRM m (out_file J (n_species m)) e l))), w')
       | Raise e => go w = (Raise e, w)
       | NoFuel => False
       end) as G.
    { pose proof (cut_and_score_eq J sampled removed w sol H) as C. unfold go.
      pose proof (cut_removing_total J sol removed) as NF.
      destruct (cut_removing J sol removed) as [m|e|]; [| |contradiction].
      - destruct C as (w' & W & C). exists w'. split; auto. unfold mbind at 1. rewrite C.
        destruct (error_of (j_conds J) sampled m); simpl; auto.
        unfold drg_limbo, mbind. destruct (truthy (j_upper J)); [|reflexivity].
        unfold mlift. destruct (retained Ms (species_names sol) (j_targets J) (match j_upper J with Some u => u | None => 0%Q end)); reflexivity.
      - unfold mbind. now rewrite C. }
    destruct prev as [p|].
    - destruct (gshort t p) eqn:S.
      + left. exists p. auto.
      + right. split; [intros q [= <-]; auto|exact G].
    - right. split; [discriminate|exact G].
  Qed.

  Lemma pfa_more_nil keep more :
    not_in (species_names sol)
      ((keep ++ more) ++ j_safe J ++ not_in (species_names sol) (keep ++ j_safe J)) = nil.
  Proof.
    destruct (not_in _ _) as [|x l] eqn:E; auto. exfalso.
    assert (In x (x :: l)) as I by (simpl; auto). rewrite <- E in I. apply not_in_spec in I.
    destruct I as [I1 I2]. rewrite !in_app_iff, not_in_spec, in_app_iff in I2.
    destruct (in_dec string_dec x keep); destruct (in_dec string_dec x (j_safe J)); tauto.
  Qed.

  Lemma pfa_step_shape : is_step J sol sampled (reduce_pfa J Ms sampled) gkept gshort pfa_limbo.
  Proof.
    intros t.
    destruct (retained_spec Ms (species_names sol) (j_targets J) t T) as (keep & E & NK & K).
    exists (not_in (species_names sol) (keep ++ j_safe J)). split.
    { intros s Hs. now apply removed_spec. }
    intros prev w H. set (removed := not_in (species_names sol) (keep ++ j_safe J)).
    pose (go := r <- cut_and_score J sampled removed;;
      (let '(red, f, error) := r in
       limbo <- (match (if truthy (j_upper J) then j_upper J else None) with
              | None => mret nil
              | Some u =>
                  match last (map Some Ms) None with
                  | None => mraise UnboundLocalError
                  | Some Mx =>
                      more <- mlift (trim_pfa Mx (species_names sol) (j_targets J) u) ;;
                      mret (not_in (species_names sol) ((keep ++ more) ++ j_safe J ++ removed))
                  end
              end) ;;
       mret (mkRM red f error (Own limbo)))).
    assert (reduce_pfa J Ms sampled t prev w =
            match prev with
            | Some p => if gshort t p then mret p else go
            | None => go
            end w) as R.
    { unfold reduce_pfa, mbind at 1. rewrite (load_holds _ _ _ _ H). unfold mbind at 1, mlift at 1.
      unfold gshort. unfold retained in *. 
      change (mapM (fun Mx => trim_pfa Mx (species_names sol) (j_targets J) t) Ms)
        with (mapM (fun Mx => trim_drg Mx (species_names sol) (j_targets J) t) Ms).
      destruct (mapM _ Ms) as [ls| |]; simpl in E; try discriminate. injection E as E.
      cbn [bind]. cbv zeta. rewrite E. destruct prev; reflexivity. }
    rewrite R. clear R.
    assert (match cut_removing J sol removed with
       | Ok m => exists w', wrote w (out_file J (n_species m)) m w' /\
           go w =
           (bind (error_of (j_conds J) sampled m) (fun e =>
              bind pfa_limbo (fun l => Ok (mkRM m (out_file J (n_species m)) e l))), w')
       | Raise e => go w = (Raise e, w)
       | NoFuel => False
       end) as G.
    { pose proof (cut_and_score_eq J sampled removed w sol H) as C. unfold go.
      pose proof (cut_removing_total J sol removed) as NF.
      destruct (cut_removing J sol removed) as [m|e|]; [| |contradiction].
      - destruct C as (w' & W & C). exists w'. split; auto. unfold mbind at 1. rewrite C.
        destruct (error_of (j_conds J) sampled m); simpl; auto.
        unfold pfa_limbo. destruct (truthy (j_upper J)) eqn:U; [|reflexivity].
        destruct (j_upper J) as [u|]; [|discriminate].
        destruct Ms as [|M0 Ms']; [reflexivity|].
        assert (exists My, last (map Some (M0 :: Ms')) None = Some My) as (My & L).
        { clear. revert M0. induction Ms' as [|a l IH]; intros M0; simpl; eauto. apply (IH a). }
        rewrite L. unfold mbind, mlift.
        change (trim_pfa My) with (trim_drg My).
        destruct (trim_drg_spec My (species_names sol) (j_targets J) u T) as (r & Rr & _). rewrite Rr.
        unfold removed. rewrite pfa_more_nil. reflexivity.
      - unfold mbind. now rewrite C. }
    destruct prev as [p|].
    - destruct (gshort t p) eqn:S.
      + left. exists p. auto.
      + right. split; [intros q [= <-]; auto|exact G].
    - right. split; [discriminate|exact G].
  Qed.

  Lemma gkept_antitone t t' s : (t <= t')%Q -> gkept t' s -> gkept t s.
  Proof.
    intros L [H|(Mx & tgt & H1 & H2 & H3)]; [left; auto|right]. exists Mx, tgt. split; auto. split; auto.
    eapply reach_antitone; eauto.
  Qed.
End Graph.

(** More fuel does not change a finished search. *)
Lemma dij_loop_more g s c : forall fuel dist seen fr n r,
  dij_loop fuel g s c dist seen fr n = Ok r ->
  forall fuel', (fuel <= fuel')%nat -> dij_loop fuel' g s c dist seen fr n = Ok r.
Proof.
  induction fuel as [|fuel IH]; intros dist seen fr n r H fuel' L.
  - simpl in H. destruct fuel'; simpl; destruct (pop_min fr) as [[[[d k] v] fr']|]; auto; discriminate.
  - destruct fuel' as [|fuel']; [lia|]. simpl in *.
    destruct (pop_min fr) as [[[[d k] v] fr']|]; auto.
    destruct (match dget v dist with Some dv => Qlt_bool d dv | None => false end).
    + eapply IH; eauto. lia.
    + destruct (str_in v (g_nodes g)); [|discriminate].
      destruct (fold_left _ _ _) as [[seen' fr''] n']. eapply IH; eauto. lia.
Qed.

Lemma search_more g ts : forall o fuel r, graph_search_drgep fuel g ts o = Ok r ->
  forall fuel', (fuel <= fuel')%nat -> graph_search_drgep fuel' g ts o = Ok r.
Proof.
  induction ts as [|t ts IH]; intros o fuel r H fuel' L; simpl in *; auto.
  destruct (ss_dijkstra fuel g t None) as [co| |] eqn:E; try discriminate.
  unfold ss_dijkstra in *. rewrite (dij_loop_more _ _ _ _ _ _ _ _ _ E fuel' L). simpl in *.
  eapply IH; eauto.
Qed.

Lemma importance_more names targets Ms : forall imp fuel r, importance_loop fuel names targets Ms imp = Ok r ->
  forall fuel', (fuel <= fuel')%nat -> importance_loop fuel' names targets Ms imp = Ok r.
Proof.
  induction Ms as [|Mx Ms IH]; intros imp fuel r H fuel' L; simpl in *; auto.
  destruct (graph_search_drgep fuel _ _ _) as [co| |] eqn:E; try discriminate.
  rewrite (search_more _ _ _ _ _ E fuel' L). simpl in *. eapply IH; eauto.
Qed.

Lemma importance_any fuel names targets Ms r :
  NoDup names -> incl targets names -> (forall M, In M Ms -> unit_matrix (length names) M) ->
  get_importance_coeffs fuel names targets Ms = Ok r ->
  dkeys r = names /\ (forall k m, dget k r = Some m -> is_importance names targets Ms k m).
Proof.
  intros ND I U E. destruct (importance_spec names targets Ms ND I U) as (r' & N & H & K & B).
  assert (r = r') as ->; [|auto].
  pose proof (importance_more _ _ _ _ _ _ E (Nat.max fuel N)) as E1.
  specialize (H (Nat.max fuel N)). unfold get_importance_coeffs in H. rewrite E1 in H by lia.
  assert (Ok r = Ok r') as X by (apply H; lia). now injection X.
Qed.

Lemma importance_unique names targets Ms k m m' :
  is_importance names targets Ms k m -> is_importance names targets Ms k m' -> (m == m')%Q.
Proof.
  intros [A1 [(M & t & p & H1 & H2 & H3 & H4)|[N Z]]] [B1 [(M' & t' & p' & H1' & H2' & H3' & H4')|[N' Z']]].
  - specialize (A1 _ _ _ H1' H2' H3'). specialize (B1 _ _ _ H1 H2 H3). lra.
  - exfalso. eapply N'; eauto.
  - exfalso. eapply N; eauto.
  - lra.
Qed.

(** DRGEP with any notion [P] of what the importance of a species is. *)
Section DrgepAny.
  Variables (J : job) (sol : mech) (P : string -> Q -> Prop) (sampled : list xnum) (imp : dict Q).
  Hypothesis U : forall s m m', P s m -> P s m' -> (m == m')%Q.
  Hypothesis ND : NoDup (species_names sol).
  Hypothesis K : dkeys imp = species_names sol.
  Hypothesis B : forall k m, dget k imp = Some m -> P k m.

  Definition pkept (t : Q) (s : string) : Prop :=
    In s (j_safe J) \/ exists m, P s m /\ (t <= m)%Q.

  Definition ebelow (t : Q) : list string :=
    filter (fun s => Qlt_bool (dget_or s 0 imp) t && negb (str_in s (j_safe J))) (species_names sol).

  Definition eshort (t : Q) (p : rmodel) : bool :=
    Z.eqb (Z.of_nat (length (ebelow t))) (Z.of_nat (n_species sol) - Z.of_nat (n_species (r_model p))).

  Lemma below_sub safe t names : incl names (species_names sol) ->
    below imp safe t names =
    Ok (filter (fun s => Qlt_bool (dget_or s 0 imp) t && negb (str_in s safe)) names).
  Proof.
    intros I. unfold below.
    assert (mapM (fun s => bind (coeff imp s) (fun v => Ok (s, v))) names =
            Ok (map (fun s => (s, dget_or s 0 imp)) names)) as ->.
    { induction names as [|s l IH]; simpl; auto. rewrite IH by (intros x Hx; apply I; simpl; auto).
      assert (In s (dkeys imp)) as Hs by (rewrite K; apply I; simpl; auto).
      apply dget_some_key in Hs. destruct Hs as [v Hv]. unfold coeff, dget_or. rewrite Hv. reflexivity. }
    simpl. f_equal. clear I. induction names as [|s l IH]; simpl; auto.
    destruct (Qlt_bool (dget_or s 0 imp) t && negb (str_in s safe)); simpl; now rewrite IH.
  Qed.

  Lemma pcoeff_some s : In s (species_names sol) -> exists v, dget s imp = Some v /\ dget_or s 0 imp = v /\
    P s v.
  Proof.
    intros Hs. rewrite <- K in Hs. apply dget_some_key in Hs. destruct Hs as [v Hv]. exists v.
    unfold dget_or. rewrite Hv. auto.
  Qed.

  Lemma pbelow_spec t s : In s (species_names sol) -> (~ In s (ebelow t) <-> pkept t s).
  Proof.
    intros Hs. unfold ebelow. rewrite filter_In, andb_true_iff, negb_true_iff, str_in_false, Qlt_bool_iff.
    destruct (pcoeff_some s Hs) as (v & _ & -> & Bv). unfold pkept. split.
    - intros H. destruct (in_dec string_dec s (j_safe J)); auto. right. exists v. split; auto.
      destruct (Qlt_le_dec v t); tauto.
    - intros [H|(m & Bm & L)] [_ [L' S]]; [tauto|].
      pose proof (U _ _ _ Bv Bm). lra.
  Qed.

  Lemma pshort_sound : short_sound sol pkept eshort.
  Proof.
    intros t p S NDp I H s Hs. unfold eshort in S. apply Z.eqb_eq in S.
    assert (length (filter (fun x => negb (str_in x (ebelow t))) (species_names sol)) =
            n_species (r_model p)) as L.
    { assert (forall names f, NoDup names ->
        (length (filter (fun x => negb (str_in x (filter f names))) names) + length (filter f names) = length names)%nat) as G.
      { intros names f _.
        assert (forall l, incl l names ->
          (length (filter (fun x => negb (str_in x (filter f names))) l) + length (filter f l) = length l)%nat) as G'.
        { induction l as [|x l IH]; intros Il; simpl; auto.
          assert (str_in x (filter f names) = f x) as ->.
          { destruct (f x) eqn:F.
            - apply str_in_iff, filter_In. split; auto. apply Il; simpl; auto.
            - apply str_in_false. rewrite filter_In. intros [_ C]. congruence. }
          assert (incl l names) as Il' by (intros y Hy; apply Il; simpl; auto).
          specialize (IH Il'). destruct (f x); simpl; lia. }
        apply G'. intros x Hx; auto. }
      specialize (G (species_names sol) (fun s => Qlt_bool (dget_or s 0 imp) t && negb (str_in s (j_safe J)))%bool ND).
      fold (ebelow t) in G. rewrite names_length in G. lia. }
    assert (incl (filter (fun x => negb (str_in x (ebelow t))) (species_names sol)) (species_names (r_model p))) as I1.
    { intros x Hx. apply filter_In in Hx. destruct Hx as [X1 X2]. apply negb_true_iff, str_in_false in X2.
      apply H; auto. now apply pbelow_spec. }
    assert (incl (species_names (r_model p)) (filter (fun x => negb (str_in x (ebelow t))) (species_names sol))) as I2.
    { apply NoDup_length_incl; auto. apply NoDup_filter; auto. rewrite names_length. lia. }
    apply I2 in Hs. apply filter_In in Hs. destruct Hs as [X1 X2]. apply negb_true_iff, str_in_false in X2.
    now apply pbelow_spec.
  Qed.

  Lemma pdrgep_step : is_step J sol sampled (reduce_drgep J imp sampled) pkept eshort (Ok Shared).
  Proof.
    intros t. exists (ebelow t). split.
    { intros s Hs. now apply pbelow_spec. }
    intros prev w H.
    pose (go := r <- cut_and_score J sampled (ebelow t);;
      (let '(red, f, error) := r in mret (mkRM red f error Shared))).
    assert (reduce_drgep J imp sampled t prev w =
            match prev with
            | Some p => if eshort t p then mret p else go
            | None => go
            end w) as R.
    { unfold reduce_drgep, mbind at 1. rewrite (load_holds _ _ _ _ H). unfold mbind at 1, mlift at 1.
      rewrite below_sub by (intros x Hx; auto). destruct prev; reflexivity. }
    rewrite R. clear R.
    assert (match cut_removing J sol (ebelow t) with
       | Ok m => exists w', wrote w (out_file J (n_species m)) m w' /\
           go w =
           (bind (error_of (j_conds J) sampled m) (fun e =>
              bind (Ok Shared) (fun l => Ok (mkRM m (out_file J (n_species m)) e l))), w')
       | Raise e => go w = (Raise e, w)
       | NoFuel => False
       end) as G.
    { pose proof (cut_and_score_eq J sampled (ebelow t) w sol H) as C. unfold go.
      pose proof (cut_removing_total J sol (ebelow t)) as NF.
      destruct (cut_removing J sol (ebelow t)) as [m|e|]; [| |contradiction].
      - destruct C as (w' & W & C). exists w'. split; auto. unfold mbind at 1. rewrite C.
        destruct (error_of (j_conds J) sampled m); simpl; auto.
      - unfold mbind. now rewrite C. }
    destruct prev as [p|].
    - destruct (eshort t p) eqn:S.
      + left. exists p. auto.
      + right. split; [intros q [= <-]; auto|exact G].
    - right. split; [discriminate|exact G].
  Qed.

  Lemma pkept_antitone t t' s : (t <= t')%Q -> pkept t' s -> pkept t s.
  Proof. intros L [H|(m & Hm & L')]; [left; auto|right]. exists m. split; auto. lra. Qed.
End DrgepAny.

Section Drgep.
  Variables (J : job) (sol : mech) (Ms : list matrix) (sampled : list xnum) (imp : dict Q).
  Hypothesis ND : NoDup (species_names sol).
  Hypothesis K : dkeys imp = species_names sol.
  Notation P := (is_importance (species_names sol) (j_targets J) Ms).
  Hypothesis B : forall k m, dget k imp = Some m -> P k m.

  (** The species kept by DRGEP at threshold [t]. *)
  Definition ekept : Q -> string -> Prop := pkept J P.

  Lemma coeff_some s : In s (species_names sol) -> exists v, dget s imp = Some v /\ dget_or s 0 imp = v /\ P s v.
  Proof. exact (pcoeff_some sol P imp K B s). Qed.

  Lemma eshort_sound : short_sound sol ekept (eshort J sol imp).
  Proof. exact (pshort_sound J sol P imp (fun s => importance_unique _ _ _ s) ND K B). Qed.

  Lemma drgep_step : is_step J sol sampled (reduce_drgep J imp sampled) ekept (eshort J sol imp) (Ok Shared).
  Proof. exact (pdrgep_step J sol P sampled imp (fun s => importance_unique _ _ _ s) K B). Qed.

  Lemma ekept_antitone t t' s : (t <= t')%Q -> ekept t' s -> ekept t s.
  Proof. exact (pkept_antitone J P t t' s). Qed.
End Drgep.

Lemma drgep_unit sol rops : forall Mx, In Mx (matrices DRGEP sol rops) ->
  unit_matrix (length (species_names sol)) Mx.
Proof.
  intros Mx H. unfold matrices in H. apply in_map_iff in H. destruct H as (rop & <- & _).
  intros i j Hi Hj. apply drgep_bounds; simpl; unfold species_names in *; rewrite map_length in *; auto.
Qed.

(** All three methods at once. *)
Definition limbo_ok (me : method) (J : job) (rops : list (list Q)) : Prop :=
  match me with PFA => truthy (j_upper J) = true -> rops <> nil | _ => True end.

Lemma reduce_is_step me dfuel J sol rops sampled :
  wf_mech sol -> incl (j_targets J) (species_names sol) ->
  (exists imp, me = DRGEP ->
     get_importance_coeffs dfuel (species_names sol) (j_targets J) (matrices DRGEP sol rops) = Ok imp) ->
  exists short lb,
    is_step J sol sampled (reduce me dfuel J sol rops sampled) (kept me J sol rops) short lb /\
    short_sound sol (kept me J sol rops) short /\
    (limbo_ok me J rops -> exists l, lb = Ok l) /\
    (forall e, lb = Raise e -> e = UnboundLocalError) /\ lb <> NoFuel /\
    (forall l, lb = Ok l -> limbo_spec me J sol rops l).
Proof.
  intros [ND W] T [imp E]. destruct me.
  - exists (gshort J sol (matrices DRG sol rops)), (drg_limbo J sol (matrices DRG sol rops)).
    split; [apply (drg_step J sol _ sampled T)|]. split; [apply (gshort_sound J sol _ T)|].
    assert (exists l, drg_limbo J sol (matrices DRG sol rops) = Ok l /\ limbo_spec DRG J sol rops l) as (l & Hl & Sl).
    { unfold drg_limbo, limbo_spec. fold (upper_of J). destruct (truthy (j_upper J)); [|eauto].
      edestruct retained_spec as (keep & R & _ & R2); [exact T|]. rewrite R. simpl. eauto. }
    rewrite Hl. split; [eauto|]. split; [discriminate|]. split; [discriminate|]. intros l' E'. injection E' as <-. auto.
  - exists (gshort J sol (matrices PFA sol rops)), (pfa_limbo J (matrices PFA sol rops)).
    split; [apply (pfa_step_shape J sol _ sampled T)|]. split; [apply (gshort_sound J sol _ T)|].
    unfold pfa_limbo, limbo_ok. destruct (truthy (j_upper J)).
    + destruct (matrices PFA sol rops) eqn:Em.
      * split; [|split; [congruence|split; [discriminate|discriminate]]]. intros N. exfalso. apply N; auto.
        destruct rops; [auto|discriminate].
      * split; [eauto|]. split; [discriminate|]. split; [discriminate|]. intros l' E'. now injection E' as <-.
    + split; [eauto|]. split; [discriminate|]. split; [discriminate|]. intros l' E'. now injection E' as <-.
  - specialize (E eq_refl).
    destruct (importance_any _ _ _ _ _ ND T (drgep_unit sol rops) E) as [K B].
    exists (eshort J sol imp), (Ok Shared).
    split; [|split; [apply (eshort_sound J sol (matrices DRGEP sol rops) imp ND K B)|]].
    + assert (forall t prev w, reduce DRGEP dfuel J sol rops sampled t prev w = reduce_drgep J imp sampled t prev w) as R.
      { intros. unfold reduce, mbind, mlift. now rewrite E. }
      intros t. destruct (drgep_step J sol (matrices DRGEP sol rops) sampled imp K B t) as (rm & H1 & H2).
      exists rm. split; [exact H1|]. intros prev w H. rewrite R. apply H2; auto.
    + split; [eauto|]. split; [discriminate|]. split; [discriminate|]. intros l' E'. now injection E' as <-.
Qed.

Lemma kept_antitone me J sol rops t t' s : (t <= t')%Q ->
  kept me J sol rops t' s -> kept me J sol rops t s.
Proof.
  destruct me; [apply gkept_antitone|apply gkept_antitone|apply ekept_antitone].
Qed.
