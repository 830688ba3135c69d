(** The threshold loop with any arithmetic: what it returns, and when. *)
From Coq Require Import String List QArith Bool Arith Lia Lqa.
From Verif.Base Require Import Py Num XNum Paths.
From Verif.Model Require Import Mech Matrices Graph World Metrics Drivers.
From Verif.Spec Require Import TrimSpec GraphSpec DriverSpec.
From Verif.Proofs Require Import PyFacts NumFacts TrimFacts StepFacts LoopFacts.
Import ListNotations.
Local Open Scope string_scope.

(** The [j]-th start, and [k] increments of the same size above it. *)
Definition sd (A : arith) (j : nat) : A_t A := Nat.iter j (A_div10 A) (A_start A).
Definition climb_at (A : arith) (j k : nat) : A_t A :=
  Nat.iter k (fun t => A_add A t (sd A j)) (sd A j).

Section Generic.
  Variables (A : arith) (J : job) (sol : mech) (sampled : list xnum).
  Variables (red : Q -> option rmodel -> M rmodel) (K : Q -> string -> Prop).
  Variables (short : Q -> rmodel -> bool) (lb : res limbo) (limit : xnum).
  Hypothesis STEP : is_step J sol sampled red K short lb.
  Hypothesis SHORT : short_sound sol K short.
  Hypothesis MONO : forall t t' s, (t <= t')%Q -> K t' s -> K t s.
  Hypothesis WF : wf_mech sol.
  Hypothesis APART : input_apart J.
  Hypothesis BLIND : name_blind (j_conds J).
  Hypothesis NONEMPTY : m_species sol <> nil.
  Notation start := (init J sol).
  Hypothesis SOLOK : sc J sampled limit start.
  Hypothesis NONNEG : xle (Fin 0) limit = true.
  (** Adding the increment never lowers the threshold. *)
  Hypothesis UP : forall j k, (A_val A (climb_at A j k) <= A_val A (climb_at A j (S k)))%Q.

  Notation inp w := (holds w (j_file J) (j_phase J) sol).
  Notation err := (error_of (j_conds J) sampled).
  Notation pass t := (passes J sol sampled limit (K t)).
  Notation exceed t := (exceeds J sol sampled limit (K t)).
  Notation val := (A_val A).

  Definition ginv (floor : A_t A -> bool) (s : lstate A) : Prop :=
    exists j, l_inc s = sd A j /\ (forall i, (i < j)%nat -> exceed (val (sd A i)) /\ floor (sd A (S i)) = false) /\
      if l_first s then l_thr s = sd A j /\ l_prev s = start /\ l_err s = Fin 0
      else exists n, l_thr s = climb_at A j (S n) /\ inv J sol K (val (climb_at A j n)) (l_prev s) /\
             l_err s = r_error (l_prev s) /\ l_last s = Some (l_prev s) /\
             (forall k, (k < n)%nat -> pass (val (climb_at A j k))) /\
             (xle (l_err s) limit = true -> pass (val (climb_at A j n)) /\ sc J sampled limit (l_prev s)) /\
             (xgt (l_err s) limit = true -> (1 <= n)%nat /\ exceed (val (climb_at A j n))).

  (** The state in which a pass of the loop starts satisfies what a step needs. *)
  Lemma ginv_ready floor s : ginv floor s -> xle (l_err s) limit = true ->
    inv J sol K (val (l_thr s)) (l_prev s) /\ sc J sampled limit (l_prev s) /\
    xle (r_error (l_prev s)) limit = true.
  Proof.
    intros (j & _ & _ & I) L. destruct (l_first s).
    - destruct I as (_ & -> & _). split; [now apply init_inv|]. split; [exact SOLOK|exact NONNEG].
    - destruct I as (n & Tn & In & Ee & _ & _ & S & _). rewrite Tn. destruct (S L) as [_ S2].
      split; [|split; [auto|congruence]]. eapply inv_mono; [exact MONO| |exact In]. apply UP.
  Qed.

  Lemma ginv_next floor s r w w' : inp w -> ginv floor s -> xle (l_err s) limit = true ->
    red (val (l_thr s)) (Some (l_prev s)) w = (Ok r, w') ->
    if (l_first s && xgt (r_error r) limit)%bool
    then floor (A_div10 A (l_thr s)) = false ->
         ginv floor (mkLS (l_prev s) (l_first s) (Fin 0) (A_div10 A (l_thr s)) (A_div10 A (l_inc s)) (Some r))
    else ginv floor (mkLS r false (r_error r) (A_add A (l_thr s) (l_inc s)) (l_inc s) (Some r)).
  Proof.
    intros H I L E. destruct (ginv_ready _ s I L) as (Ip & Sp & Lp).
    destruct (step_pass J sol sampled red K short lb limit STEP SHORT WF BLIND _ _ _ _ _ H Ip Sp E) as [Ir D].
    assert (xle (r_error r) limit = true -> pass (val (l_thr s)) /\ sc J sampled limit r) as D1.
    { intros X. destruct D as [(-> & D & D')|(_ & D & _)]; auto. }
    assert (xgt (r_error r) limit = true -> exceed (val (l_thr s))) as D2.
    { intros X. destruct D as [(-> & _ & _)|(_ & _ & D)]; auto. apply xle_gt in Lp. congruence. }
    clear D. destruct I as (j & Ij & Fj & FI). destruct (l_first s) eqn:Ef; simpl andb; cbv iota.
    - destruct FI as (Tj & Pj & _). destruct (xgt (r_error r) limit) eqn:G.
      + intros FL. exists (S j). cbn [l_first l_inc l_thr l_err l_prev]. rewrite Ij, Tj in *. split; [reflexivity|]. split.
        * intros i Hi. destruct (Nat.eq_dec i j) as [->|]; [split; auto|apply Fj; lia].
        * auto.
      + exists j. cbn [l_first l_inc l_thr l_err l_prev l_last]. split; auto. split; auto. exists 0%nat.
        rewrite Ij. rewrite Tj in *. split; [reflexivity|]. split; [exact Ir|]. split; auto. split; auto.
        split; [intros; lia|]. split; [exact D1|congruence].
    - destruct FI as (n & Tn & _ & _ & _ & Pn & Ps & _). exists j.
      cbn [l_first l_inc l_thr l_err l_prev l_last]. split; auto. split; auto. exists (S n).
      rewrite Ij. rewrite Tn in *. split; [reflexivity|]. split; [exact Ir|]. split; auto. split; auto.
      split; [|split].
      + intros k Hk. destruct (Nat.eq_dec k n) as [->|]; [now apply Ps|apply Pn; lia].
      + exact D1.
      + intros X. split; [lia|auto].
  Qed.

  Lemma remove_fresh t p w r w1 : inp w -> red t (Some p) w = (Ok r, w1) ->
    n_species (r_model p) <> n_species (r_model r) ->
    exists w2, remove_file (r_file r) w1 = (Ok tt, w2) /\ inp w2.
  Proof.
    intros H R En. destruct (step_ok J sol sampled red K short lb STEP _ _ _ _ _ H R) as [(Ep & _ & _)|Fr].
    { injection Ep as Ep. rewrite Ep in En. contradiction. }
    destruct Fr as (_ & _ & Ff & _ & Fw & Fs).
    assert (w_fs w1 (r_file r) = Some (FMech [r_model r])) as Ex by (now rewrite Fw, String.eqb_refl).
    unfold remove_file. rewrite Ex. eexists. split; [reflexivity|].
    assert (inp w1) as H1.
    { eapply only_holds; [exact APART| |exact H].
      pose proof (step_frame J sol sampled red K short lb STEP t (Some p) w H) as F. now rewrite R in F. }
    apply only_holds with w1; auto. split; auto. intros g Hg. simpl. unfold fs_set.
    destruct (String.eqb_spec g (r_file r)) as [e|]; auto. exfalso. eapply Hg. rewrite e. exact Ff.
  Qed.

  Lemma loop_ginv floor : forall fuel s w s' w', inp w -> ginv floor s ->
    thr_loop A fuel red limit floor s w = (Ok s', w') -> ginv floor s' /\ xle (l_err s') limit = false.
  Proof.
    induction fuel as [|fuel IH]; intros s w s' w' H I E; cbn [thr_loop] in E;
      destruct (xle (l_err s) limit) eqn:L; try (injection E as <- <-; auto; fail); [discriminate|].
    unfold mbind at 1 in E.
    pose proof (step_frame J sol sampled red K short lb STEP (val (l_thr s)) (Some (l_prev s)) w H) as F.
    destruct (red (val (l_thr s)) (Some (l_prev s)) w) as [[r|e|] w1] eqn:R; simpl in F; try discriminate.
    assert (inp w1) as H1 by (eapply only_holds; eauto).
    pose proof (ginv_next floor s r w w1 H I L R) as FN.
    destruct (l_first s && xgt (r_error r) limit)%bool eqn:C.
    - cbv zeta in E. destruct (floor _); [discriminate|]. eapply IH; [exact H1|exact (FN eq_refl)|exact E].
    - cbv zeta in E.
      destruct (Nat.eqb_spec (n_species (r_model (l_prev s))) (n_species (r_model r))) as [En|En].
      + unfold mbind, mret in E. eapply IH; eauto.
      + destruct (remove_fresh _ _ _ _ _ H R En) as (w2 & Rm & H2). unfold mbind in E. rewrite Rm in E.
        eapply IH; eauto.
  Qed.

  (** What a normal return means. *)
  Lemma run_scan_any floor fuel by_last w r w' : inp w ->
    thr_run A fuel J sol red limit floor by_last w = (Ok r, w') ->
    exists j n, (forall i, (i < j)%nat -> exceed (val (sd A i)) /\ floor (sd A (S i)) = false) /\ (1 <= n)%nat /\
      (forall k, (k < n)%nat -> pass (val (climb_at A j k))) /\
      exceed (val (climb_at A j n)) /\
      cut_to J sol (K (val (A_back A (climb_at A j (S n)) (sd A j)))) (r_model r) /\
      err (r_model r) = Ok (r_error r).
  Proof.
    intros H E.
    destruct (run_returns A J sol sampled red K short lb limit STEP APART floor fuel by_last w r w' H E)
      as (s & w1 & L & H1 & F & B1 & B2).
    assert (ginv floor (thr_init A sol (j_file J))) as I0.
    { exists 0%nat. simpl. split; [reflexivity|]. split; [intros; lia|]. auto. }
    destruct (loop_ginv floor _ _ _ _ _ H I0 L) as [(j & Ij & Fj & FI) X].
    destruct (l_first s).
    { destruct FI as (_ & _ & FI). rewrite FI in X. congruence. }
    destruct FI as (n & Tn & _ & Ee & El & Pn & _ & Ex).
    assert (xgt (l_err s) limit = true) as Gt.
    { destruct by_last; [|auto]. destruct (B2 eq_refl) as (q & Q1 & Q2). rewrite El in Q1.
      injection Q1 as <-. congruence. }
    destruct (Ex Gt) as [N Ex']. destruct F as (C & Er & _). rewrite Tn, Ij in C.
    exists j, n. auto 10.
  Qed.

  (** *** Termination *)

  Section Ends.
    Hypothesis NF : forall m, err m <> NoFuel.
    Hypothesis LF : lb <> NoFuel.
    Variable T : Q.
    Hypothesis HIGH : forall t, (T <= t)%Q -> exceed t \/ (forall s, In s (species_names sol) -> ~ K t s).

    Lemma climb_le j k k' : (k <= k')%nat -> (val (climb_at A j k) <= val (climb_at A j k'))%Q.
    Proof. induction 1; [lra|]. eapply Qle_trans; [exact IHle|apply UP]. Qed.

    Lemma tail_ends floor j k : (T <= val (climb_at A j k))%Q ->
      forall d fuel n s w, inp w -> ginv floor s -> l_first s = false -> l_inc s = sd A j ->
      l_thr s = climb_at A j n -> (k <= n + d)%nat -> (d + 1 <= fuel)%nat ->
      fst (thr_loop A fuel red limit floor s w) <> NoFuel.
    Proof.
      intros Tk. induction d as [|d IH]; intros fuel n s w H I Fi Ei Et Lk Lf;
        (destruct fuel as [|fuel]; [lia|]); cbn [thr_loop]; destruct (xle (l_err s) limit) eqn:L; try discriminate;
        destruct (ginv_ready _ s I L) as (Ip & Sp & _); unfold mbind at 1;
        pose proof (step_no_nofuel J sol sampled red K short lb STEP NF LF (val (l_thr s)) (Some (l_prev s)) w H) as N;
        pose proof (step_frame J sol sampled red K short lb STEP (val (l_thr s)) (Some (l_prev s)) w H) as F;
        destruct (red (val (l_thr s)) (Some (l_prev s)) w) as [[r|e|] w1] eqn:R; simpl in N, F;
        try discriminate; try contradiction; rewrite Fi; cbn [andb]; cbv iota zeta;
        assert (inp w1) as H1 by (eapply only_holds; eauto).
      - assert (T <= val (l_thr s))%Q as Ts.
        { rewrite Et. eapply Qle_trans; [exact Tk|]. apply climb_le. lia. }
        assert (xle (r_error r) limit = false) as X.
        { destruct (step_pass J sol sampled red K short lb limit STEP SHORT WF BLIND _ _ _ _ _ H Ip Sp R) as [_ D].
          destruct (HIGH _ Ts) as [Ex|No].
          - destruct D as [(-> & D1 & _)|(F1 & D1 & _)];
              [exfalso; eapply pass_not_exceed; eauto|].
            destruct (xle (r_error r) limit) eqn:Lr; auto. destruct (D1 eq_refl) as [Pt _].
            exfalso. eapply pass_not_exceed; eauto.
          - destruct (step_content J sol sampled red K short lb STEP SHORT WF _ _ _ _ _ H Ip R) as [_ (m & C & _)].
            destruct (cut_nonempty J sol sampled red K short lb STEP _ _ C) as (x & X1 & X2). exfalso. eapply No; eauto. }
        assert (forall t i l w2, fst (thr_loop A fuel red limit floor
          (mkLS r false (r_error r) t i l) w2) <> NoFuel) as Y.
        { intros. destruct fuel; cbn [thr_loop l_err]; rewrite X; discriminate. }
        destruct (Nat.eqb_spec (n_species (r_model (l_prev s))) (n_species (r_model r))) as [En|En]; unfold mbind.
        + unfold mret at 1. apply Y.
        + destruct (remove_fresh _ _ _ _ _ H R En) as (w2 & Rm & H2). rewrite Rm. apply Y.
      - pose proof (ginv_next floor s r w w1 H I L R) as FN. rewrite Fi in FN. cbn [andb] in FN. cbv iota in FN.
        assert (forall w2, inp w2 -> fst (thr_loop A fuel red limit floor
          (mkLS r false (r_error r) (A_add A (l_thr s) (l_inc s)) (l_inc s) (Some r)) w2) <> NoFuel) as Y.
        { intros w2 H2. apply IH with (S n); auto; try lia. cbn [l_thr]. now rewrite Et, Ei. }
        destruct (Nat.eqb_spec (n_species (r_model (l_prev s))) (n_species (r_model r))) as [En|En]; unfold mbind.
        + unfold mret at 1. now apply Y.
        + destruct (remove_fresh _ _ _ _ _ H R En) as (w2 & Rm & H2). rewrite Rm. now apply Y.
    Qed.

    Lemma first_ends floor : forall l j, attempts A floor (sd A j) l ->
      (forall i, (i < length l)%nat -> exists k, (T <= val (climb_at A (j + i) k))%Q) ->
      exists N, forall fuel last w, (N <= fuel)%nat -> inp w ->
        (forall i, (i < j)%nat -> exceed (val (sd A i)) /\ floor (sd A (S i)) = false) ->
        fst (thr_loop A fuel red limit floor (mkLS start true (Fin 0) (sd A j) (sd A j) last) w) <> NoFuel.
    Proof.
      induction l as [|u l IH]; intros j At Hk; [destruct At|]. destruct At as [-> At].
      assert (exists N, forall fuel last w, (N <= fuel)%nat -> inp w ->
        floor (sd A (S j)) = false -> (forall i, (i < S j)%nat -> exceed (val (sd A i)) /\ floor (sd A (S i)) = false) ->
        fst (thr_loop A fuel red limit floor (mkLS start true (Fin 0) (sd A (S j)) (sd A (S j)) last) w) <> NoFuel)
        as [N HN].
      { destruct l as [|v l].
        - exists 0%nat. intros. change (A_div10 A (sd A j)) with (sd A (S j)) in At. congruence.
        - destruct At as [_ At]. destruct (IH (S j) At) as [N HN].
          + intros i Hi. destruct (Hk (S i)) as [k Tk]; [simpl in *; lia|]. exists k.
            now replace (S j + i)%nat with (j + S i)%nat by lia.
          + exists N. intros. now apply HN. }
      destruct (Hk 0%nat) as [k Tk]; [simpl; lia|]. rewrite Nat.add_0_r in Tk.
      exists (S (N + (k + 1)))%nat. intros fuel last w Lf H Fj. destruct fuel as [|fuel]; [lia|].
      assert (ginv floor (mkLS start true (Fin 0) (sd A j) (sd A j) last)) as I0.
      { exists j. simpl. split; [reflexivity|]. split; auto. }
      cbn [thr_loop l_err l_thr l_prev l_first l_inc]. rewrite NONNEG. unfold mbind at 1.
      pose proof (step_no_nofuel J sol sampled red K short lb STEP NF LF (val (sd A j)) (Some start) w H) as NF0.
      pose proof (step_frame J sol sampled red K short lb STEP (val (sd A j)) (Some start) w H) as F.
      destruct (red (val (sd A j)) (Some start) w) as [[r|e|] w1] eqn:R; simpl in NF0, F; [|discriminate|contradiction].
      assert (inp w1) as H1 by (eapply only_holds; eauto).
      pose proof (ginv_next floor _ r w w1 H I0 NONNEG R) as FN. cbn [l_first l_inc l_thr l_prev] in FN.
      destruct (xgt (r_error r) limit) eqn:Gr; cbn [andb] in FN |- *; cbv iota zeta in FN |- *.
      - change (A_div10 A (sd A j)) with (sd A (S j)).
        destruct (floor (sd A (S j))) eqn:Fl; [discriminate|]. apply HN; auto; [lia|].
        intros i Hi. destruct (Nat.eq_dec i j) as [->|]; [split; auto|apply Fj; lia].
        assert (inv J sol K (val (sd A j)) start) as I1 by (now apply init_inv).
        destruct (step_pass J sol sampled red K short lb limit STEP SHORT WF BLIND _ _ _ _ _ H I1 SOLOK R) as [_ D].
        destruct D as [(-> & _ & _)|(_ & _ & D)]; auto.
        apply xle_gt in NONNEG. simpl in Gr. congruence.
      - assert (forall w2, inp w2 -> fst (thr_loop A fuel red limit floor
          (mkLS r false (r_error r) (A_add A (sd A j) (sd A j)) (sd A j) (Some r)) w2) <> NoFuel) as Y.
        { intros w2 H2. apply (tail_ends floor j k Tk k fuel 1%nat); auto; lia. }
        destruct (Nat.eqb_spec (n_species (r_model start)) (n_species (r_model r))) as [En|En]; unfold mbind.
        + unfold mret at 1. now apply Y.
        + destruct (remove_fresh _ _ _ _ _ H R En) as (w2 & Rm & H2). rewrite Rm. now apply Y.
    Qed.

    Lemma run_ends floor by_last l : attempts A floor (A_start A) l ->
      (forall i, (i < length l)%nat -> exists k, (T <= val (climb_at A i k))%Q) ->
      exists N, forall fuel w, (N <= fuel)%nat -> inp w ->
        fst (thr_run A fuel J sol red limit floor by_last w) <> NoFuel.
    Proof.
      intros At Hk. destruct (first_ends floor l 0 At Hk) as [N HN]. exists N. intros fuel w Lf H.
      specialize (HN fuel None w Lf H ltac:(intros; lia)). change (sd A 0) with (A_start A) in HN.
      unfold thr_run, mbind, thr_init. fold (init J sol).
      pose proof (loop_frame A J sol sampled red K short lb limit STEP APART floor fuel
        (mkLS start true (Fin 0) (A_start A) (A_start A) None) w H) as F.
      destruct (thr_loop A fuel red limit floor (mkLS start true (Fin 0) (A_start A) (A_start A) None) w) as [[s|e|] w1];
        simpl in HN; [|discriminate|contradiction]. simpl in F.
      assert (inp w1) as H1 by (eapply only_holds; eauto).
      assert (forall o, fst (@write_wrong rmodel (j_path J) o w1) <> NoFuel) as WW.
      { intros [r|]; unfold write_wrong; [|discriminate]. cbv zeta. unfold mbind, is_file.
        destruct (w_fs w1 (path_join (j_path J) (reduced_name (n_species (r_model r))))) eqn:E; [|discriminate].
        unfold remove_file. rewrite E. discriminate. }
      unfold thr_finish. destruct by_last.
      - destruct (l_last s) as [r|]; [|discriminate].
        destruct (xgt (r_error r) limit); [eapply step_no_nofuel; eauto|apply WW].
      - destruct (xgt (l_err s) limit); [eapply step_no_nofuel; eauto|apply WW].
    Qed.
  End Ends.

  (** *** Forwards *)

  Variable l0 : limbo.
  Hypothesis LB : lb = Ok l0.

  (** A step succeeds if the model it stands for can be made and evaluated. *)
  Lemma step_forward t p w m e : inp w -> inv J sol K t p -> sc J sampled limit p ->
    cut_to J sol (K t) m -> err m = Ok e ->
    exists r w1, red t (Some p) w = (Ok r, w1) /\ inp w1 /\
      ((r = p /\ xle e limit = true) \/ (r_error r = e /\ r_model r = m)).
  Proof.
    intros H I S C E. destruct (STEP t) as (rm & Rr & St).
    pose proof (step_frame J sol sampled red K short lb STEP t (Some p) w H) as F.
    destruct (St (Some p) w H) as [(q & Ep & Sh & Y)|[_ Y]].
    - injection Ep as <-. exists p, w. split; auto. split; auto. left. split; auto.
      destruct (step_content J sol sampled red K short lb STEP SHORT WF _ _ _ _ _ H I Y) as [_ (m' & C' & SC)].
      rewrite (cut_to_unique _ _ _ _ _ WF C' C) in SC. rewrite (error_blind _ _ _ _ BLIND SC) in E.
      destruct S as (e' & E' & Le). rewrite E in E'. now injection E' as ->.
    - assert (cut_removing J sol rm = Ok m) as C'.
      { destruct C as (rm' & R' & C'). unfold cut_removing.
        rewrite (trim_set_only sol rm rm'); auto.
        intros x Hx. rewrite (R' x Hx). rewrite <- (Rr x Hx). destruct (in_dec string_dec x rm); tauto. }
      rewrite C' in Y. destruct Y as (w2 & _ & Y). rewrite E in Y. simpl in Y. rewrite LB in Y. simpl in Y.
      rewrite Y in F. simpl in F. do 2 eexists. split; [exact Y|]. split; [eapply only_holds; eauto|]. right. auto.
  Qed.

  Lemma fresh_forward t w m e : inp w -> cut_to J sol (K t) m -> err m = Ok e ->
    exists r w1, red t None w = (Ok r, w1) /\ inp w1 /\ r_model r = m /\ r_error r = e.
  Proof.
    intros H C E. destruct (STEP t) as (rm & Rr & St).
    pose proof (step_frame J sol sampled red K short lb STEP t None w H) as F.
    destruct (St None w H) as [(q & Ep & _)|[_ Y]]; [discriminate|].
    assert (cut_removing J sol rm = Ok m) as C'.
    { destruct C as (rm' & R' & C'). unfold cut_removing.
      rewrite (trim_set_only sol rm rm'); auto.
      intros x Hx. rewrite (R' x Hx). rewrite <- (Rr x Hx). destruct (in_dec string_dec x rm); tauto. }
    rewrite C' in Y. destruct Y as (w2 & _ & Y). rewrite E in Y. simpl in Y. rewrite LB in Y. simpl in Y.
    rewrite Y in F. simpl in F. do 2 eexists. split; [exact Y|]. split; [eapply only_holds; eauto|]. auto.
  Qed.

  (** Climbing from state [s] over [n] passing thresholds to a last one. *)
  Lemma climb_forward floor j m e :
    forall n k fuel s w mm, (k + n = m)%nat -> (n + 1 <= fuel)%nat -> inp w -> ginv floor s ->
    xle (l_err s) limit = true -> l_inc s = sd A j -> l_thr s = climb_at A j k ->
    (l_first s = true -> (1 <= n)%nat \/ xgt e limit = false) ->
    (forall i, (k <= i < m)%nat -> pass (val (climb_at A j i))) ->
    cut_to J sol (K (val (climb_at A j m))) mm -> err mm = Ok e -> xle e limit = false ->
    exists s' w' r, thr_loop A fuel red limit floor s w = (Ok s', w') /\ inp w' /\
      l_thr s' = climb_at A j (S m) /\ l_inc s' = sd A j /\ l_last s' = Some r /\ l_err s' = e /\ r_error r = e /\ r_model r = mm.
  Proof.
    induction n as [|n IH]; intros k fuel s w mm Em Lf H I L Ei Et Fi P C E X;
      (destruct fuel as [|fuel]; [lia|]); cbn [thr_loop]; rewrite L; unfold mbind at 1;
      destruct (ginv_ready _ s I L) as (Ip & Sp & Lp); rewrite Et in *.
    - assert (k = m) as -> by lia.
      destruct (step_forward _ _ _ _ _ H Ip Sp C E) as (r & w1 & R & H1 & [[_ D]|[D1 D2]]); [congruence|].
      rewrite R. rewrite D1.
      assert ((l_first s && xgt e limit)%bool = false) as ->.
      { destruct (l_first s); auto. destruct (Fi eq_refl); [lia|auto]. }
      cbv zeta. rewrite Ei.
      assert (forall w2, inp w2 -> exists s' w' r0,
        thr_loop A fuel red limit floor
          (mkLS r false e (A_add A (climb_at A j m) (sd A j)) (sd A j) (Some r)) w2 = (Ok s', w') /\ inp w' /\
        l_thr s' = climb_at A j (S m) /\ l_inc s' = sd A j /\ l_last s' = Some r0 /\ l_err s' = e /\ r_error r0 = e /\ r_model r0 = mm) as Y.
      { intros w2 H2. exists (mkLS r false e (A_add A (climb_at A j m) (sd A j)) (sd A j) (Some r)), w2, r.
        split; [destruct fuel; cbn [thr_loop l_err]; rewrite X; reflexivity|]. simpl. auto 10. }
      destruct (Nat.eqb_spec (n_species (r_model (l_prev s))) (n_species (r_model r))) as [En|En]; unfold mbind.
      + unfold mret at 1. now apply Y.
      + destruct (remove_fresh _ _ _ _ _ H R En) as (w2 & Rm & H2). rewrite Rm. now apply Y.
    - destruct (P k) as (m1 & e1 & C1 & E1 & L1); [lia|].
      destruct (step_forward _ _ _ _ _ H Ip Sp C1 E1) as (r & w1 & R & H1 & D).
      assert (xle (r_error r) limit = true) as Lr.
      { destruct D as [[-> _]|[-> _]]; auto. }
      rewrite R. rewrite (xle_gt _ _ Lr), andb_false_r. cbv zeta. rewrite Ei.
      assert (R' := R). rewrite <- Et in R'.
      pose proof (ginv_next floor s r w w1 H I L R') as FN. rewrite (xle_gt _ _ Lr), andb_false_r, Et, Ei in FN.
      assert (forall w2, inp w2 -> exists s' w' r0,
        thr_loop A fuel red limit floor
          (mkLS r false (r_error r) (A_add A (climb_at A j k) (sd A j)) (sd A j) (Some r)) w2 = (Ok s', w') /\ inp w' /\
        l_thr s' = climb_at A j (S m) /\ l_inc s' = sd A j /\ l_last s' = Some r0 /\ l_err s' = e /\ r_error r0 = e /\ r_model r0 = mm) as Y.
      { intros w2 H2. eapply IH with (k := S k) (mm := mm); auto; try lia.
        - simpl. intros; discriminate.
        - intros i Hi. apply P. lia. }
      destruct (Nat.eqb_spec (n_species (r_model (l_prev s))) (n_species (r_model r))) as [En|En]; unfold mbind.
      + unfold mret at 1. now apply Y.
      + destruct (remove_fresh _ _ _ _ _ H R En) as (w2 & Rm & H2). rewrite Rm. now apply Y.
  Qed.

  (** From the start to the [j]-th starting threshold. *)
  Lemma starts_forward floor j n mm e :
    (forall i, (i < j)%nat -> exceed (val (sd A i)) /\ floor (sd A (S i)) = false) ->
    ((1 <= n)%nat \/ xgt e limit = false) ->
    (forall i, (i < n)%nat -> pass (val (climb_at A j i))) ->
    cut_to J sol (K (val (climb_at A j n))) mm -> err mm = Ok e -> xle e limit = false ->
    forall d i fuel last w, (i + d = j)%nat -> (d + n + 1 <= fuel)%nat -> inp w ->
    exists s' w' r,
      thr_loop A fuel red limit floor (mkLS start true (Fin 0) (sd A i) (sd A i) last) w = (Ok s', w') /\ inp w' /\
      l_thr s' = climb_at A j (S n) /\ l_inc s' = sd A j /\ l_last s' = Some r /\ l_err s' = e /\ r_error r = e /\ r_model r = mm.
  Proof.
    intros Ex N P C E X. induction d as [|d IH]; intros i fuel last w Ei Lf H.
    - assert (i = j) as -> by lia.
      eapply climb_forward with (n := n) (k := 0%nat) (mm := mm); auto; try lia; simpl.
      + exists j. simpl. split; auto.
      + intros i Hi. apply P. lia.
    - destruct fuel as [|fuel]; [lia|]. cbn [thr_loop l_err l_thr l_prev l_first l_inc]. rewrite NONNEG.
      unfold mbind at 1. destruct (Ex i) as [(m1 & e1 & C1 & E1 & G1) Fl]; [lia|].
      assert (inv J sol K (val (sd A i)) start) as I by (now apply init_inv).
      destruct (step_forward _ _ _ _ _ H I SOLOK C1 E1) as (r & w1 & R & H1 & D).
      assert (xgt (r_error r) limit = true) as Gr.
      { destruct D as [[_ D]|[-> _]]; auto. apply xle_gt in D. congruence. }
      rewrite R, Gr. simpl andb. cbv iota zeta. change (A_div10 A (sd A i)) with (sd A (S i)). rewrite Fl.
      apply IH; auto; lia.
  Qed.

  Lemma run_forward floor by_last j n mm e fuel w :
    (forall i, (i < j)%nat -> exceed (val (sd A i)) /\ floor (sd A (S i)) = false) ->
    (1 <= n)%nat -> (forall i, (i < n)%nat -> pass (val (climb_at A j i))) ->
    exceed (val (climb_at A j n)) ->
    cut_to J sol (K (val (A_back A (climb_at A j (S n)) (sd A j)))) mm -> err mm = Ok e ->
    (j + n + 1 <= fuel)%nat -> inp w ->
    exists r w', thr_run A fuel J sol red limit floor by_last w = (Ok r, w') /\ r_model r = mm /\ r_error r = e.
  Proof.
    intros Ex N P (m1 & e1 & C1 & E1 & G1) C E Lf H.
    assert (xle e1 limit = false) as X1.
    { destruct (xle e1 limit) eqn:Y; auto. apply xle_gt in Y. congruence. }
    destruct (starts_forward floor j n m1 e1 Ex (or_introl N) P C1 E1 X1 j 0%nat fuel None w) as
      (s & w1 & r & L & H1 & Tn & Ij & Ll & Le & Lr & Lm); try lia; auto.
    change (sd A 0) with (A_start A) in L. unfold thr_run, mbind. unfold thr_init. fold (init J sol). rewrite L.
    unfold thr_finish. rewrite Tn, Ij, Ll, Le, Lr, G1.
    destruct (fresh_forward _ w1 mm e H1 C E) as (r' & w2 & R & _ & M1 & M2).
    exists r', w2. split; auto. destruct by_last; exact R.
  Qed.

  Lemma run_nan floor by_last j n mm e fuel w :
    (forall i, (i < j)%nat -> exceed (val (sd A i)) /\ floor (sd A (S i)) = false) ->
    (forall i, (i < n)%nat -> pass (val (climb_at A j i))) ->
    cut_to J sol (K (val (climb_at A j n))) mm -> err mm = Ok e ->
    xle e limit = false -> xgt e limit = false ->
    (j + n + 1 <= fuel)%nat -> inp w ->
    exists w', thr_run A fuel J sol red limit floor by_last w = (Raise AttributeError, w') /\
      w_fs w' (out_file J (n_species mm)) = None.
  Proof.
    intros Ex P C E X1 X2 Lf H.
    destruct (starts_forward floor j n mm e Ex (or_intror X2) P C E X1 j 0%nat fuel None w) as
      (s & w1 & r & L & H1 & Tn & Ij & Ll & Le & Lr & Lm); try lia; auto.
    change (sd A 0) with (A_start A) in L. unfold thr_run, mbind. unfold thr_init. fold (init J sol). rewrite L.
    unfold thr_finish. rewrite Ll, Le, Lr, X2.
    assert (exists w', @write_wrong rmodel (j_path J) (Some r) w1 = (Raise AttributeError, w') /\
      w_fs w' (out_file J (n_species mm)) = None) as WW.
    { unfold write_wrong. cbv zeta. unfold mbind, is_file. rewrite Lm. fold (out_file J (n_species mm)).
      destruct (w_fs w1 (out_file J (n_species mm))) eqn:Z.
      - unfold remove_file. rewrite Z. eexists. split; [reflexivity|]. simpl. unfold fs_set.
        now rewrite String.eqb_refl.
      - eexists. split; [reflexivity|]. exact Z. }
    destruct by_last; exact WW.
  Qed.
End Generic.
