(** The error with doubles next to the exact one, and runs of the drivers that
    differ in it only. *)
From Coq Require Import String List ZArith QArith Qabs Bool Arith Lia Lqa.
From Coq Require Import Floats.SpecFloat.
From Verif.Base Require Import Py Num XNum Paths B64.
From Verif.Model Require Import Mech Matrices Graph World Metrics Drivers FloatDrivers FloatMatrix FloatPfa FloatSampling FloatRun SaveText DoubleError.
From Verif.Spec Require Import TrimSpec MetricSpec DriverSpec FloatMatrixSpec FloatSamplingSpec DoubleErrorSpec.
From Verif.Proofs Require Import PyFacts NumFacts TrimFacts StepFacts MetricFacts FloatErrorFacts FloatRunFacts.
Import ListNotations.
Local Open Scope Q_scope.

Lemma metric_pos d : metric d -> 0 < b64_val d.
Proof. intros (_ & H & _). eapply Qlt_le_trans; [|exact H]. reflexivity. Qed.

Lemma metric_of_x x : double_metric x ->
  exists q, x = Fin q /\ 0 < q /\ metric (b64_of_x x) /\ b64_val (b64_of_x x) == q.
Proof.
  intros (q & d & -> & M & E). exists q. split; auto. pose proof (metric_pos d M) as P. destruct M as (F & B).
  destruct (of_Q_val q d F E) as (F' & E'). split; [rewrite <- E; exact P|]. split; auto.
  split; auto. cbn [b64_of_x]. rewrite E', <- E. exact B.
Qed.

Lemma failed_of_x x : failed_metric x -> b64_finite (b64_of_x x) /\ b64_val (b64_of_x x) == 0.
Proof.
  intros (q & -> & Z). destruct (of_Q_val q (S754_zero false)) as (F & E); [exact I| |].
  - simpl. lra.
  - split; auto. cbn [b64_of_x]. lra.
Qed.

Lemma x_of_fin f : b64_finite f -> x_of_b64 f = Fin (b64_val f).
Proof. destruct f as [s|s| |s m e]; simpl; intros; try contradiction; reflexivity. Qed.

Lemma fin_of_val f : ~ b64_val f == 0 -> b64_finite f \/ x_of_b64 f = Fin (b64_val f).
Proof. destruct f as [s|s| |s m e]; simpl; intros N; auto; exfalso; apply N; reflexivity. Qed.

Lemma nth_combine {A B} (l : list A) (l' : list B) i a b :
  nth_error l i = Some a -> nth_error l' i = Some b -> In (a, b) (combine l l').
Proof.
  revert l' i. induction l as [|x l IH]; intros [|y l'] [|i] H1 H2; simpl in *; try discriminate.
  - injection H1 as ->. injection H2 as ->. auto.
  - right. eapply IH; eauto.
Qed.

Lemma combine_nth {A B} (l : list A) (l' : list B) a b :
  In (a, b) (combine l l') -> exists i, nth_error l i = Some a /\ nth_error l' i = Some b.
Proof.
  revert l'. induction l as [|x l IH]; intros [|y l'] H; simpl in *; try contradiction.
  destruct H as [H|H]; [injection H as -> ->; exists O; auto|]. destruct (IH _ H) as (i & A1 & A2).
  exists (S i). auto.
Qed.

Lemma all_or_some {A} (P R : A -> Prop) l : (forall x, In x l -> P x \/ R x) ->
  (forall x, In x l -> P x) \/ exists x, In x l /\ R x.
Proof.
  induction l as [|x l IH]; intros H; [left; intros ? []|].
  destruct (H x) as [Px|Rx]; [simpl; auto| |right; exists x; simpl; auto].
  destruct IH as [IH|(y & I & Ry)]; [intros y I; apply H; simpl; auto| |right; exists y; simpl; auto].
  left. intros y [->|I]; auto.
Qed.

Lemma both_errors os ts : os <> nil -> length ts = length os -> (forall x, In x os -> double_metric x) ->
  (forall x, In x ts -> double_metric x \/ failed_metric x) ->
  exists e f, calculate_error os ts = Ok (Fin e) /\ double_error os ts = Ok (Fin f) /\ 0 <= e /\
    Qabs (f - e) <= (2 # 1) ^ (-51) * e.
Proof.
  intros N L O T. unfold double_error.
  assert (length (map b64_of_x os) = length (map b64_of_x ts)) as L' by (rewrite !map_length; congruence).
  destruct (all_or_some _ _ _ T) as [A|(x & I & F)].
  - assert (forall o, In o os -> positive o) as P.
    { intros o Io. destruct (metric_of_x o (O o Io)) as (q & -> & Pq & _). exists q. auto. }
    assert (forall t, In t ts -> usable t) as U.
    { intros t It. destruct (metric_of_x t (A t It)) as (q & -> & Pq & _). exists q. split; auto. lra. }
    destruct (error_is_worst os ts (eq_sym L) N P U) as (e & C & W & (p & q & Ipq & X)).
    destruct (error_close (map b64_of_x os) (map b64_of_x ts) L') as (f & e' & Ef & Ff & Ee & D).
    { destruct os; [contradiction|discriminate]. }
    { intros y [H|H]; apply in_map_iff in H; destruct H as (z & <- & Iz).
      - destruct (metric_of_x z (O z Iz)) as (? & _ & _ & M & _). exact M.
      - destruct (metric_of_x z (A z Iz)) as (? & _ & _ & M & _). exact M. }
    assert (forall i o t, nth_error (map b64_of_x os) i = Some o -> nth_error (map b64_of_x ts) i = Some t ->
              exists p q, In (Fin p, Fin q) (combine os ts) /\ 0 < p /\ b64_val o == p /\ b64_val t == q) as back.
    { intros i o t Ho Ht. rewrite nth_error_map in Ho, Ht.
      destruct (nth_error os i) as [o'|] eqn:E1; [|discriminate]. destruct (nth_error ts i) as [t'|] eqn:E2; [|discriminate].
      injection Ho as <-. injection Ht as <-. pose proof (nth_combine _ _ _ _ _ E1 E2) as Ic.
      destruct (metric_of_x o' (O o' (nth_error_In _ _ E1))) as (a & -> & Pa & _ & Ea).
      destruct (metric_of_x t' (A t' (nth_error_In _ _ E2))) as (b & -> & Pb & _ & Eb). exists a, b. auto. }
    assert (is_error (map b64_of_x os) (map b64_of_x ts) e) as Ee2.
    { split.
      - intros i o t Ho Ht. destruct (back i o t Ho Ht) as (a & b & Ic & Pa & Ea & Eb).
        destruct (W _ _ Ic) as (a' & b' & H1 & H2 & B). injection H1 as <-. injection H2 as <-.
        rewrite Ea, Eb. setoid_replace (100 * (Qabs (a - b) / a)) with (100 * Qabs (a - b) / a) by (field; lra).
        apply Qle_shift_div_r; lra.
      - destruct (combine_nth _ _ _ _ Ipq) as (i & H1 & H2).
        exists i, (b64_of_x (Fin p)), (b64_of_x (Fin q)). split; [now rewrite nth_error_map, H1|].
        split; [now rewrite nth_error_map, H2|].
        destruct (metric_of_x _ (O _ (nth_error_In _ _ H1))) as (a & Ha & Pa & _ & Ea). injection Ha as <-.
        destruct (metric_of_x _ (A _ (nth_error_In _ _ H2))) as (b & Hb & Pb & _ & Eb). injection Hb as <-.
        rewrite Ea, Eb. setoid_replace (100 * (Qabs (p - q) / p)) with (100 * Qabs (p - q) / p) by (field; lra).
        rewrite X. field. lra. }
    pose proof (error_unique _ _ _ _ Ee Ee2) as Q1.
    exists e, (b64_val f). rewrite C, Ef. cbn [bind]. rewrite (x_of_fin f Ff).
    split; [reflexivity|]. split; [reflexivity|]. split.
    + destruct (metric_of_x _ (O _ (in_combine_l _ _ _ _ Ipq))) as (a & Ha & Pa & _). injection Ha as <-.
      pose proof (Qabs_nonneg (p - q)). nra.
    + rewrite <- Q1. exact D.
  - pose proof F as (q & Ex & Z). destruct (failed_of_x x F) as (Fx & Vx).
    destruct (failed_case (map b64_of_x os) (map b64_of_x ts) (b64_of_x x) L') as (f & Ef & V); auto.
    { now apply in_map. }
    exists 100, (b64_val f). rewrite Ef. cbn [bind]. split; [|split; [|split]].
    + subst x. eapply error_zero_metric; eauto.
    + destruct (fin_of_val f) as [Ff|Ex']; [rewrite V; discriminate|now rewrite x_of_fin|now rewrite Ex'].
    + discriminate.
    + rewrite V. vm_compute. discriminate.
Qed.

(** ** Runs *)

Definition alike (limit : xnum) (a b : xnum) : Prop :=
  xle a limit = xle b limit /\ xgt a limit = xgt b limit /\ near_error a b.

Definition rrel {A B} (R : A -> B -> Prop) (a : res A) (b : res B) : Prop :=
  match a, b with
  | Ok x, Ok y => R x y
  | Raise e, Raise e' => e = e'
  | NoFuel, NoFuel => True
  | _, _ => False
  end.
Definition mrel {A B} (R : A -> B -> Prop) (m : M A) (m' : M B) : Prop :=
  forall w, snd (m w) = snd (m' w) /\ rrel R (fst (m w)) (fst (m' w)).

Lemma mrel_bind {A B C D} (R : A -> B -> Prop) (S : C -> D -> Prop) m m' k k' :
  mrel R m m' -> (forall a b, R a b -> mrel S (k a) (k' b)) -> mrel S (mbind m k) (mbind m' k').
Proof.
  intros H K w. unfold mbind. destruct (H w) as [H1 H2]. destruct (m w) as [[a|e|] w1], (m' w) as [[b|e'|] w2];
    simpl in *; try contradiction; subst; auto. apply K; auto.
Qed.

Lemma mrel_eq {A} (m : M A) : mrel eq m m.
Proof. intros w. split; auto. destruct (fst (m w)); simpl; auto. Qed.

Lemma mrel_ret {A B} (R : A -> B -> Prop) a b : R a b -> mrel R (mret a) (mret b).
Proof. intros H w. simpl. auto. Qed.

Lemma mrel_raise {A B} (R : A -> B -> Prop) e : mrel R (mraise e) (mraise e).
Proof. intros w. simpl. auto. Qed.

(** Bind a common computation. *)
Lemma mrel_same {A C D} (S : C -> D -> Prop) (m : M A) k k' :
  (forall a, mrel S (k a) (k' a)) -> mrel S (mbind m k) (mbind m k').
Proof. intros K. apply mrel_bind with eq; [apply mrel_eq|]. intros a b ->. apply K. Qed.

Section Two.
  Variables (J : job) (sampled : list xnum) (limit : xnum) (E E' : list xnum -> list xnum -> res xnum).
  Hypothesis AL : forall m ts, metrics_of (j_conds J) m = Ok ts ->
    rrel (alike limit) (E sampled ts) (E' sampled ts).
  Hypothesis A0 : alike limit (Fin 0) (Fin 0).

  Notation J1 := (with_errors E J).
  Notation J2 := (with_errors E' J).

  Definition score_rel (a b : mech * string * xnum) : Prop :=
    fst a = fst b /\ alike limit (snd a) (snd b).

  Lemma cut_rel removed : mrel score_rel (cut_and_score J1 sampled removed) (cut_and_score J2 sampled removed).
  Proof.
    intros w. destruct (load (j_file J) (j_phase J) w) as [[sol|e|] w0] eqn:EL.
    2, 3: unfold cut_and_score, trim, mbind; cbn [with_errors j_file j_phase j_path j_conds]; rewrite EL; simpl; auto.
    apply load_ok in EL. destruct EL as (-> & H).
    assert (trim (j_file J) removed ("reduced_" ++ j_file J) (j_phase J) w = (cut_removing J sol removed, w)) as T.
    { unfold trim, mbind. now rewrite (load_holds _ _ _ _ H). }
    unfold cut_and_score. cbn [with_errors j_file j_phase j_path j_conds c_error].
    destruct (cut_removing J sol removed) as [m|e|] eqn:EC; [|unfold mbind; rewrite T; simpl; auto|unfold mbind; rewrite T; simpl; auto].
    destruct (yaml_write_eq w m (reduced_name (n_species m)) (j_path J) (reduced_name_nonempty _)) as (w' & Y & W).
    assert (holds w' (path_join (j_path J) (reduced_name (n_species m))) (j_phase J) m) as H'.
    { apply wrote_holds with w; auto. eapply trim_phase. exact EC. }
    unfold mbind. rewrite T, Y. rewrite !(sample_metrics_eq w' _ _ m _ H').
    change (metrics_of _ m) with (metrics_of (j_conds J) m).
    change (metrics_of (mkCondsWith _ _ _ E') m) with (metrics_of (j_conds J) m).
    destruct (metrics_of (j_conds J) m) as [ts|e|] eqn:EM; simpl; auto.
    pose proof (AL m ts EM) as R. unfold mlift.
    destruct (E sampled ts) as [a|?|], (E' sampled ts) as [b|?|]; simpl in *; try contradiction; auto.
    split; auto. split; auto.
  Qed.

  Definition rm_rel (r r' : rmodel) : Prop :=
    r_model r = r_model r' /\ r_file r = r_file r' /\ r_limbo r = r_limbo r' /\ alike limit (r_error r) (r_error r').
  Definition opt_rel (p p' : option rmodel) : Prop :=
    match p, p' with Some r, Some r' => rm_rel r r' | None, None => True | _, _ => False end.

  Ltac step_rel :=
    apply mrel_bind with score_rel; [apply cut_rel|];
    let m := fresh "m" in let f := fresh "f" in let e := fresh "e" in
    let m' := fresh "m'" in let f' := fresh "f'" in let e' := fresh "e'" in
    let H1 := fresh in let H2 := fresh in
    intros [[m f] e] [[m' f'] e'] [H1 H2]; simpl in H1; injection H1 as -> ->.

  Lemma drg_rel Fs thr p p' : opt_rel p p' ->
    mrel rm_rel (freduce_drg J1 Fs sampled thr p) (freduce_drg J2 Fs sampled thr p').
  Proof.
    intros P. unfold freduce_drg. cbn [with_errors j_file j_phase j_path j_targets j_safe j_upper].
    change (f_upper J1) with (f_upper J). change (f_upper J2) with (f_upper J).
    apply mrel_same. intros sol. apply mrel_same. intros keep. cbv zeta.
    destruct p as [r|], p' as [r'|]; try contradiction.
    - pose proof P as (P1 & P2). rewrite <- P1. destruct (Nat.eqb _ _); [now apply mrel_ret|].
      step_rel. apply mrel_same. intros l. apply mrel_ret. repeat split; auto; apply H0.
    - step_rel. apply mrel_same. intros l. apply mrel_ret. repeat split; auto; apply H0.
  Qed.

  Lemma pfa_rel Fs thr p p' : opt_rel p p' ->
    mrel rm_rel (freduce_pfa J1 Fs sampled thr p) (freduce_pfa J2 Fs sampled thr p').
  Proof.
    intros P. unfold freduce_pfa. cbn [with_errors j_file j_phase j_path j_targets j_safe j_upper].
    change (f_upper J1) with (f_upper J). change (f_upper J2) with (f_upper J).
    apply mrel_same. intros sol. apply mrel_same. intros ls. cbv zeta.
    destruct p as [r|], p' as [r'|]; try contradiction.
    - pose proof P as (P1 & P2). rewrite <- P1. destruct (Nat.eqb _ _); [now apply mrel_ret|].
      step_rel. apply mrel_same. intros l. apply mrel_ret. repeat split; auto; apply H0.
    - step_rel. apply mrel_same. intros l. apply mrel_ret. repeat split; auto; apply H0.
  Qed.

  Lemma drgep_rel imp thr p p' : opt_rel p p' ->
    mrel rm_rel (freduce_drgep J1 imp sampled thr p) (freduce_drgep J2 imp sampled thr p').
  Proof.
    intros P. unfold freduce_drgep. cbn [with_errors j_file j_phase j_path j_targets j_safe j_upper].
    apply mrel_same. intros sol. apply mrel_same. intros removed. cbv zeta.
    destruct p as [r|], p' as [r'|]; try contradiction.
    - pose proof P as (P1 & P2). rewrite <- P1. destruct (Z.eqb _ _); [now apply mrel_ret|].
      step_rel. apply mrel_ret. repeat split; auto; apply H0.
    - step_rel. apply mrel_ret. repeat split; auto; apply H0.
  Qed.

  Definition st_rel (s s' : fstate) : Prop :=
    rm_rel (s_prev s) (s_prev s') /\ s_first s = s_first s' /\ alike limit (s_err s) (s_err s') /\
    s_thr s = s_thr s' /\ s_inc s = s_inc s' /\ opt_rel (s_last s) (s_last s').

  Section Loop.
    Variables red red' : b64 -> option rmodel -> M rmodel.
    Hypothesis RR : forall t p p', opt_rel p p' -> mrel rm_rel (red t p) (red' t p').

    Lemma loop_rel floor : forall fuel s s', st_rel s s' ->
      mrel st_rel (fthr_loop fuel red limit floor s) (fthr_loop fuel red' limit floor s').
    Proof.
      induction fuel as [|fuel IH]; intros s s' ST; pose proof ST as (P & Fi & (Er & Er') & Th & In & La); simpl;
        rewrite <- Er; destruct (xle (s_err s) limit).
      - intros w; simpl; auto.
      - now apply mrel_ret.
      - rewrite <- Th. apply mrel_bind with rm_rel; [apply RR; exact P|]. intros r r' R.
        pose proof R as (R1 & R2 & R3 & R4 & R5 & R6). rewrite <- Fi, <- R5, <- In.
        destruct (s_first s && xgt (r_error r) limit).
        + destruct (floor _); [apply mrel_raise|]. apply IH. unfold st_rel. simpl. auto 10.
        + pose proof P as (P1 & _). rewrite <- P1, <- R1, <- R2. apply mrel_same. intros _. apply IH.
          unfold st_rel, alike. simpl. auto 10.
      - now apply mrel_ret.
    Qed.

    Lemma wrong_rel path p p' : opt_rel p p' -> mrel rm_rel (write_wrong path p) (write_wrong path p').
    Proof.
      intros P. destruct p as [r|], p' as [r'|]; try contradiction; simpl; [|apply mrel_raise].
      destruct P as (P1 & _). rewrite <- P1. apply mrel_same. intros ex. apply mrel_same. intros _. apply mrel_raise.
    Qed.

    Lemma finish_rel path by_last s s' : st_rel s s' ->
      mrel rm_rel (fthr_finish path red limit by_last s) (fthr_finish path red' limit by_last s').
    Proof.
      intros (P & Fi & Er & Th & In & La). unfold fthr_finish. rewrite <- Th, <- In. destruct by_last.
      - destruct (s_last s) as [r|], (s_last s') as [r'|]; try contradiction; [|apply mrel_raise].
        pose proof La as (_ & _ & _ & _ & L & _). rewrite <- L. destruct (xgt _ _); [now apply RR|].
        now apply wrong_rel.
      - pose proof Er as (_ & L & _). rewrite <- L. destruct (xgt _ _); [now apply RR|]. now apply wrong_rel.
    Qed.

    Lemma thr_rel fuel sol floor by_last :
      mrel rm_rel (fthr_run fuel J1 sol red limit floor by_last) (fthr_run fuel J2 sol red' limit floor by_last).
    Proof.
      unfold fthr_run. apply mrel_bind with st_rel.
      - apply loop_rel. unfold st_rel, rm_rel. simpl. auto 10.
      - intros s s' H. now apply finish_rel.
    Qed.
  End Loop.
End Two.

Section Whole.
  Variables (me : method) (J : job) (smp : fsampler) (limit : xnum) (w : world) (E E' : list xnum -> list xnum -> res xnum).
  Hypothesis AL : forall sampled rops w1 m ts, smp w = (Ok (sampled, rops), w1) ->
    metrics_of (j_conds J) m = Ok ts -> rrel (alike limit) (E sampled ts) (E' sampled ts).
  Hypothesis A0 : alike limit (Fin 0) (Fin 0).

  Definition out_rel (a b : res rmodel * world) : Prop :=
    snd a = snd b /\ rrel (rm_rel limit) (fst a) (fst b).

  Lemma run_rel fuel dfuel :
    out_rel (frun me fuel dfuel (with_errors E J) smp limit w) (frun me fuel dfuel (with_errors E' J) smp limit w).
  Proof.
    unfold out_rel.
    assert (forall A (k k' : mech -> M A) (R : A -> A -> Prop),
      (forall sol, snd (k sol w) = snd (k' sol w) /\ rrel R (fst (k sol w)) (fst (k' sol w))) ->
      snd (mbind (load (j_file J) (j_phase J)) k w) = snd (mbind (load (j_file J) (j_phase J)) k' w) /\
      rrel R (fst (mbind (load (j_file J) (j_phase J)) k w)) (fst (mbind (load (j_file J) (j_phase J)) k' w))) as LD.
    { intros A k k' R H. unfold mbind. pose proof (load_same w (j_file J) (j_phase J)) as S.
      destruct (load (j_file J) (j_phase J) w) as [[sol|e|] w0]; simpl in S; subst w0; simpl; auto. }
    assert (forall (k k' : list xnum * list (list b64) -> M rmodel) (R : rmodel -> rmodel -> Prop),
      (forall sampled rops w1, smp w = (Ok (sampled, rops), w1) -> mrel R (k (sampled, rops)) (k' (sampled, rops))) ->
      snd (mbind smp k w) = snd (mbind smp k' w) /\ rrel R (fst (mbind smp k w)) (fst (mbind smp k' w))) as SM.
    { intros k k' R H. unfold mbind. destruct (smp w) as [[[sd rops]|e|] w1] eqn:ES; simpl; auto. apply (H sd rops w1 eq_refl w1). }
    destruct me; simpl.
    - unfold frun_drg. cbn [with_errors j_file j_phase j_targets]. apply LD. intros sol.
      destruct (j_targets J) eqn:TG; [simpl; auto|]. apply SM. intros sampled rops w1 ES. cbv zeta. simpl fst; simpl snd.
      apply thr_rel; auto. intros t p p' P. apply drg_rel; auto. intros m ts. eapply AL; eauto.
    - unfold frun_pfa. cbn [with_errors j_file j_phase j_targets]. apply LD. intros sol.
      destruct (j_targets J) eqn:TG; [simpl; auto|]. apply SM. intros sampled rops w1 ES. cbv zeta. simpl fst; simpl snd.
      apply thr_rel; auto. intros t p p' P. apply pfa_rel; auto. intros m ts. eapply AL; eauto.
    - unfold frun_drgep. cbn [with_errors j_file j_phase j_targets j_safe].
      change (f_upper (with_errors E J)) with (f_upper J). change (f_upper (with_errors E' J)) with (f_upper J).
      apply LD. intros sol.
      destruct (j_targets J) eqn:TG; [simpl; auto|]. apply SM. intros sampled rops w1 ES. cbv zeta. simpl fst; simpl snd.
      apply mrel_same. intros imp. apply mrel_bind with (rm_rel limit).
      { apply thr_rel; auto. intros t p p' P. apply drgep_rel; auto. intros m ts. eapply AL; eauto. }
      intros r r' R. destruct (f_truthy (f_upper J)); [|now apply mrel_ret].
      pose proof R as (R1 & R2 & R3 & R4). rewrite <- R1. apply mrel_same. intros l0.
      intros w2. unfold append_limbo. rewrite <- R3. destruct (r_limbo r); simpl; split; auto.
      unfold rm_rel. simpl. rewrite R1, R2. auto.
  Qed.
End Whole.

Lemma near_alike l e f : 0 <= e -> Qabs (f - e) <= (2 # 1) ^ (-51) * e ->
  (e * (1 + (2 # 1) ^ (-51)) <= l \/ l * (1 + (2 # 1) ^ (-50)) < e) -> alike (Fin l) (Fin e) (Fin f).
Proof.
  intros P D H. assert ((2 # 1) ^ (-51) == 1 # 2251799813685248) as X by (vm_compute; reflexivity).
  assert ((2 # 1) ^ (-50) == 1 # 1125899906842624) as Y by (vm_compute; reflexivity).
  pose proof D as D'. apply Qabs_Qle_condition in D'. rewrite X in D'. rewrite X, Y in H.
  assert (((e <= l) /\ (f <= l)) \/ (l < e /\ l < f)) as [[A B]|[A B]].
  { destruct H as [H|H]; [left; lra|right].
    destruct (Qlt_le_dec l 0) as [L|L]; [lra|]. lra. }
  - split; [|split; [|exists e, f; auto]]; simpl.
    + rewrite (proj2 (Qle_bool_iff _ _) A), (proj2 (Qle_bool_iff _ _) B). reflexivity.
    + rewrite (proj2 (Qlt_bool_false _ _) A), (proj2 (Qlt_bool_false _ _) B). reflexivity.
  - split; [|split; [|exists e, f; auto]]; simpl.
    + destruct (Qle_bool e l) eqn:Q1; [apply Qle_bool_iff in Q1; lra|].
      destruct (Qle_bool f l) eqn:Q2; [apply Qle_bool_iff in Q2; lra|]. reflexivity.
    + rewrite (proj2 (Qlt_bool_iff _ _) A), (proj2 (Qlt_bool_iff _ _) B). reflexivity.
Qed.

Lemma same_run me J smp w l fuel dfuel :
  (forall sampled rops w1, smp w = (Ok (sampled, rops), w1) -> double_metrics J sampled /\ clear_of J sampled l) ->
  same_outcome (frun me fuel dfuel (with_errors calculate_error J) smp (Fin l) w)
               (frun me fuel dfuel (with_errors double_error J) smp (Fin l) w).
Proof.
  intros H. assert (out_rel (Fin l) (frun me fuel dfuel (with_errors calculate_error J) smp (Fin l) w)
               (frun me fuel dfuel (with_errors double_error J) smp (Fin l) w)) as R.
  { apply run_rel.
    - intros sampled rops w1 m ts ES EM. destruct (H _ _ _ ES) as ((N & DO & DT) & C).
      destruct (DT m ts EM) as (L & T). destruct (both_errors sampled ts N L DO T) as (e & f & C1 & C2 & P & D).
      rewrite C1, C2. simpl. apply near_alike; auto. eapply C; eauto.
    - split; auto. split; auto. exists 0, 0. split; auto. split; auto. vm_compute. discriminate. }
  destruct R as [R1 R2]. split; auto. unfold rrel in R2.
  destruct (fst (frun me fuel dfuel (with_errors calculate_error J) smp (Fin l) w)),
           (fst (frun me fuel dfuel (with_errors double_error J) smp (Fin l) w)); auto.
  destruct R2 as (A & B & C & _ & _ & D). auto.
Qed.
