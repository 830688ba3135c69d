(** The loop of sensitivity analysis follows a course. *)
From Coq Require Import String List QArith Qabs Bool Arith Lia Lqa.
From Verif.Base Require Import Py Num XNum Paths.
From Verif.Model Require Import Mech World Metrics Drivers Sensitivity.
From Verif.Spec Require Import TrimSpec MetricSpec DriverSpec SensitivitySpec SaOrderSpec.
From Verif.Proofs Require Import PyFacts NumFacts TrimFacts MetricFacts StepFacts SaFacts SaMore.
Import ListNotations.

(** ** The least of a list *)

Definition least_at (l : list xnum) (j : nat) : Prop :=
  exists v, nth_error l j = Some v /\
    (forall k x, (k < j)%nat -> nth_error l k = Some x -> x <> NaN) /\
    (v = NaN \/
     forall k x, nth_error l k = Some x ->
       x <> NaN /\ ((k < j)%nat -> xlt v x = true) /\ ((j < k)%nat -> xle v x = true)).

Lemma xlt_le a b : xlt a b = true -> xle a b = true.
Proof. destruct a, b; simpl; auto. intros H. apply Qlt_bool_iff in H. apply Qle_bool_iff. lra. Qed.
Lemma xlt_le_trans a b c : xlt a b = true -> xle b c = true -> xlt a c = true.
Proof.
  destruct a, b, c; simpl; auto; try discriminate. intros H G. apply Qlt_bool_iff in H. apply Qle_bool_iff in G.
  apply Qlt_bool_iff. lra.
Qed.
Lemma xle_lt_trans a b c : xle a b = true -> xlt b c = true -> xlt a c = true.
Proof.
  destruct a, b, c; simpl; auto; try discriminate. intros H G. apply Qle_bool_iff in H. apply Qlt_bool_iff in G.
  apply Qlt_bool_iff. lra.
Qed.
Lemma xlt_irrefl a : xlt a a = false.
Proof. destruct a; simpl; auto. apply Qlt_bool_false. lra. Qed.
Lemma not_lt_le a b : a <> NaN -> b <> NaN -> xlt a b = false -> xle b a = true.
Proof. destruct a, b; simpl; auto; try contradiction; intros; try discriminate. apply Qle_bool_iff. now apply Qlt_bool_false. Qed.
Lemma not_le_lt a b : a <> NaN -> b <> NaN -> xle a b = false -> xlt b a = true.
Proof.
  destruct a, b; simpl; auto; try contradiction; intros; try discriminate. apply Qlt_bool_iff.
  destruct (Qlt_le_dec q0 q) as [L|L]; auto. apply Qle_bool_iff in L. congruence.
Qed.

Lemma least_unique l i j : least_at l i -> least_at l j -> i = j.
Proof.
  intros (v & Ni & Bi & Ci) (u & Nj & Bj & Cj).
  destruct (Nat.lt_trichotomy i j) as [L|[L|L]]; auto; exfalso.
  - destruct Ci as [->|Ci]; [now apply (Bj i NaN)|]. destruct Cj as [->|Cj]; [now apply (proj1 (Ci _ _ Nj))|].
    destruct (Ci _ _ Nj) as (_ & _ & A). destruct (Cj _ _ Ni) as (_ & B & _). specialize (A L). specialize (B L).
    pose proof (xlt_le_trans _ _ _ B A) as X. rewrite xlt_irrefl in X. discriminate.
  - destruct Cj as [->|Cj]; [now apply (Bi j NaN)|]. destruct Ci as [->|Ci]; [now apply (proj1 (Cj _ _ Ni))|].
    destruct (Cj _ _ Ni) as (_ & _ & A). destruct (Ci _ _ Nj) as (_ & B & _). specialize (A L). specialize (B L).
    pose proof (xlt_le_trans _ _ _ B A) as X. rewrite xlt_irrefl in X. discriminate.
Qed.

Lemma argmin_from_least l : forall pre best v, nth_error pre best = Some v -> least_at pre best ->
  least_at (pre ++ l) (argmin_from (length pre) best v l).
Proof.
  induction l as [|x l IH]; intros pre best v N L; simpl.
  - now rewrite app_nil_r.
  - assert (best < length pre)%nat as LB by (apply nth_error_Some; congruence).
    destruct L as (v' & N' & B & C). assert (v' = v) by congruence. subst v'.
    destruct (is_nan v) eqn:NV.
    + assert (v = NaN) as -> by (destruct v; auto; discriminate). exists NaN. rewrite nth_error_app1; auto.
      split; auto. split; auto. intros k y Hk. rewrite nth_error_app1 by lia. eauto.
    + destruct C as [->|C]; [discriminate|].
      replace (S (length pre)) with (length (pre ++ [x])) by (rewrite app_length; simpl; lia).
      replace (pre ++ x :: l) with ((pre ++ [x]) ++ l) by now rewrite <- app_assoc.
      assert (nth_error (pre ++ [x]) (length pre) = Some x) as NX by (rewrite nth_error_app2, Nat.sub_diag; auto).
      assert (forall k y, nth_error (pre ++ [x]) k = Some y ->
                ((k < length pre)%nat /\ nth_error pre k = Some y) \/ (k = length pre /\ y = x)) as SP.
      { intros k y H. destruct (lt_dec k (length pre)) as [Lk|Lk]; [rewrite nth_error_app1 in H; auto|].
        right. assert (k < length (pre ++ [x]))%nat as Lk2 by (apply nth_error_Some; congruence).
        rewrite app_length in Lk2. simpl in Lk2. assert (k = length pre) by lia. subst k. split; auto. congruence. }
      assert (v <> NaN) as VN by (intros ->; discriminate).
      destruct (is_nan x || xlt x v) eqn:CX.
      * apply IH; auto. exists x. split; auto. split.
        -- intros k y Hk H. destruct (SP _ _ H) as [[_ H']|[-> _]]; [|lia]. now apply (C _ _ H').
        -- apply orb_true_iff in CX. destruct CX as [CX|CX]; [left; destruct x; auto; discriminate|right].
           intros k y H. destruct (SP _ _ H) as [[Lk H']|[-> ->]].
           ++ destruct (C _ _ H') as (C1 & C2 & C3). split; auto. split; [|lia]. intros _.
              destruct (Nat.lt_trichotomy k best) as [K|[K|K]].
              ** eapply xlt_le_trans; [exact CX|]. apply xlt_le; auto.
              ** subst k. congruence.
              ** eapply xlt_le_trans; eauto.
           ++ split; [|lia]. intros ->. destruct v; discriminate.
      * apply orb_false_iff in CX. destruct CX as [NX' CX].
        assert (x <> NaN) as XN by (intros ->; discriminate).
        apply IH; [rewrite nth_error_app1; auto|]. exists v. rewrite nth_error_app1; auto. split; auto. split.
        -- intros k y Hk H. destruct (SP _ _ H) as [[_ H']|[-> _]]; [|lia]. eauto.
        -- right. intros k y H. destruct (SP _ _ H) as [[Lk H']|[-> ->]]; [eauto|].
           split; auto. split; [lia|]. intros _. now apply not_lt_le.
Qed.

Lemma argmin_least l : l <> nil -> least_at l (argmin l).
Proof.
  intros N. destruct l as [|x l]; [contradiction|]. unfold argmin.
  apply (argmin_from_least l [x] 0 x); auto. exists x. split; auto. split; [lia|].
  destruct x; [right| right|right|left; auto]; intros [|k] y; simpl; intros H;
    try (destruct k; discriminate); injection H as <-; (split; [discriminate|split; lia]).
Qed.

(** ** The candidate that comes next *)

Lemma delete_app {A} (a : list A) x b : delete_at (length a) (a ++ x :: b) = a ++ b.
Proof. induction a; simpl; congruence. Qed.

Lemma map_delete {A B} (f : A -> B) l : forall i, map f (delete_at i l) = delete_at i (map f l).
Proof. induction l; intros [|i]; simpl; congruence. Qed.

Lemma next_least K now sc before s e after : sc = before ++ (s, e) :: after ->
  ((forall x, In x before -> away K now x <> NaN) /\
   (away K now (s, e) = NaN \/
     (forall x, In x sc -> away K now x <> NaN) /\
     (forall x, In x before -> xlt (away K now (s, e)) (away K now x) = true) /\
     (forall x, In x after -> xle (away K now (s, e)) (away K now x) = true))) <->
  least_at (map (away K now) sc) (length before).
Proof.
  intros ->.
  assert (nth_error (map (away K now) (before ++ (s, e) :: after)) (length before) = Some (away K now (s, e))) as NT.
  { rewrite map_app, nth_error_app2; rewrite map_length; auto. now rewrite Nat.sub_diag. }
  assert (forall k x, nth_error (map (away K now) (before ++ (s, e) :: after)) k = Some x ->
    exists y, x = away K now y /\ In y (before ++ (s, e) :: after) /\
      ((k < length before)%nat -> In y before) /\ ((length before < k)%nat -> In y after)) as SP.
  { intros k x H. rewrite nth_error_map in H. destruct (nth_error (before ++ (s, e) :: after) k) as [y|] eqn:E; [|discriminate].
    injection H as <-. exists y. split; auto. split; [eapply nth_error_In; eauto|]. split; intros L.
    - rewrite nth_error_app1 in E; auto. eapply nth_error_In; eauto.
    - rewrite nth_error_app2 in E by lia. destruct (k - length before)%nat as [|n] eqn:D; [lia|]. simpl in E. eapply nth_error_In; eauto. }
  assert (forall y, In y before -> exists k, (k < length before)%nat /\
    nth_error (map (away K now) (before ++ (s, e) :: after)) k = Some (away K now y)) as PB.
  { intros y H. apply In_nth_error in H. destruct H as (k & H). exists k.
    assert (k < length before)%nat by (apply nth_error_Some; congruence). split; auto.
    rewrite nth_error_map, nth_error_app1, H; auto. }
  assert (forall y, In y after -> exists k, (length before < k)%nat /\
    nth_error (map (away K now) (before ++ (s, e) :: after)) k = Some (away K now y)) as PA.
  { intros y H. apply In_nth_error in H. destruct H as (k & H). exists (length before + S k)%nat. split; [lia|].
    rewrite nth_error_map, nth_error_app2 by lia. replace (length before + S k - length before)%nat with (S k) by lia.
    simpl. now rewrite H. }
  assert (forall y, In y (before ++ (s, e) :: after) -> exists k,
    nth_error (map (away K now) (before ++ (s, e) :: after)) k = Some (away K now y)) as PI.
  { intros y H. apply In_nth_error in H. destruct H as (k & H). exists k. now rewrite nth_error_map, H. }
  split.
  - intros [B C]. exists (away K now (s, e)). split; auto. split.
    + intros k x L H. destruct (SP _ _ H) as (y & -> & _ & I1 & _). auto.
    + destruct C as [C|(C1 & C2 & C3)]; [auto|right]. intros k x H. destruct (SP _ _ H) as (y & -> & I0 & I1 & I2). auto.
  - intros (v & N & B & C). assert (v = away K now (s, e)) by congruence. subst v. split.
    + intros y H. destruct (PB _ H) as (k & L & E). eauto.
    + destruct C as [C|C]; [auto|right]. split; [|split].
      * intros y H. destruct (PI _ H) as (k & E). now apply (C _ _ E).
      * intros y H. destruct (PB _ H) as (k & L & E). now apply (C _ _ E).
      * intros y H. destruct (PA _ H) as (k & L & E). now apply (C _ _ E).
Qed.

Lemma choose_map K now (sc : scores) : choose (s_far K) now (map snd sc) = argmin (map (away K now) sc).
Proof. unfold choose. rewrite map_map. reflexivity. Qed.

Lemma next_iff K now sc s others : next_tried K now sc s others <->
  exists e, nth_error sc (choose (s_far K) now (map snd sc)) = Some (s, e) /\
            others = delete_at (choose (s_far K) now (map snd sc)) sc.
Proof.
  rewrite choose_map. split.
  - intros (before & e & after & E & O & C). apply (next_least K now sc before s e after E) in C.
    assert (argmin (map (away K now) sc) = length before) as ->.
    { eapply least_unique; [|exact C]. apply argmin_least. rewrite E. destruct before; discriminate. }
    exists e. subst. rewrite nth_error_app2, Nat.sub_diag, delete_app; auto.
  - intros (e & N & ->). destruct (nth_error_split _ _ N) as (before & after & E & L).
    exists before, e, after. split; auto. split; [rewrite <- L, E at 1; apply delete_app|].
    apply (next_least K now sc before s e after E). rewrite L. apply argmin_least.
    rewrite E. destruct before; discriminate.
Qed.

(** ** Scores *)

Lemma scored_mapM K ref m l sc : scored_on K ref m l sc ->
  mapM (score (s_phase K) (s_conds K) ref m) l = Ok (map snd sc).
Proof.
  intros [<- H]. induction sc as [|[s e] sc IH]; simpl; auto.
  rewrite (proj2 (score_ok K ref m s e)) by (apply H; simpl; auto). simpl. rewrite IH; auto.
  intros s' e' X. apply H. simpl; auto.
Qed.

Lemma mapM_scored K ref m l errs : mapM (score (s_phase K) (s_conds K) ref m) l = Ok errs ->
  scored_on K ref m l (combine l errs) /\ map snd (combine l errs) = errs.
Proof.
  intros H. apply mapM_ok in H. induction H as [|s e l errs A _ IH]; simpl.
  - split; auto. split; auto. intros ? ? [].
  - destruct IH as [[IH1 IH2] IH3]. split; [split|]; simpl; try congruence.
    intros s' e' [X|X]; auto. injection X as <- <-. now apply score_ok.
Qed.

Lemma fold_min_over lim l : forall a,
  xgt (fold_left (fun a b => if xlt b a then b else a) l a) lim = true <->
  xgt a lim = true /\ forall x, In x l -> xle x lim = false.
Proof.
  unfold xgt. induction l as [|x l IH]; intros a; simpl; [split; [|tauto]; intros H; split; auto; intros ? []|].
  rewrite IH. split.
  - intros [A B]. destruct (xlt x a) eqn:C.
    + assert (forall p q, xlt p q = true -> xle q p = false) as NL.
      { intros p q H. destruct (xle q p) eqn:E; auto. pose proof (xlt_le_trans _ _ _ H E) as X. rewrite xlt_irrefl in X. discriminate. }
      split; [eapply xlt_le_trans; [exact A|now apply xlt_le]|]. intros y [<-|H]; auto.
    + split; auto. intros y [<-|H]; auto. destruct (xle x lim) eqn:E; auto.
      pose proof (xle_lt_trans _ _ _ E A). congruence.
  - intros [A B]. split; [|intros; apply B; auto]. destruct (xlt x a) eqn:C; auto.
    apply not_le_lt; [intros ->; destruct a; discriminate|intros ->; destruct a; discriminate|apply B; auto].
Qed.

Lemma min_over lim sc : sc <> [] -> exists least, py_min (map snd sc) = Ok least /\
  (xgt least lim = true <-> all_over lim sc).
Proof.
  destruct sc as [|[s e] sc]; [contradiction|]. intros _. simpl. eexists. split; [reflexivity|].
  rewrite fold_min_over. unfold all_over. split.
  - intros [A B]. split; [eauto 6|]. intros s' e' [X|X].
    + injection X as <- <-. unfold xgt in A. destruct (xle e lim) eqn:E; auto.
      pose proof (xlt_le_trans _ _ _ A E) as X. rewrite xlt_irrefl in X. discriminate.
    + apply B. apply in_map_iff. exists (s', e'). auto.
  - intros [(s' & e' & t & X & A) B]. injection X as <- <- <-. split; auto.
    intros x H. apply in_map_iff in H. destruct H as ([s' e'] & <- & H). simpl. eapply B. simpl. eauto.
Qed.

(** ** The loop *)

Lemma loop_course K ref : forall fuel m now sc m' now' rest,
  p_loop fuel K ref m now (map snd sc) (map fst sc) = Ok (m', now', rest) -> course K ref m now sc m' now'.
Proof.
  induction fuel as [|fuel IH]; intros m now sc m' now' rest H.
  - destruct sc; [|discriminate]. injection H as <- <- <-. constructor.
  - destruct sc as [|x0 sc0] eqn:SC; [injection H as <- <- <-; constructor|]. rewrite <- SC in *.
    assert (forall A (a b : A), match map fst sc with nil => a | _ :: _ => b end = b) as NE by (rewrite SC; auto).
    cbn [p_loop] in H. rewrite NE in H. set (i := choose (s_far K) now (map snd sc)) in *.
    rewrite nth_error_map in H. destruct (nth_error sc i) as [[s e0]|] eqn:N; [|discriminate]. simpl in H.
    assert (next_tried K now sc s (delete_at i sc)) as NX by (apply next_iff; eauto).
    destruct (without (s_phase K) m s) as [m1|?|] eqn:EW; try discriminate. cbn [bind] in H.
    destruct (error_of (s_conds K) ref m1) as [e|?|] eqn:EE; try discriminate. cbn [bind] in H.
    apply removals_one in EW.
    destruct (xgt e (s_limit K)) eqn:G.
    { injection H as <- <- <-. eapply co_refused; eauto. exists m1. auto. }
    rewrite <- !map_delete in H. destruct (s_alg K) eqn:AL.
    + eapply co_old_scores; eauto.
    + destruct (mapM _ (map fst (delete_at i sc))) as [errs|?|] eqn:EM; try discriminate. cbn [bind] in H.
      destruct (mapM_scored _ _ _ _ _ EM) as [S1 S2]. set (sc1 := combine (map fst (delete_at i sc)) errs) in *.
      assert (sc1 <> []) as N1 by (intros X; rewrite X in S2; simpl in S2; rewrite <- S2 in H; discriminate).
      destruct (min_over (s_limit K) sc1 N1) as (least & EL & OV). rewrite S2 in EL. rewrite EL in H. cbn [bind] in H.
      destruct (xgt least (s_limit K)) eqn:GL.
      * injection H as <- <- <-. eapply co_all_over; eauto. now apply OV.
      * eapply co_new_scores; eauto.
        -- intros X. apply OV in X. congruence.
        -- apply (IH _ _ _ _ _ rest). rewrite S2. destruct S1 as [-> _]. exact H.
Qed.

Lemma course_loop K ref m now sc m' now' : course K ref m now sc m' now' -> forall fuel, (length sc <= fuel)%nat ->
  exists rest, p_loop fuel K ref m now (map snd sc) (map fst sc) = Ok (m', now', rest).
Proof.
  assert (forall m now sc s others, next_tried K now sc s others -> forall fuel, (length sc <= fuel)%nat ->
    exists fuel' rest, fuel = S fuel' /\ (length others <= fuel')%nat /\ rest = map fst others /\
    p_loop fuel K ref m now (map snd sc) (map fst sc) =
    bind (without (s_phase K) m s) (fun m' =>
    bind (error_of (s_conds K) ref m') (fun e =>
    if xgt e (s_limit K) then Ok (m, now, rest)
    else match s_alg K with
         | Initial => p_loop fuel' K ref m' e (map snd others) rest
         | Greedy =>
             bind (mapM (score (s_phase K) (s_conds K) ref m') rest) (fun errs' =>
             bind (py_min errs') (fun least =>
             if xgt least (s_limit K) then Ok (m', e, rest)
             else p_loop fuel' K ref m' e errs' rest))
         end))) as STEP.
  { intros m0 now0 sc0 s others NX fuel LF. apply next_iff in NX. destruct NX as (e & N & ->).
    assert (choose (s_far K) now0 (map snd sc0) < length sc0)%nat as LC by (apply nth_error_Some; congruence).
    destruct fuel as [|fuel]; [lia|]. exists fuel. eexists. split; auto. split; [rewrite delete_len; lia|]. split; [reflexivity|].
    destruct sc0 as [|x0 l0] eqn:SC; [simpl in LC; lia|]. rewrite <- SC in *.
    assert (forall A (a b : A), match map fst sc0 with nil => a | _ :: _ => b end = b) as NE by (rewrite SC; auto).
    cbn [p_loop]. rewrite NE. rewrite nth_error_map, N. simpl option_map. cbv iota. rewrite !map_delete. reflexivity. }
  induction 1 as [m now|m now sc s others e NX EW G|m now sc s others m1 e m' now' AL NX R E G _ IH
                 |m now sc s others m1 e sc1 m' now' AL NX R E G SC N1 NO _ IH|m now sc s others m1 e sc1 AL NX R E G SC AO];
    intros fuel LF.
  - exists nil. destruct fuel; reflexivity.
  - destruct (STEP m _ _ _ _ NX fuel LF) as (fuel' & rest & _ & _ & _ & ->). destruct EW as (m1 & R & E).
    apply removals_one in R. rewrite R. cbn [bind]. rewrite E. cbn [bind]. rewrite G. eauto.
  - destruct (STEP m _ _ _ _ NX fuel LF) as (fuel' & rest & _ & LF' & -> & ->). apply removals_one in R. rewrite R. cbn [bind].
    rewrite E. cbn [bind]. rewrite G, AL. auto.
  - destruct (STEP m _ _ _ _ NX fuel LF) as (fuel' & rest & _ & LF' & -> & ->). apply removals_one in R. rewrite R. cbn [bind].
    rewrite E. cbn [bind]. rewrite G, AL. rewrite (scored_mapM _ _ _ _ _ SC). cbn [bind].
    destruct (min_over (s_limit K) sc1 N1) as (least & -> & OV). cbn [bind].
    destruct (xgt least (s_limit K)) eqn:GL; [exfalso; apply NO; now apply OV|].
    destruct SC as [SC _]. rewrite <- SC. apply IH. apply (f_equal (@length _)) in SC. rewrite !map_length in SC. lia.
  - destruct (STEP m _ _ _ _ NX fuel LF) as (fuel' & rest & _ & LF' & -> & ->). apply removals_one in R. rewrite R. cbn [bind].
    rewrite E. cbn [bind]. rewrite G, AL. rewrite (scored_mapM _ _ _ _ _ SC). cbn [bind].
    assert (sc1 <> []) as N1 by (destruct AO as [(? & ? & ? & -> & _) _]; discriminate).
    destruct (min_over (s_limit K) sc1 N1) as (least & -> & OV). cbn [bind].
    rewrite (proj2 OV AO). eauto.
Qed.

(** ** Whole runs *)

Lemma sa_course K w tmp tmp2 sol fuel r w' ref cands : sa_started K w tmp tmp2 sol -> found K w ref ->
  candidates K w sol cands -> run_sa fuel tmp tmp2 K w = (Ok r, w') ->
  exists sc, scored_on K ref sol cands sc /\ course K ref sol (s_start K) sc (r_model r) (r_error r).
Proof.
  intros ST RF C E. pose proof (run_pure K w tmp tmp2 sol fuel ref cands ST RF C) as P. rewrite E in P. simpl in P.
  unfold p_run in P. destruct (mapM _ cands) as [errs|?|] eqn:EM; try discriminate. cbn [bind] in P.
  destruct (p_loop fuel K ref sol (s_start K) errs cands) as [[[m e] rest]|?|] eqn:EP; try discriminate.
  injection P as ->. simpl. destruct (mapM_scored _ _ _ _ _ EM) as [S1 S2].
  exists (combine cands errs). split; auto. apply (loop_course K ref fuel _ _ _ _ _ rest). rewrite S2. destruct S1 as [-> _]. exact EP.
Qed.

Lemma course_sa K w tmp tmp2 sol fuel ref cands sc m e : sa_started K w tmp tmp2 sol -> found K w ref ->
  candidates K w sol cands -> scored_on K ref sol cands sc -> course K ref sol (s_start K) sc m e ->
  (length cands <= fuel)%nat ->
  exists r w', run_sa fuel tmp tmp2 K w = (Ok r, w') /\ r_model r = m /\ r_error r = e.
Proof.
  intros ST RF C SC CO LF. pose proof (run_pure K w tmp tmp2 sol fuel ref cands ST RF C) as P.
  unfold p_run in P. rewrite (scored_mapM _ _ _ _ _ SC) in P. cbn [bind] in P.
  assert (length sc <= fuel)%nat as LF' by (destruct SC as [<- _]; now rewrite map_length in LF).
  destruct (course_loop _ _ _ _ _ _ _ CO fuel LF') as (rest & EP). destruct SC as [SC _]. rewrite SC in EP. rewrite EP in P.
  destruct (run_sa fuel tmp tmp2 K w) as [R w']. simpl in P. subst R. do 2 eexists. split; [reflexivity|]. auto.
Qed.

(** Without rounding, the candidate tried is a nearest one. *)
Lemma next_exact K nowq sc s others : s_far K = error_distance ->
  (forall x, In x sc -> exists q, snd x = Fin q) -> next_tried K (Fin nowq) sc s others ->
  exists q, In (s, Fin q) sc /\ forall s' q', In (s', Fin q') sc -> (Qabs (q - nowq) <= Qabs (q' - nowq))%Q.
Proof.
  intros FA DS (before & e & after & E & _ & _ & C).
  assert (In (s, e) sc) as I by (rewrite E; apply in_or_app; simpl; auto).
  destruct (DS _ I) as (q & Dq). simpl in Dq. subst e. exists q. split; auto. intros s' q' I'.
  unfold away in C. rewrite FA in C. simpl in C. destruct C as [C|(_ & C1 & C2)]; [discriminate|].
  rewrite E in I'. apply in_app_or in I'. destruct I' as [I'|[I'|I']].
  - specialize (C1 _ I'). simpl in C1. apply Qlt_bool_iff in C1. apply Qlt_le_weak. exact C1.
  - injection I' as _ <-. lra.
  - specialize (C2 _ I'). simpl in C2. apply Qle_bool_iff in C2. exact C2.
Qed.
