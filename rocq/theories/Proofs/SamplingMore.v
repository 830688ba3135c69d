(** Facts about saved samples and about [sample]. *)
From Coq Require Import String Ascii List QArith ZArith Bool Arith Lia Permutation.
From Verif.Base Require Import Py Num XNum Paths.
From Verif.Model Require Import Mech World Metrics Drivers Simulation Sampling.
From Verif.Spec Require Import DriverSpec SimSpec SamplingSpec.
From Verif.Proofs Require Import SimFacts SimMore ProgFacts SamplingFacts.
Import ListNotations.
Local Open Scope string_scope.

(** ** Saving *)
Lemma puts_exec {A} f cs (k : prog A) : forall w, exists w', exec (puts f cs k) w = exec k w' /\
  (forall g, g <> f -> w_fs w' g = w_fs w g) /\
  w_fs w' f = match rev cs with nil => w_fs w f | c :: _ => Some c end.
Proof.
  induction cs as [|c cs IH]; intros w; simpl.
  - exists w. auto.
  - destruct (IH (set_file f (Some c) w)) as (w' & E & F & L). exists w'. split; auto. split.
    + intros g G. rewrite F by auto. now apply set_file_ne.
    + rewrite L. destruct (rev cs) as [|d r] eqn:ER; simpl; auto. apply set_file_eq.
Qed.
Lemma puts_states {A} f cs (k : prog A) : forall w v, In v (states (puts f cs k) w) ->
  ((forall g, g <> f -> w_fs v g = w_fs w g) /\ (w_fs v f = w_fs w f \/ exists c, In c cs /\ w_fs v f = Some c)) \/
  exists w', In v (states k w') /\ exec (puts f cs k) w = exec k w' /\
    (forall g, g <> f -> w_fs w' g = w_fs w g) /\
    w_fs w' f = match rev cs with nil => w_fs w f | c :: _ => Some c end.
Proof.
  induction cs as [|c cs IH]; intros w v H; simpl in H.
  - right. exists w. auto.
  - destruct H as [<-|H]; [left; auto|]. apply IH in H. destruct H as [(F & D)|(w' & I & E & F & L)].
    + left. split.
      * intros g G. rewrite F by auto. now apply set_file_ne.
      * right. destruct D as [D|(d & I & D)].
        -- exists c. split; [left; auto|]. rewrite D. apply set_file_eq.
        -- exists d. split; [right; auto|]. auto.
    + right. exists w'. split; auto. split; [exact E|]. split.
      * intros g G. rewrite F by auto. now apply set_file_ne.
      * rewrite L. simpl. destruct (rev cs); simpl; auto. apply set_file_eq.
Qed.
Lemma within_puts {A} f cs (k : prog A) (R W : string -> Prop) : W f -> within k R W -> within (puts f cs k) R W.
Proof. induction cs; simpl; auto. Qed.

Lemma rev_app_ne {A} (l r : list A) : r <> nil -> exists x t, rev r = x :: t /\ rev (l ++ r) = x :: (t ++ rev l)%list.
Proof.
  intros N. rewrite rev_app_distr. destruct (rev r) as [|x t] eqn:E.
  - exfalso. apply N. rewrite <- (rev_involutive r), E. reflexivity.
  - exists x, t. auto.
Qed.
Lemma rev_nums torn l : forall done c, exists r,
  rev (c :: nums_states torn done l) = (match l with nil => c | _ => FNums (done ++ l) end) :: r.
Proof.
  induction l as [|x l IH]; intros done c; [exists nil; reflexivity|].
  simpl nums_states. destruct (IH (done ++ [x])%list (FNums (done ++ [x])%list)) as (r & E).
  destruct (rev_app_ne (c :: map (fun y => FNums (done ++ [y])%list) (torn x)) (FNums (done ++ [x])%list :: nums_states torn (done ++ [x]) l)) as (z & t & Z1 & Z2); [discriminate|].
  exists (t ++ rev (c :: map (fun y => FNums (done ++ [y])%list) (torn x)))%list. simpl app in Z2. simpl. simpl in Z2. rewrite Z2. f_equal.
  assert (rev (FNums (done ++ [x])%list :: nums_states torn (done ++ [x]) l) = z :: t) as Z1' by exact Z1. rewrite E in Z1'. injection Z1' as <- _.
  destruct l; auto. now rewrite <- app_assoc.
Qed.
Lemma rev_rows torn l : forall done c, exists r,
  rev (c :: rows_states torn done l) = (match l with nil => c | _ => FTable (done ++ l) end) :: r.
Proof.
  induction l as [|x l IH]; intros done c; [exists nil; reflexivity|].
  simpl rows_states. destruct (IH (done ++ [x])%list (FTable (done ++ [x])%list)) as (r & E).
  destruct (rev_app_ne (c :: row_states torn done nil x) (FTable (done ++ [x])%list :: rows_states torn (done ++ [x]) l)) as (z & t & Z1 & Z2); [discriminate|].
  exists (t ++ rev (c :: row_states torn done nil x))%list. simpl app in Z2. simpl. simpl in Z2. rewrite Z2. f_equal.
  assert (rev (FTable (done ++ [x])%list :: rows_states torn (done ++ [x]) l) = z :: t) as Z1' by exact Z1. rewrite E in Z1'. injection Z1' as <- _.
  destruct l; auto. now rewrite <- app_assoc.
Qed.

Lemma save_nums_exec torn f l w : exists w', exec (save_nums torn f l) w = (Ok tt, w') /\
  (forall g, g <> f -> w_fs w' g = w_fs w g) /\ w_fs w' f = Some (FNums l).
Proof.
  unfold save_nums. destruct (puts_exec f (FNums nil :: nums_states torn nil l) (pret tt) w) as (w' & E & F & L).
  exists w'. split; [exact E|]. split; auto. rewrite L. destruct (rev_nums torn l nil (FNums nil)) as (r & ->). destruct l; auto.
Qed.
Lemma save_rows_exec torn f l w : exists w', exec (save_rows torn f l) w = (Ok tt, w') /\
  (forall g, g <> f -> w_fs w' g = w_fs w g) /\ w_fs w' f = Some (FTable l).
Proof.
  unfold save_rows. destruct (puts_exec f (FTable nil :: rows_states torn nil l) (pret tt) w) as (w' & E & F & L).
  exists w'. split; [exact E|]. split; auto. rewrite L. destruct (rev_rows torn l nil (FTable nil)) as (r & ->). destruct l; auto.
Qed.

Lemma in_nums_states torn c l : forall done, In c (nums_states torn done l) ->
  exists pre x t, l = (pre ++ x :: t)%list /\
    (c = FNums (done ++ pre ++ [x])%list \/ exists y, In y (torn x) /\ c = FNums (done ++ pre ++ [y])%list).
Proof.
  induction l as [|a l IH]; intros done H; simpl in H; [destruct H|].
  apply in_app_or in H. destruct H as [H|[H|H]].
  - apply in_map_iff in H. destruct H as (y & <- & Y). exists nil, a, l. split; [reflexivity|]. right. exists y. auto.
  - subst c. exists nil, a, l. split; [reflexivity|]. left. reflexivity.
  - apply IH in H. destruct H as (pre & x & t & -> & D). exists (a :: pre)%list, x, t. split; [reflexivity|].
    rewrite <- !app_assoc in D. simpl in D. destruct D as [->|(y & Y & ->)]; [left; auto|right].
    exists y. split; auto. now rewrite <- app_assoc.
Qed.

(** ** One part of [sample] *)
Definition row_width (rows : list (list xnum)) (n : nat) : Prop := forall r, In r rows -> length r = n.
Record sized (m : mech) (nm rows : nat) (x : case_result) : Prop := {
  sz_metrics : length (fst x) = nm;
  sz_rows : length (snd x) = rows;
  sz_width : row_width (snd x) (2 + n_species m)
}.

Lemma table_array m nm rows x : sized m nm rows x -> (2 <= rows)%nat -> text_array (FTable (snd x)) = Ok (Arr2 (snd x)).
Proof.
  intros [_ L WD] G. simpl. destruct (snd x) as [|r1 [|r2 t]] eqn:E; simpl in L; try lia.
  assert (rect (r1 :: r2 :: t) = true) as ->.
  { unfold rect. apply forallb_forall. intros y Y. rewrite (WD y) by (right; auto). rewrite (WD r1) by (left; auto). apply Nat.eqb_refl. }
  simpl negb. rewrite (WD r1) by (left; auto). simpl. reflexivity.
Qed.

Definition ready (model phase : string) (nm rows : nat) (data output : string) (m : mech) (w : world) (x : case_result) : Prop :=
  exists cd co, w_fs w data = Some cd /\ w_fs w output = Some co /\
    text_array co = Ok (Arr1 (fst x)) /\ text_array cd = Ok (Arr2 (snd x)) /\
    length (fst x) = nm /\ length (snd x) = rows /\ (exists r t, snd x = r :: t /\ length r = (2 + n_species m)%nat).

Section Part.
  Variables (torn : xnum -> list xnum) (model phase data output : string) (nm nc pc : nat) (jobs : prog case_result).
  Variables (m : mech) (Sc : string -> Prop).
  Hypothesis distinct : data <> output.
  Hypothesis model_off : model <> data /\ model <> output /\ ~ Sc model.
  Hypothesis off_scratch : ~ Sc data /\ ~ Sc output.
  Hypothesis jobs_within : within jobs (fun f => f = model) (Sc).
  Hypothesis enough : (2 <= pc * nc)%nat.

  Let part := sample_part torn model phase data output nm nc pc jobs.
  Let rows := (pc * nc)%nat.

  Lemma part_within : within part (fun f => f = model) (fun f => f = data \/ f = output \/ Sc f).
  Proof.
    unfold part, sample_part. apply within_bind; [simpl; auto|]. intros ed. apply within_bind; [simpl; auto|]. intros eo.
    apply within_bind.
    - destruct (ed && eo); [|simpl; auto]. apply within_bind; [simpl; auto|]. intros o. apply within_bind; [simpl; auto|]. intros d.
      apply within_bind; [simpl; auto|]. intros g. apply within_bind; [simpl; auto|]. intros c.
      destruct (_ && _); [|simpl; auto]. apply within_bind; simpl; auto.
    - intros [r|]; [simpl; auto|]. apply within_bind.
      + eapply within_weaken; [| |exact jobs_within]; simpl; auto.
      + intros r. apply within_bind; [apply within_puts; simpl; auto|]. intros _.
        apply within_bind; [apply within_puts; simpl; auto|]. simpl. auto.
  Qed.

  Lemma part_ready w x : holds w model phase m -> ready model phase nm rows data output m w x -> exec part w = (Ok x, w).
  Proof.
    intros H (cd & co & ED & EO & TO & TD & L1 & L2 & r & t & ER & LR). unfold part, sample_part, pis_file, genfromtxt, pload, pret.
    simpl. rewrite ED, EO. simpl. rewrite EO, TO. simpl. rewrite ED, TD. simpl. destruct H as (ph & -> & ->). simpl.
    rewrite L1, L2, !Nat.eqb_refl. rewrite ER, LR, Nat.eqb_refl. simpl. rewrite <- ER. destruct x; reflexivity.
  Qed.

  Lemma states_ready w x v : holds w model phase m -> ready model phase nm rows data output m w x -> In v (states part w) -> v = w.
  Proof.
    intros H (cd & co & ED & EO & TO & TD & L1 & L2 & r & t & ER & LR). unfold part, sample_part, pis_file, genfromtxt, pload, pret.
    simpl. rewrite ED, EO. simpl. rewrite EO, TO. simpl. rewrite ED, TD. simpl. destruct H as (ph & -> & ->). simpl.
    rewrite L1, L2, !Nat.eqb_refl. rewrite ER, LR, Nat.eqb_refl. simpl. intros [<-|[]]. reflexivity.
  Qed.

  (** The saved samples are not usable, but nothing prevents recomputation. *)
  Definition unusable (w : world) : Prop :=
    w_fs w output = None \/ w_fs w data = None \/
    exists l ds, w_fs w output = Some (FNums l) /\ length l <> nm /\ w_fs w data = Some (FTable ds) /\
                 text_array (FTable ds) = Ok (Arr2 ds).

  Definition recompute : prog case_result :=
    r <~ jobs ;; save_rows torn data (snd r) ~;; save_nums torn output (fst r) ~;; pret r.

  Lemma unusable_exec w : holds w model phase m -> unusable w ->
    exec part w = exec recompute w /\ states part w = states recompute w.
  Proof.
    intros H U. unfold part, sample_part, pis_file, genfromtxt, pload, pret.
    destruct U as [E|[E|(l & ds & EO & NE & ED & TD)]].
    - simpl. rewrite E, andb_false_r. simpl. auto.
    - simpl. rewrite E. simpl. destruct (w_fs w output); simpl; auto.
    - simpl. rewrite ED, EO. simpl. rewrite EO. simpl text_array. simpl. rewrite ED, TD. simpl. destruct H as (ph & -> & ->). simpl.
      destruct (Nat.eqb_spec (length l) nm); [contradiction|]. simpl. auto.
  Qed.

  Lemma recompute_exec w x w1 : exec jobs w = (Ok x, w1) ->
    exists w', exec recompute w = (Ok x, w') /\ saved w' data output x /\
      (forall f, f <> data -> f <> output -> w_fs w' f = w_fs w1 f).
  Proof.
    intros E. unfold recompute. rewrite exec_bind, E.
    destruct (save_rows_exec torn data (snd x) w1) as (w2 & E2 & F2 & L2).
    destruct (save_nums_exec torn output (fst x) w2) as (w3 & E3 & F3 & L3).
    exists w3. rewrite exec_bind, E2, exec_bind, E3. split; [reflexivity|]. split.
    - split; [rewrite F3; auto|auto].
    - intros f N1 N2. rewrite F3, F2; auto.
  Qed.
  Lemma recompute_fails w e w1 : exec jobs w = (Raise e, w1) -> exec recompute w = (Raise e, w1).
  Proof. intros E. unfold recompute. now rewrite exec_bind, E. Qed.
  Lemma recompute_fuel w w1 : exec jobs w = (NoFuel, w1) -> exec recompute w = (NoFuel, w1).
  Proof. intros E. unfold recompute. now rewrite exec_bind, E. Qed.

  Lemma saved_ready w x : sized m nm rows x -> saved w data output x -> ready model phase nm rows data output m w x.
  Proof.
    intros SZ (ED & EO). exists (FTable (snd x)), (FNums (fst x)). split; auto. split; auto. split; [reflexivity|].
    split; [eapply table_array; eauto|]. destruct SZ as [A B WD]. split; auto. split; auto.
    destruct (snd x) as [|r t]; [simpl in B; unfold rows in B; lia|]. exists r, t. split; auto. apply WD. left; auto.
  Qed.

  Lemma holds_frame w w' : holds w model phase m -> w_fs w' model = w_fs w model -> holds w' model phase m.
  Proof. intros (ph & E & P) F. exists ph. rewrite F. auto. Qed.

  (** The result of a part that succeeds is saved and will be reused. *)
  Lemma part_success w x w1 : holds w model phase m ->
    (forall w x w', holds w model phase m -> exec jobs w = (Ok x, w') -> sized m nm rows x) ->
    exec part w = (Ok x, w1) -> ready model phase nm rows data output m w1 x.
  Proof.
    intros H SZ E.
    assert (exec recompute w = (Ok x, w1) -> ready model phase nm rows data output m w1 x) as REC.
    { intros E1. destruct (exec jobs w) as [[y| |] w2] eqn:EJ.
      - destruct (recompute_exec _ _ _ EJ) as (w' & E2 & S2 & _). rewrite E2 in E1. injection E1 as -> ->.
        apply saved_ready; auto. eapply SZ; eauto.
      - rewrite (recompute_fails _ _ _ EJ) in E1. discriminate.
      - rewrite (recompute_fuel _ _ EJ) in E1. discriminate. }
    unfold part, sample_part, pis_file, genfromtxt, pload, pret in E. simpl in E.
    destruct (w_fs w data) as [cd|] eqn:ED, (w_fs w output) as [co|] eqn:EO; simpl in E; try (apply REC; exact E).
    rewrite EO in E. destruct (text_array co) as [o| |] eqn:TO; simpl in E; try discriminate.
    rewrite ED in E. destruct (text_array cd) as [d| |] eqn:TD; simpl in E; try discriminate.
    pose proof H as (ph & EP & PP). rewrite EP, PP in E. simpl in E.
    destruct d as [d|d]; [discriminate|]. simpl in E.
    destruct (Nat.eqb_spec (arr_size o) nm) as [N1|]; [|simpl in E; apply REC; exact E].
    destruct (Nat.eqb_spec (length d) (pc * nc)) as [N2|]; [|simpl in E; apply REC; exact E].
    destruct (Nat.eqb_spec (match d with nil => 0%nat | r :: _ => length r end) (S (S (n_species m)))) as [N3|]; [|simpl in E; apply REC; exact E].
    destruct o as [o|o]; simpl in E; [|discriminate]. injection E as <- <-.
    exists cd, co. simpl in N1, N2. repeat (split; [assumption|]).
    destruct d as [|r t]; [simpl in N3; lia|]. exists r, t. auto.
  Qed.

  (** ** Crashes *)
  Variable x : case_result.
  Hypothesis jobs_run : forall w, holds w model phase m -> exists w', exec jobs w = (Ok x, w').
  Hypothesis x_sized : sized m nm rows x.

  (** No results are saved, or the right ones. *)
  Definition unspoilt (w : world) : Prop := w_fs w output = None \/ saved w data output x.

  Definition recoverable (w : world) : Prop :=
    w_fs w output = None \/ saved w data output x \/
    exists l, w_fs w output = Some (FNums l) /\ length l <> nm /\ w_fs w data = Some (FTable (snd x)).

  Lemma recoverable_cases w : recoverable w -> saved w data output x \/ unusable w.
  Proof.
    intros [E|[S|(l & E1 & N & E2)]].
    - right. left. auto.
    - left. auto.
    - right. right. right. exists l, (snd x). repeat (split; [assumption|]). eapply table_array; eauto.
  Qed.

  Lemma recover w : holds w model phase m -> recoverable w ->
    exists w', exec part w = (Ok x, w') /\ saved w' data output x /\
      (forall f, f <> data -> f <> output -> ~ Sc f -> w_fs w' f = w_fs w f).
  Proof.
    intros H RC. destruct (recoverable_cases w RC) as [S|U].
    - exists w. split; [apply part_ready; auto; now apply saved_ready|]. auto.
    - destruct (unusable_exec w H U) as (E & _). rewrite E. destruct (jobs_run w H) as (w1 & EJ).
      destruct (recompute_exec _ _ _ EJ) as (w' & E2 & S2 & F2). exists w'. split; auto. split; auto.
      intros f N1 N2 N3. rewrite F2; auto. pose proof (exec_frame _ _ _ jobs_within w f N3) as X. now rewrite EJ in X.
  Qed.

  Lemma unspoilt_recoverable w : unspoilt w -> recoverable w.
  Proof. intros [E|S]; [left|right; left]; auto. Qed.

  Lemma crash w v : holds w model phase m -> unspoilt w -> In v (states part w) ->
    (recoverable v \/ cut_short torn v output (fst x)) /\
    (forall f, f <> data -> f <> output -> ~ Sc f -> w_fs v f = w_fs w f).
  Proof.
    intros H US I. split.
    2: { intros f N1 N2 N3. eapply states_frame; [apply part_within|exact I|]. tauto. }
    destruct US as [EO|S].
    2: { rewrite (states_ready w x v H (saved_ready _ _ x_sized S) I). left. right. left. exact S. }
    destruct (unusable_exec w H (or_introl EO)) as (_ & E). rewrite E in I. unfold recompute in I.
    apply states_bind in I. destruct I as [I|(y & w1 & EJ & I)].
    - (* during the simulations *)
      left. left. rewrite (states_frame _ _ _ jobs_within _ _ output I); tauto.
    - destruct (jobs_run w H) as (w1' & EJ'). rewrite EJ' in EJ. injection EJ as <- <-.
      assert (w_fs w1' output = None) as EO1.
      { pose proof (exec_frame _ _ _ jobs_within w output (proj2 off_scratch)) as X. rewrite EJ' in X. simpl in X. congruence. }
      apply states_bind in I. destruct I as [I|([] & w2 & E2 & I)].
      + (* while the data are written *)
        left. left. unfold save_rows in I. apply puts_states in I. destruct I as [(F & _)|(w3 & I & _ & F & _)].
        * rewrite F; auto.
        * simpl in I. destruct I as [<-|[]]. rewrite F; auto.
      + destruct (save_rows_exec torn data (snd x) w1') as (w2' & E2' & F2 & L2). rewrite E2' in E2. injection E2 as <-.
        assert (forall v, w_fs v data = w_fs w2' data -> w_fs v output = Some (FNums (fst x)) -> recoverable v) as DONE.
        { intros v' X1 X2. right. left. split; congruence. }
        apply states_bind in I. destruct I as [I|([] & w3 & E3 & I)].
        * (* while the results are written *)
          unfold save_nums in I. apply puts_states in I. destruct I as [(F & D)|(w3 & I & _ & F & L)].
          -- destruct D as [D|(c & C & D)].
             { left. left. rewrite D, F2; auto. }
             destruct C as [<-|C].
             { destruct (fst x) as [|z zs] eqn:EX.
               - left. apply DONE; [apply F; auto|exact D].
               - left. right. right. exists nil. split; auto. split.
                 + pose proof (sz_metrics _ _ _ _ x_sized) as Q. rewrite EX in Q. simpl in Q. simpl. lia.
                 + rewrite F; auto. }
             apply in_nums_states in C. destruct C as (pre & z & t & EX & C). simpl in C.
             assert (length (fst x) = nm) as LX by apply (sz_metrics _ _ _ _ x_sized).
             destruct t as [|z' t].
             ++ destruct C as [->|(y & Y & ->)].
                ** left. apply DONE; [apply F; auto|]. now rewrite EX.
                ** right. exists pre, z, y. auto.
             ++ left. right. right.
                assert (forall u, length (pre ++ [u])%list <> nm) as LU.
                { intros u. rewrite <- LX, EX, !app_length. simpl. lia. }
                destruct C as [->|(y & Y & ->)]; (eexists; split; [exact D|]; split; [apply LU|]; rewrite F; auto).
          -- simpl in I. destruct I as [<-|[]]. left. apply DONE; [apply F; auto|].
             rewrite L. destruct (rev_nums torn (fst x) nil (FNums nil)) as (r & ->). destruct (fst x); auto.
        * destruct (save_nums_exec torn output (fst x) w2') as (w3' & E3' & F3 & L3). rewrite E3' in E3. injection E3 as <-.
          simpl in I. destruct I as [<-|[]]. left. apply DONE; auto.
  Qed.
End Part.
