(** Facts about [sample] as a whole. *)
From Coq Require Import String Ascii List QArith ZArith Bool Arith Lia Permutation.
From Verif.Base Require Import Py Num XNum Paths.
From Verif.Model Require Import Mech World Metrics Drivers Simulation Sampling.
From Verif.Spec Require Import DriverSpec SimSpec SamplingSpec.
From Verif.Proofs Require Import SimFacts SimMore ProgFacts SamplingFacts SamplingMore.
Import ListNotations.
Local Open Scope string_scope.

(** ** The three kinds of jobs *)
Lemma collect_together {A} (p : prog A) (g : A -> list (nat * case_result)) w :
  exec (pbind p (fun rs => Ret (collect_samples (g rs)))) w =
  (bind (fst (exec (pbind p (fun rs => Ret (collect (g rs)))) w)) (fun rs => Ok (together rs)),
   snd (exec (pbind p (fun rs => Ret (collect (g rs)))) w)).
Proof.
  rewrite !exec_bind. destruct (exec p w) as [[a| |] w']; simpl; auto.
Qed.

Lemma h5_dec path i f : f = h5_name path i \/ f <> h5_name path i.
Proof. destruct (String.eqb_spec f (h5_name path i)); auto. Qed.

Section Kinds.
  Variables (fuel : nat) (Ph : physics) (floor : option Q) (model phase path : string) (m : mech).

  Let WI := fun (i : nat) f => f = h5_name path i.
  Let W0 := fun (_ : nat) (_ : string) => False.

  Lemma ign_runs w i c : holds w model phase m ->
    exists w', exec (ign_sample_worker fuel Ph model phase path (i, c)) w = (ign_pure fuel Ph m c, w') /\
      (forall f, ~ WI i f -> w_fs w' f = w_fs w f) /\
      (forall x, ign_pure fuel Ph m c = Ok x -> forall f, WI i f -> w_fs w' f = None).
  Proof.
    intros H. destruct (ign_worker_exec fuel Ph model phase path i c w m H) as (w' & E & F & G).
    exists w'. split; auto. split; auto. intros x X f ->. eauto.
  Qed.
  Lemma ign_sep i j f : WI i f -> WI j f -> i = j.
  Proof. unfold WI. intros -> E. eapply h5_inj; eauto. Qed.

  Lemma psr_runs w (i : nat) c : holds w model phase m ->
    exists w', exec (psr_sample_worker Ph model phase (i, c)) w = (psr_pure Ph m c, w') /\
      (forall f, ~ W0 i f -> w_fs w' f = w_fs w f) /\
      (forall x, psr_pure Ph m c = Ok x -> forall f, W0 i f -> w_fs w' f = None).
  Proof. intros H. exists w. rewrite psr_worker_exec with (m := m); auto. split; auto. split; auto. intros x _ f []. Qed.
  Lemma flame_runs w (i : nat) c : holds w model phase m ->
    exists w', exec (flame_sample_worker Ph floor model phase (i, c)) w = (flame_pure Ph floor m c, w') /\
      (forall f, ~ W0 i f -> w_fs w' f = w_fs w f) /\
      (forall x, flame_pure Ph floor m c = Ok x -> forall f, W0 i f -> w_fs w' f = None).
  Proof. intros H. exists w. rewrite flame_worker_exec with (m := m); auto. split; auto. split; auto. intros x _ f []. Qed.
  Lemma metric_runs w (i : nat) (c : cond) : holds w model phase m ->
    exists w', exec (metric_worker model phase (i, c)) w = (c m, w') /\
      (forall f, ~ W0 i f -> w_fs w' f = w_fs w f) /\
      (forall x, c m = Ok x -> forall f, W0 i f -> w_fs w' f = None).
  Proof. intros H. exists w. rewrite metric_worker_exec with (m := m); auto. split; auto. split; auto. intros x _ f []. Qed.
  Lemma none_off i : ~ W0 i model. Proof. intros []. Qed.
  Lemma none_sep i j f : W0 i f -> W0 j f -> i = j. Proof. intros []. Qed.

  Lemma ign_jobs_exec cs w : ~ scratch path (length cs) model -> holds w model phase m ->
    exists w', exec (ign_jobs fuel Ph model phase path cs) w = (bind (mapM (ign_pure fuel Ph m) cs) (fun rs => Ok (together rs)), w') /\
      (forall f, (forall i, (i < length cs)%nat -> f <> h5_name path i) -> w_fs w' f = w_fs w f) /\
      (forall rs, mapM (ign_pure fuel Ph m) cs = Ok rs -> forall i, (i < length cs)%nat -> w_fs w' (h5_name path i) = None).
  Proof.
    intros AP H. assert (forall i, (i < length cs)%nat -> ~ WI i model) as ign_off by (intros i I E; apply AP; exists i; auto).
    destruct (serial_collect _ _ model phase m WI ign_runs ign_sep cs w ign_off H) as (w' & E & F & G).
    exists w'. split; [|split].
    - unfold ign_jobs. rewrite (collect_together _ (fun x => x)), E. reflexivity.
    - intros f Hf. apply F. intros i Hi X. exact (Hf i Hi X).
    - intros rs E1 i Hi. apply (G rs E1 i); auto. reflexivity.
  Qed.
  Lemma psr_jobs_exec cs w : holds w model phase m ->
    exists w', exec (psr_jobs Ph model phase cs) w = (bind (mapM (psr_pure Ph m) cs) (fun rs => Ok (together rs)), w') /\
      (forall f, w_fs w' f = w_fs w f).
  Proof.
    intros H. destruct (serial_collect _ _ model phase m W0 psr_runs none_sep cs w (fun i _ => none_off i) H) as (w' & E & F & G).
    exists w'. split.
    - unfold psr_jobs. rewrite (collect_together _ (fun x => x)), E. reflexivity.
    - intros f. apply F. intros i Hi [].
  Qed.
  Lemma flame_jobs_exec cs w : holds w model phase m ->
    exists w', exec (flame_jobs Ph floor model phase cs) w = (bind (mapM (flame_pure Ph floor m) cs) (fun rs => Ok (together rs)), w') /\
      (forall f, w_fs w' f = w_fs w f).
  Proof.
    intros H. destruct (serial_collect _ _ model phase m W0 flame_runs none_sep cs w (fun i _ => none_off i) H) as (w' & E & F & G).
    exists w'. split.
    - unfold flame_jobs. rewrite (collect_together _ (fun x => x)), E. reflexivity.
    - intros f. apply F. intros i Hi [].
  Qed.

  Lemma serial_within {A B} (worker : nat * A -> prog B) jobs R W : (forall j, In j jobs -> within (worker j) R W) ->
    within (run_serial worker jobs) R W.
  Proof.
    intros H. unfold run_serial. apply within_pmap. intros j J. apply within_bind; [apply H; auto|]. simpl. auto.
  Qed.
  Lemma ign_jobs_within cs : within (ign_jobs fuel Ph model phase path cs) (fun f => f = model) (scratch path (length cs)).
  Proof.
    unfold ign_jobs. apply within_bind; [|simpl; auto]. apply serial_within. intros (i & c) J.
    eapply within_weaken; [| |apply ign_worker_within]; simpl; auto. intros f ->. exists i. split; auto.
    apply combine_seq in J. lia.
  Qed.
  Lemma psr_jobs_within cs Sc : within (psr_jobs Ph model phase cs) (fun f => f = model) Sc.
  Proof.
    unfold psr_jobs. apply within_bind; [|simpl; auto]. apply serial_within. intros j _.
    eapply within_weaken; [| |apply psr_worker_within]; simpl; auto. intros f [].
  Qed.
  Lemma flame_jobs_within cs Sc : within (flame_jobs Ph floor model phase cs) (fun f => f = model) Sc.
  Proof.
    unfold flame_jobs. apply within_bind; [|simpl; auto]. apply serial_within. intros j _.
    eapply within_weaken; [| |apply flame_worker_within]; simpl; auto. intros f [].
  Qed.

  (** *** Shapes *)
  Lemma profile_width {CA : calc} ps rows n : sample_profile ps = Ok rows -> (forall p, In p ps -> length (p_Y p) = n) ->
    length rows = 20%nat /\ forall r, In r rows -> length r = (2 + n)%nat.
  Proof.
    intros E H. destruct (profile_rows ps rows E) as (L & p0 & I0 & R). split; [exact L|].
    intros r I. destruct (R r I) as [->|(p & P & ->)].
    - rewrite repeat_length. f_equal. apply H, I0.
    - unfold row_of. simpl. do 2 f_equal. apply H, P.
  Qed.

  Lemma width_fin rows n : (forall r, In r rows -> length r = n) -> row_width (fin_rows rows) n.
  Proof. intros H r R. apply in_map_iff in R. destruct R as (q & <- & Q). rewrite map_length. auto. Qed.

  Definition one (a b : nat) (x : case_result) : Prop :=
    length (fst x) = a /\ length (snd x) = b /\ row_width (snd x) (2 + n_species m).

  Lemma recorded_points R n ps p : recorded R n ps -> In p ps -> p = ra_init R \/ exists k, ra_step R k = Some p.
  Proof.
    intros (qs & -> & L & H) [<-|I]; auto. right. apply In_nth_error in I. destruct I as (k & K).
    exists (S k). rewrite <- H; auto. rewrite <- L. apply nth_error_Some. congruence.
  Qed.

  Section Shaped.
    Variable C : cases.
    Hypothesis SH : shaped Ph C m.

    Lemma ign_one c x : In c (ca_ign C) -> ign_pure fuel Ph m c = Ok x -> one 1 20 x.
    Proof.
      intros I. destruct (sh_ign _ _ _ SH c I) as (Y0 & YS). unfold ign_pure.
      destruct (setup_gas (ig_mix c) m); simpl; try discriminate.
      destruct (integrate (A := ph_calc Ph) fuel (ph_reactor Ph c m) c) as [s| |] eqn:E; simpl; try discriminate.
      destruct (rs_flag s); try discriminate.
      destruct (integrate_ok _ _ _ _ E) as (n & S & _). pose proof (st_recorded _ _ _ _ S) as RC.
      destruct (rs_points s) as [|p0 rest] eqn:EP; [discriminate|].
      destruct (sample_profile (A := ph_calc Ph) (p0 :: rest)) as [rows| |] eqn:SP; try discriminate.
      cbn [bind]. intros X. injection X as <-.
      destruct (profile_width _ _ (n_species m) SP) as (L & WD).
      { intros p P. destruct (recorded_points _ _ _ _ RC P) as [->|(k & K)]; eauto. }
      split; [reflexivity|]. split.
      - unfold fin_rows. simpl. now rewrite map_length.
      - apply width_fin. exact WD.
    Qed.
    Lemma psr_one c x : In c (ca_psr C) -> psr_pure Ph m c = Ok x -> one 3 3 x.
    Proof.
      intros I E. apply psr_pure_iff in E. destruct E as (_ & k & EK & ->). split; [reflexivity|]. split; [reflexivity|].
      intros r R. apply in_map_iff in R. destruct R as (p & <- & P). simpl. rewrite (sh_psr _ _ _ SH c k I EK p P). reflexivity.
    Qed.
    Lemma flame_one c x : In c (ca_flame C) -> flame_pure Ph floor m c = Ok x -> one 1 20 x.
    Proof.
      intros I E. apply flame_pure_iff in E. destruct E as (_ & v & ps & rows & EF & _ & SP & ->). apply (sampled_profile (CA := ph_calc Ph)) in SP.
      destruct (profile_width _ _ (n_species m) SP) as (L & WD).
      { intros p P. eapply (sh_flame _ _ _ SH); eauto. }
      split; [reflexivity|]. split; [simpl; now rewrite map_length|]. now apply width_fin.
    Qed.
  End Shaped.

  Lemma together_sized a b xs : (forall x, In x xs -> one a b x) -> sized m (a * length xs) (b * length xs) (together xs).
  Proof.
    induction xs as [|x xs IH]; intros H; simpl.
    - split; simpl; try lia. intros r [].
    - destruct (IH (fun y Y => H y (or_intror Y))) as [A B W]. destruct (H x (or_introl eq_refl)) as (A1 & B1 & W1).
      unfold together in *. simpl in *. split; simpl.
      + rewrite app_length, A, A1. lia.
      + rewrite app_length, B, B1. lia.
      + intros r R. apply in_app_or in R. destruct R; auto.
  Qed.

  Lemma mapM_In {A B} (f : A -> res B) l r y : mapM f l = Ok r -> In y r -> exists x, In x l /\ f x = Ok y.
  Proof.
    revert r. induction l as [|x l IH]; simpl; intros r E Y; [injection E as <-; destruct Y|].
    destruct (f x) as [z| |] eqn:EF; simpl in E; try discriminate. destruct (mapM f l) as [zs| |]; simpl in E; try discriminate.
    injection E as <-. destruct Y as [<-|Y]; eauto. destruct (IH zs eq_refl Y) as (x' & X1 & X2). eauto.
  Qed.
  Lemma mapM_sized {A} (f : A -> res case_result) cs a b xs :
    mapM f cs = Ok xs -> (forall c x, In c cs -> f c = Ok x -> one a b x) ->
    sized m (a * length cs) (b * length cs) (together xs).
  Proof.
    intros E H. rewrite <- (mapM_length _ _ _ E). apply together_sized. intros x X.
    destruct (mapM_In _ _ _ _ E X) as (c & C1 & C2). eauto.
  Qed.
  Lemma mapM_Forall2 {A B} (f : A -> res B) (P : A -> B -> Prop) l r : (forall x y, In x l -> f x = Ok y -> P x y) ->
    mapM f l = Ok r -> Forall2 P l r.
  Proof.
    revert r. induction l as [|x l IH]; simpl; intros r H E; [injection E as <-; constructor|].
    destruct (f x) as [z| |] eqn:EF; simpl in E; try discriminate. destruct (mapM f l) as [zs| |]; simpl in E; try discriminate.
    injection E as <-. constructor; auto.
  Qed.
  Lemma Forall2_mapM {A B} (f : A -> res B) (P : A -> B -> Prop) l r : (forall x y, In x l -> P x y -> f x = Ok y) ->
    Forall2 P l r -> mapM f l = Ok r.
  Proof.
    intros H F. revert H. induction F as [|x y l r P1 F IH]; simpl; intros H; auto. rewrite (H x y (or_introl eq_refl) P1).
    simpl. rewrite IH; auto.
  Qed.
End Kinds.

(** ** Three parts in a row *)
Section Three.
  Variables (model phase : string) (Sc : string -> Prop) (m : mech) (torn : xnum -> list xnum).

  Record comp := mkComp {
    k_prog : prog case_result; k_data : string; k_out : string; k_x : case_result;
    k_used : bool
  }.
  Definition k_rec (K : comp) (w : world) : Prop := k_used K = true -> recoverable (k_data K) (k_out K) (length (fst (k_x K))) (k_x K) w.
  Definition k_uns (K : comp) (w : world) : Prop := k_used K = true -> unspoilt (k_data K) (k_out K) (k_x K) w.
  Definition k_sv (K : comp) (w : world) : Prop := k_used K = true -> saved w (k_data K) (k_out K) (k_x K).
  Definition k_cut (K : comp) (w : world) : Prop := k_used K = true /\ cut_short torn w (k_out K) (fst (k_x K)).
  Definition k_frame (K : comp) (w w' : world) : Prop :=
    forall f, f <> k_data K -> f <> k_out K -> ~ Sc f -> w_fs w' f = w_fs w f.

  Record comp_ok (K : comp) : Prop := {
    co_run : forall w, holds w model phase m -> k_rec K w ->
      exists w', exec (k_prog K) w = (Ok (k_x K), w') /\ k_sv K w' /\ k_frame K w w';
    co_crash : forall w v, holds w model phase m -> k_uns K w -> In v (states (k_prog K) w) ->
      (k_rec K v \/ k_cut K v) /\ k_frame K w v;
    co_off : model <> k_data K /\ model <> k_out K /\ ~ Sc model;
    co_scratch : ~ Sc (k_data K) /\ ~ Sc (k_out K)
  }.

  Lemma uns_rec K w : k_uns K w -> k_rec K w.
  Proof. intros H U. apply unspoilt_recoverable. auto. Qed.
  Lemma sv_uns K w : k_sv K w -> k_uns K w.
  Proof. intros H U. right. auto. Qed.

  Definition clear (K K' : comp) : Prop :=
    k_data K <> k_data K' /\ k_data K <> k_out K' /\ k_out K <> k_data K' /\ k_out K <> k_out K'.

  Lemma frame_at K K' w w' : comp_ok K -> clear K K' -> k_frame K' w w' ->
    w_fs w' (k_data K) = w_fs w (k_data K) /\ w_fs w' (k_out K) = w_fs w (k_out K).
  Proof.
    intros OK (A & B & C & D) F. destruct (co_scratch K OK). split; apply F; auto.
  Qed.
  Lemma same_at K w w' : w_fs w' (k_data K) = w_fs w (k_data K) -> w_fs w' (k_out K) = w_fs w (k_out K) ->
    (k_rec K w -> k_rec K w') /\ (k_uns K w -> k_uns K w') /\ (k_sv K w -> k_sv K w').
  Proof.
    intros E1 E2. unfold k_rec, k_uns, k_sv, recoverable, unspoilt, saved. rewrite E1, E2. auto.
  Qed.
  Lemma holds_frame' K w w' : comp_ok K -> k_frame K w w' -> holds w model phase m -> holds w' model phase m.
  Proof.
    intros OK F (ph & E & P). exists ph. destruct (co_off K OK) as (A & B & D). rewrite F; auto.
  Qed.

  Variables K1 K2 K3 : comp.
  Hypothesis OK1 : comp_ok K1.
  Hypothesis OK2 : comp_ok K2.
  Hypothesis OK3 : comp_ok K3.
  Hypothesis C12 : clear K1 K2.
  Hypothesis C13 : clear K1 K3.
  Hypothesis C21 : clear K2 K1.
  Hypothesis C23 : clear K2 K3.
  Hypothesis C31 : clear K3 K1.
  Hypothesis C32 : clear K3 K2.

  Let x1 := k_x K1. Let x2 := k_x K2. Let x3 := k_x K3.
  Let all : prog case_result :=
    i <~ k_prog K1 ;; p <~ k_prog K2 ;; f <~ k_prog K3 ;;
    pret (fst i ++ fst p ++ fst f, snd i ++ snd p ++ snd f)%list.
  Let X : case_result := (fst x1 ++ fst x2 ++ fst x3, snd x1 ++ snd x2 ++ snd x3)%list.

  Lemma all_run w : holds w model phase m -> k_rec K1 w -> k_rec K2 w -> k_rec K3 w ->
    exists w', exec all w = (Ok X, w') /\ k_sv K1 w' /\ k_sv K2 w' /\ k_sv K3 w' /\ holds w' model phase m.
  Proof.
    intros H R1 R2 R3. unfold all.
    destruct (co_run K1 OK1 w H R1) as (w1 & E1 & S1 & F1).
    pose proof (holds_frame' _ _ _ OK1 F1 H) as H1.
    assert (k_rec K2 w1) as R2' by (destruct (frame_at K2 K1 w w1 OK2 C21 F1) as (A & B); apply (same_at K2 w w1 A B); auto).
    destruct (co_run K2 OK2 w1 H1 R2') as (w2 & E2 & S2 & F2).
    pose proof (holds_frame' _ _ _ OK2 F2 H1) as H2.
    assert (k_rec K3 w2) as R3'.
    { destruct (frame_at K3 K1 w w1 OK3 C31 F1) as (A & B). destruct (frame_at K3 K2 w1 w2 OK3 C32 F2) as (A' & B').
      apply (same_at K3 w w2); (assumption || congruence). }
    destruct (co_run K3 OK3 w2 H2 R3') as (w3 & E3 & S3 & F3).
    pose proof (holds_frame' _ _ _ OK3 F3 H2) as H3.
    exists w3. rewrite exec_bind, E1, exec_bind, E2, exec_bind, E3. split; [reflexivity|].
    split; [|split; [|split; auto]].
    - destruct (frame_at K1 K2 w1 w2 OK1 C12 F2) as (A & B). destruct (frame_at K1 K3 w2 w3 OK1 C13 F3) as (A' & B').
      apply (same_at K1 w1 w3); (assumption || congruence).
    - destruct (frame_at K2 K3 w2 w3 OK2 C23 F3) as (A & B). apply (same_at K2 w2 w3); (assumption || congruence).
  Qed.

  Lemma all_crash w v : holds w model phase m -> k_uns K1 w -> k_uns K2 w -> k_uns K3 w -> In v (states all w) ->
    ((k_rec K1 v /\ k_rec K2 v /\ k_rec K3 v) \/ k_cut K1 v \/ k_cut K2 v \/ k_cut K3 v) /\ holds v model phase m.
  Proof.
    intros H U1 U2 U3 I. unfold all in I.
    apply states_bind in I. destruct I as [I|(y1 & w1 & E1 & I)].
    - destruct (co_crash K1 OK1 w v H U1 I) as (D & F). split; [|exact (holds_frame' K1 w v OK1 F H)].
      destruct D as [R1|CU]; [|right; tauto]. left. split; auto. split.
      + destruct (frame_at K2 K1 w v OK2 C21 F) as (A & B). apply (same_at K2 w v A B). apply uns_rec. auto.
      + destruct (frame_at K3 K1 w v OK3 C31 F) as (A & B). apply (same_at K3 w v A B). apply uns_rec. auto.
    - destruct (co_run K1 OK1 w H (uns_rec _ _ U1)) as (w1' & E1' & S1 & F1). rewrite E1' in E1. injection E1 as <- <-.
      pose proof (holds_frame' _ _ _ OK1 F1 H) as H1.
      assert (k_uns K2 w1') as U2' by (destruct (frame_at K2 K1 w w1' OK2 C21 F1) as (A & B); apply (same_at K2 w w1' A B); auto).
      assert (k_uns K3 w1') as U3' by (destruct (frame_at K3 K1 w w1' OK3 C31 F1) as (A & B); apply (same_at K3 w w1' A B); auto).
      apply states_bind in I. destruct I as [I|(y2 & w2 & E2 & I)].
      + destruct (co_crash K2 OK2 w1' v H1 U2' I) as (D & F). split; [|exact (holds_frame' K2 w1' v OK2 F H1)].
        destruct D as [R2|CU]; [|right; tauto]. left. split; [|split; auto].
        * destruct (frame_at K1 K2 w1' v OK1 C12 F) as (A & B). apply (same_at K1 w1' v A B). apply uns_rec, sv_uns. auto.
        * destruct (frame_at K3 K2 w1' v OK3 C32 F) as (A & B). apply (same_at K3 w1' v A B). apply uns_rec. auto.
      + destruct (co_run K2 OK2 w1' H1 (uns_rec _ _ U2')) as (w2' & E2' & S2 & F2). rewrite E2' in E2. injection E2 as <- <-.
        pose proof (holds_frame' _ _ _ OK2 F2 H1) as H2.
        assert (k_uns K3 w2') as U3'' by (destruct (frame_at K3 K2 w1' w2' OK3 C32 F2) as (A & B); apply (same_at K3 w1' w2' A B); auto).
        assert (k_sv K1 w2') as S1' by (destruct (frame_at K1 K2 w1' w2' OK1 C12 F2) as (A & B); apply (same_at K1 w1' w2' A B); auto).
        apply states_bind in I. destruct I as [I|(y3 & w3 & E3 & I)].
        * destruct (co_crash K3 OK3 w2' v H2 U3'' I) as (D & F). split; [|exact (holds_frame' K3 w2' v OK3 F H2)].
          destruct D as [R3|CU]; [|right; tauto]. left. split; [|split; auto].
          -- destruct (frame_at K1 K3 w2' v OK1 C13 F) as (A & B). apply (same_at K1 w2' v A B). apply uns_rec, sv_uns. auto.
          -- destruct (frame_at K2 K3 w2' v OK2 C23 F) as (A & B). apply (same_at K2 w2' v A B). apply uns_rec, sv_uns. auto.
        * destruct (co_run K3 OK3 w2' H2 (uns_rec _ _ U3'')) as (w3' & E3' & S3 & F3). rewrite E3' in E3. injection E3 as <- <-.
          simpl in I. destruct I as [<-|[]]. split; [|exact (holds_frame' K3 w2' w3' OK3 F3 H2)]. left. split; [|split].
          -- destruct (frame_at K1 K3 w2' w3' OK1 C13 F3) as (A & B). apply (same_at K1 w2' w3' A B). apply uns_rec, sv_uns. auto.
          -- destruct (frame_at K2 K3 w2' w3' OK2 C23 F3) as (A & B). apply (same_at K2 w2' w3' A B). apply uns_rec, sv_uns. auto.
          -- apply uns_rec, sv_uns. auto.
  Qed.
End Three.
