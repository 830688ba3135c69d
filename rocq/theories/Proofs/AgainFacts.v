(** Running the program again in the same directory. *)
From Coq Require Import String List ZArith QArith Bool Arith Lia.
From Verif.Base Require Import Py Num XNum Paths B64.
From Verif.Model Require Import Mech Matrices Graph World Metrics Drivers Sensitivity Simulation Sampling Main
  FloatDrivers FloatMatrix FloatPfa FloatRun DoubleError FloatMain.
From Verif.Spec Require Import TrimSpec GraphSpec MetricSpec DriverSpec SensitivitySpec SimSpec SamplingSpec MainSpec
  FloatSpec FloatMatrixSpec FloatRunSpec DoubleErrorSpec FloatMainSpec.
From Verif.Proofs Require Import PyFacts StepFacts SaFacts SaMore SaPkg ProgFacts SamplingFacts SamplingMore SamplingEnd SamplingWhole SamplingTop MainFacts MainEnd FloatRunMain FloatMainFacts.
Import ListNotations.
Local Open Scope string_scope.

(** ** Two runs side by side *)

Section Pair.
  Variables i1 i2 : world.

  (** Every file is the same in both or untouched in both. *)
  Definition tied (v1 v2 : world) : Prop :=
    w_shared v1 = w_shared v2 /\
    forall f, w_fs v1 f = w_fs v2 f \/ (w_fs v1 f = w_fs i1 f /\ w_fs v2 f = w_fs i2 f).

  Lemma tied_set v1 v2 u1 u2 g c : tied v1 v2 -> w_shared u1 = w_shared v1 -> w_shared u2 = w_shared v2 ->
    (forall f, w_fs u1 f = if String.eqb f g then c else w_fs v1 f) ->
    (forall f, w_fs u2 f = if String.eqb f g then c else w_fs v2 f) -> tied u1 u2.
  Proof.
    intros [S T] S1 S2 F1 F2. split; [congruence|]. intros f. rewrite F1, F2. destruct (String.eqb f g); auto.
  Qed.

  Variables (J : job) (sol : mech) (sampled : list xnum).
  Hypothesis F1 : holds i1 (j_file J) (j_phase J) sol.
  Hypothesis F2 : w_fs i2 (j_file J) = w_fs i1 (j_file J).
  Hypothesis APART : forall n, out_file J n <> j_file J.

  Definition sound_pair (v1 v2 : world) : Prop :=
    tied v1 v2 /\ w_fs v1 (j_file J) = w_fs i1 (j_file J) /\ w_fs v2 (j_file J) = w_fs i2 (j_file J).

  Lemma pair_holds v1 v2 : sound_pair v1 v2 -> holds v1 (j_file J) (j_phase J) sol /\ holds v2 (j_file J) (j_phase J) sol.
  Proof.
    intros (_ & A & B). destruct F1 as (ph & E & P). split; exists ph; split; auto; congruence.
  Qed.

  (** Postconditions on top of [sound_pair]. *)
  Definition pr {A} (m : M A) (v1 v2 : world) (Q : A -> world -> world -> Prop) : Prop :=
    exists x v1' v2', m v1 = (x, v1') /\ m v2 = (x, v2') /\ sound_pair v1' v2' /\ forall a, x = Ok a -> Q a v1' v2'.

  Lemma p_bind {A B} (m : M A) (k : A -> M B) v1 v2 Q Q' : pr m v1 v2 Q ->
    (forall a u1 u2, sound_pair u1 u2 -> Q a u1 u2 -> pr (k a) u1 u2 Q') -> pr (mbind m k) v1 v2 Q'.
  Proof.
    intros (x & u1 & u2 & E1 & E2 & T & H) K. unfold pr, mbind. rewrite E1, E2. destruct x as [a|e|].
    - destruct (K a u1 u2 T (H a eq_refl)) as (y & t1 & t2 & G1 & G2 & R). exists y, t1, t2. auto.
    - exists (Raise e), u1, u2. split; [reflexivity|]. split; [reflexivity|]. split; [exact T|discriminate].
    - exists NoFuel, u1, u2. split; [reflexivity|]. split; [reflexivity|]. split; [exact T|discriminate].
  Qed.

  Lemma p_lift {A} (x : res A) v1 v2 (Q : A -> world -> world -> Prop) : sound_pair v1 v2 -> (forall a, x = Ok a -> Q a v1 v2) -> pr (mlift x) v1 v2 Q.
  Proof. intros T H. exists x, v1, v2. auto. Qed.

  Lemma p_ret {A} (a : A) v1 v2 (Q : A -> world -> world -> Prop) : sound_pair v1 v2 -> Q a v1 v2 -> pr (mret a) v1 v2 Q.
  Proof. intros T H. apply (p_lift (Ok a)); auto. intros b E. now injection E as <-. Qed.

  Lemma p_raise {A} e v1 v2 (Q : A -> world -> world -> Prop) : sound_pair v1 v2 -> pr (mraise e) v1 v2 Q.
  Proof. intros T. apply (p_lift (Raise e)); auto. discriminate. Qed.

  Lemma p_load v1 v2 : sound_pair v1 v2 -> pr (load (j_file J) (j_phase J)) v1 v2 (fun m u1 u2 => m = sol).
  Proof.
    intros T. destruct (pair_holds v1 v2 T) as [H1 H2]. exists (Ok sol), v1, v2.
    rewrite (load_holds _ _ _ _ H1), (load_holds _ _ _ _ H2). split; [reflexivity|]. split; [reflexivity|]. split; [exact T|]. congruence.
  Qed.

  Lemma sound_set v1 v2 u1 u2 n c : sound_pair v1 v2 -> w_shared u1 = w_shared v1 -> w_shared u2 = w_shared v2 ->
    (forall f, w_fs u1 f = if String.eqb f (out_file J n) then c else w_fs v1 f) ->
    (forall f, w_fs u2 f = if String.eqb f (out_file J n) then c else w_fs v2 f) -> sound_pair u1 u2.
  Proof.
    intros (T & A & B) S1 S2 G1 G2. split; [eapply tied_set; eauto|]. rewrite G1, G2.
    destruct (String.eqb_spec (j_file J) (out_file J n)) as [E|_]; [exfalso; exact (APART n (eq_sym E))|]. auto.
  Qed.

  Definition agree (f : string) (u1 u2 : world) : Prop := w_fs u1 f = w_fs u2 f.

  Lemma p_cut removed v1 v2 : sound_pair v1 v2 ->
    pr (cut_and_score J sampled removed) v1 v2
       (fun x u1 u2 => snd (fst x) = out_file J (n_species (fst (fst x))) /\ agree (snd (fst x)) u1 u2).
  Proof.
    intros T. destruct (pair_holds v1 v2 T) as [H1 H2].
    pose proof (cut_and_score_eq J sampled removed v1 sol H1) as C1. pose proof (cut_and_score_eq J sampled removed v2 sol H2) as C2.
    destruct (cut_removing J sol removed) as [m|e|].
    - destruct C1 as (u1 & (W1 & S1) & C1). destruct C2 as (u2 & (W2 & S2) & C2).
      exists (bind (error_of (j_conds J) sampled m) (fun e => Ok (m, out_file J (n_species m), e))), u1, u2.
      split; [exact C1|]. split; [exact C2|]. split; [now apply (sound_set v1 v2 u1 u2 (n_species m) (Some (FMech [m])))|].
      intros x E. destruct (error_of (j_conds J) sampled m) as [e|e|]; try discriminate. injection E as <-. cbn [fst snd].
      split; [reflexivity|]. unfold agree. now rewrite W1, W2, String.eqb_refl.
    - exists (Raise e), v1, v2. split; [exact C1|]. split; [exact C2|]. split; [exact T|discriminate].
    - exists NoFuel, v1, v2. split; [exact C1|]. split; [exact C2|]. split; [exact T|discriminate].
  Qed.

  (** ** Reduction steps *)

  Definition step_result (prev : option rmodel) (r : rmodel) (u1 u2 : world) : Prop :=
    prev = Some r \/ (r_file r = out_file J (n_species (r_model r)) /\ agree (r_file r) u1 u2).
  Definition paired (red : b64 -> option rmodel -> M rmodel) : Prop :=
    forall t prev v1 v2, sound_pair v1 v2 -> pr (red t prev) v1 v2 (step_result prev).

  Lemma p_cut_then prev removed (k : mech -> string -> xnum -> M rmodel) v1 v2 : sound_pair v1 v2 ->
    (forall red f e u1 u2, sound_pair u1 u2 ->
       pr (k red f e) u1 u2 (fun r t1 t2 => r_model r = red /\ r_file r = f /\ t1 = u1 /\ t2 = u2)) ->
    pr (r <- cut_and_score J sampled removed ;; let '(red, f, error) := r in k red f error) v1 v2 (step_result prev).
  Proof.
    intros T K. eapply p_bind; [apply p_cut; exact T|]. intros [[red f] e] u1 u2 T' (E & AG). cbn [fst snd] in E, AG.
    destruct (K red f e u1 u2 T') as (x & t1 & t2 & E1 & E2 & S & H). exists x, t1, t2. split; [exact E1|]. split; [exact E2|].
    split; [exact S|]. intros r Er. destruct (H r Er) as (A & B & -> & ->). right. rewrite B, A. split; [exact E|exact AG].
  Qed.

  (** The list of species in limbo is computed without touching a file. *)
  Definition quiet {A} (m : M A) : Prop := exists x, forall v, m v = (x, v).

  Lemma quiet_lift {A} (x : res A) : quiet (mlift x). Proof. exists x. reflexivity. Qed.
  Lemma quiet_ret {A} (x : A) : quiet (mret x). Proof. exists (Ok x). reflexivity. Qed.
  Lemma quiet_raise {A} e : quiet (mraise (A := A) e). Proof. exists (Raise e). reflexivity. Qed.
  Lemma quiet_bind {A B} (m : M A) (k : A -> M B) : quiet m -> (forall a, quiet (k a)) -> quiet (mbind m k).
  Proof.
    intros (x & E) K. destruct x as [a|e|].
    - destruct (K a) as (y & F). exists y. intros v. unfold mbind. now rewrite E.
    - exists (Raise e). intros v. unfold mbind. now rewrite E.
    - exists NoFuel. intros v. unfold mbind. now rewrite E.
  Qed.

  Lemma p_limbo prev removed (lm : M (list string)) v1 v2 : sound_pair v1 v2 -> quiet lm ->
    pr (r <- cut_and_score J sampled removed ;; let '(red, f, error) := r in limbo <- lm ;; mret (mkRM red f error (Own limbo)))
       v1 v2 (step_result prev).
  Proof.
    intros T (x & E). apply (p_cut_then prev removed (fun red f error => limbo <- lm ;; mret (mkRM red f error (Own limbo)))); auto.
    intros red f e u1 u2 T'. unfold pr, mbind. rewrite !E. destruct x as [l|y|].
    - exists (Ok (mkRM red f e (Own l))), u1, u2. split; [reflexivity|]. split; [reflexivity|]. split; [exact T'|].
      intros r R. injection R as <-. auto.
    - exists (Raise y), u1, u2. split; [reflexivity|]. split; [reflexivity|]. split; [exact T'|discriminate].
    - exists NoFuel, u1, u2. split; [reflexivity|]. split; [reflexivity|]. split; [exact T'|discriminate].
  Qed.

  Lemma drg_paired Fs : paired (freduce_drg J Fs sampled).
  Proof.
    intros t prev v1 v2 T. unfold freduce_drg. eapply p_bind; [apply p_load; exact T|]. intros m u1 u2 T1 ->.
    eapply p_bind; [apply (p_lift _ _ _ (fun _ _ _ => True)); auto|]. intros keep u3 u4 T2 _. cbv zeta.
    assert (quiet (if f_truthy (f_upper J)
              then mlift (fretained Fs (species_names sol) (j_targets J) (match f_upper J with Some u => u | None => fzero end))
              else mret nil)) as Qu by (destruct (f_truthy (f_upper J)); [apply quiet_lift|apply quiet_ret]).
    destruct prev as [p|]; [|now apply p_limbo]. destruct (Nat.eqb (length keep) (n_species (r_model p))); [|now apply p_limbo].
    apply p_ret; auto. now left.
  Qed.

  Lemma pfa_paired Fs : paired (freduce_pfa J Fs sampled).
  Proof.
    intros t prev v1 v2 T. unfold freduce_pfa. eapply p_bind; [apply p_load; exact T|]. intros m u1 u2 T1 ->.
    eapply p_bind; [apply (p_lift _ _ _ (fun _ _ _ => True)); auto|]. intros ls u3 u4 T2 _. cbv zeta.
    match goal with |- context [limbo <- ?q ;; mret _] => assert (quiet q) as Qu end.
    { destruct (if f_truthy (f_upper J) then f_upper J else None); [|apply quiet_ret]. destruct (last (map Some Fs) None); [|apply quiet_raise].
      apply quiet_bind; [apply quiet_lift|intros; apply quiet_ret]. }
    destruct prev as [p|]; [|now apply p_limbo].
    destruct (Nat.eqb (length (set_of (concat ls))) (n_species (r_model p))); [|now apply p_limbo].
    apply p_ret; auto. now left.
  Qed.

  Lemma drgep_paired imp : paired (freduce_drgep J imp sampled).
  Proof.
    intros t prev v1 v2 T. unfold freduce_drgep. eapply p_bind; [apply p_load; exact T|]. intros m u1 u2 T1 ->.
    eapply p_bind; [apply (p_lift _ _ _ (fun _ _ _ => True)); auto|]. intros removed u3 u4 T2 _. cbv zeta.
    assert (forall p, pr (r <- cut_and_score J sampled removed ;; let '(red, f, error) := r in mret (mkRM red f error Shared)) u3 u4 (step_result p)) as G.
    { intros p. apply (p_cut_then p removed (fun red f error => mret (mkRM red f error Shared))); auto. intros red f e u5 u6 T'. apply p_ret; auto. }
    destruct prev as [p|]; [|apply G].
    match goal with |- context [if ?b then _ else _] => destruct b end; [|apply G].
    apply p_ret; auto. now left.
  Qed.

  (** ** The loop over thresholds *)

  Lemma p_remove f v1 v2 n : sound_pair v1 v2 -> f = out_file J n -> agree f v1 v2 -> pr (remove_file f) v1 v2 (fun _ _ _ => True).
  Proof.
    intros T -> AG. unfold pr, remove_file. unfold agree in AG. rewrite AG. destruct (w_fs v2 (out_file J n)) as [c|].
    - do 3 eexists. split; [reflexivity|]. split; [reflexivity|]. split; [|auto].
      eapply (sound_set v1 v2 _ _ n None T); reflexivity.
    - do 3 eexists. split; [reflexivity|]. split; [reflexivity|]. auto.
  Qed.

  Lemma p_loop red limit floor : paired red -> forall fuel s v1 v2, sound_pair v1 v2 ->
    pr (fthr_loop fuel red limit floor s) v1 v2 (fun _ _ _ => True).
  Proof.
    intros P. induction fuel as [|fuel IH]; intros s v1 v2 T; cbn [fthr_loop].
    - destruct (xle (s_err s) limit); [apply p_lift; auto|apply p_ret; auto].
    - destruct (xle (s_err s) limit); [|apply p_ret; auto].
      eapply p_bind; [apply P; exact T|]. intros r u1 u2 T1 SR. cbv zeta.
      destruct (s_first s && xgt (r_error r) limit)%bool.
      + destruct (floor _); [apply p_raise; auto|apply IH; auto].
      + eapply p_bind with (Q := fun _ _ _ => True); [|intros _ u3 u4 T2 _; apply IH; auto].
        destruct (Nat.eqb_spec (n_species (r_model (s_prev s))) (n_species (r_model r))) as [E|N]; [apply p_ret; auto|].
        destruct SR as [SR|(E & AG)]; [injection SR as E; rewrite E in N; contradiction|]. eapply p_remove; eauto.
  Qed.

  Lemma p_wrong {B} (last : option rmodel) v1 v2 : sound_pair v1 v2 -> pr (write_wrong (B := B) (j_path J) last) v1 v2 (fun _ _ _ => True).
  Proof.
    intros T. destruct last as [r|]; [|apply p_raise; auto]. unfold write_wrong. cbv zeta. fold (out_file J (n_species (r_model r))).
    set (f := out_file J (n_species (r_model r))).
    assert (forall v, exists u, (ex <- is_file f ;; (if ex then remove_file f else mret tt) ;;; mraise AttributeError) v = (Raise AttributeError : res B, u) /\
      w_shared u = w_shared v /\ forall g, w_fs u g = if String.eqb g f then None else w_fs v g) as G.
    { intros v. unfold mbind, is_file, remove_file, mraise, mret. destruct (w_fs v f) as [c|] eqn:E.
      - rewrite E. eexists. split; [reflexivity|]. split; reflexivity.
      - eexists. split; [reflexivity|]. split; [reflexivity|]. intros g. destruct (String.eqb_spec g f) as [->|]; auto. }
    destruct (G v1) as (u1 & E1 & S1 & W1). destruct (G v2) as (u2 & E2 & S2 & W2). exists (Raise AttributeError), u1, u2.
    split; [exact E1|]. split; [exact E2|]. split; [|discriminate]. eapply sound_set; eauto.
  Qed.

  Lemma p_thr fuel red limit floor by_last : paired red -> forall v1 v2, sound_pair v1 v2 ->
    pr (fthr_run fuel J sol red limit floor by_last) v1 v2 (fun _ _ _ => True).
  Proof.
    intros P v1 v2 T. unfold fthr_run. eapply p_bind; [apply p_loop; auto|]. intros s u1 u2 T1 _. unfold fthr_finish. cbv zeta.
    assert (forall t, pr (red t None) u1 u2 (fun _ _ _ => True)) as G.
    { intros t. destruct (P t None u1 u2 T1) as (x & t1 & t2 & E1 & E2 & S & _). exists x, t1, t2. auto. }
    destruct by_last.
    - destruct (s_last s) as [r|]; [|apply p_raise; auto]. destruct (xgt (r_error r) limit); [apply G|apply p_wrong; auto].
    - destruct (xgt (s_err s) limit); [apply G|apply p_wrong; auto].
  Qed.

  Lemma p_append r l v1 v2 : sound_pair v1 v2 -> pr (append_limbo r l) v1 v2 (fun _ _ _ => True).
  Proof.
    intros T. unfold append_limbo. destruct (r_limbo r); [|apply p_ret; auto].
    do 3 eexists. split; [reflexivity|]. split; [reflexivity|]. split; [|auto].
    destruct T as ([S T] & A & B). split; [split; [cbn; now rewrite S|exact T]|split; [exact A|exact B]].
  Qed.

  (** ** Drivers *)

  Definition rest_of (me : method) (fuel dfuel : nat) (limit : xnum) (rops : list (list b64)) : M rmodel :=
    match me with
    | DRG => fthr_run fuel J sol (freduce_drg J (map (fun rop => f_drg_matrix (fkin_of sol rop)) rops) sampled) limit (floor_f DRG) false
    | PFA => fthr_run fuel J sol (freduce_pfa J (map (fun rop => f_pfa_matrix (fkin_of sol rop)) rops) sampled) limit (floor_f PFA) true
    | DRGEP =>
        imp <- mlift (f_importance_coeffs dfuel (species_names sol) (j_targets J) (map (fun rop => f_drgep_matrix (fkin_of sol rop)) rops)) ;;
        r <- fthr_run fuel J sol (freduce_drgep J imp sampled) limit (floor_f DRGEP) true ;;
        if f_truthy (f_upper J) then
          l <- mlift (f_below imp (j_safe J) (match f_upper J with Some u => u | None => fzero end) (species_names (r_model r))) ;;
          append_limbo r l
        else mret r
    end.

  Lemma frun_rest me fuel dfuel smp limit rops v v1 : j_targets J <> nil -> holds v (j_file J) (j_phase J) sol ->
    smp v = (Ok (sampled, rops), v1) -> frun me fuel dfuel J smp limit v = rest_of me fuel dfuel limit rops v1.
  Proof.
    intros N H S. destruct me; unfold frun, frun_drg, frun_pfa, frun_drgep; unfold mbind at 1; rewrite (load_holds _ _ _ _ H);
      unfold rest_of; destruct (j_targets J) as [|t ts]; try contradiction; unfold mbind at 1; rewrite S; reflexivity.
  Qed.

  Lemma p_rest me fuel dfuel limit rops v1 v2 : sound_pair v1 v2 -> pr (rest_of me fuel dfuel limit rops) v1 v2 (fun _ _ _ => True).
  Proof.
    intros T. destruct me; unfold rest_of; [apply p_thr; [apply drg_paired|exact T]|apply p_thr; [apply pfa_paired|exact T]|].
    eapply p_bind; [apply (p_lift _ _ _ (fun _ _ _ => True)); auto|]. intros imp u1 u2 T1 _.
    eapply p_bind; [apply p_thr; [apply drgep_paired|exact T1]|]. intros r u3 u4 T2 _.
    destruct (f_truthy (f_upper J)); [|apply p_ret; auto].
    eapply p_bind; [apply (p_lift _ _ _ (fun _ _ _ => True)); auto|]. intros l u5 u6 T3 _. now apply p_append.
  Qed.
End Pair.

(** ** Sampling again *)

Ltac in_files := unfold sample_files; simpl; tauto.

Lemma sample_elsewhere torn fuel Ph floor model phase path C m w r w1 v :
  model_apart path C model -> shaped Ph C m -> holds w model phase m ->
  exec (sample torn fuel Ph floor model phase path C) w = (Ok r, w1) ->
  holds v model phase m -> (forall f, In f sample_files -> w_fs v f = w_fs w1 f) ->
  exec (sample torn fuel Ph floor model phase path C) v = (Ok r, v).
Proof.
  intros AP SH H E HV AG.
  destruct (sample_ready torn fuel Ph floor model phase path C m AP SH w r w1 H E) as (i & p & f & -> & H1 & RI & RP & RF).
  assert (forall nm rows data output x, In data sample_files -> In output sample_files ->
    ready model phase nm rows data output m w1 x -> ready model phase nm rows data output m v x) as MV.
  { intros nm rows data output x I1 I2 (cd & co & A & B & R). exists cd, co. rewrite !AG by auto. auto. }
  rewrite sample_parts, exec_bind.
  assert (exec (pI torn fuel Ph model phase path C) v = (Ok i, v)) as ->.
  { unfold pI, part_of. destruct (ca_ign C) eqn:EC; [subst i; reflexivity|]. rewrite <- EC in *. rewrite (if_any_ne _ _ _ _ EC).
    eapply part_ready; [exact HV|]. apply MV; [in_files|in_files|exact RI]. }
  rewrite exec_bind.
  assert (exec (pP torn Ph model phase C) v = (Ok p, v)) as ->.
  { unfold pP, part_of. destruct (ca_psr C) eqn:EC; [subst p; reflexivity|]. rewrite <- EC in *. rewrite (if_any_ne _ _ _ _ EC).
    eapply part_ready; [exact HV|]. apply MV; [in_files|in_files|exact RP]. }
  rewrite exec_bind.
  assert (exec (pF torn Ph floor model phase C) v = (Ok f, v)) as ->.
  { unfold pF, part_of. destruct (ca_flame C) eqn:EC; [subst f; reflexivity|]. rewrite <- EC in *. rewrite (if_any_ne _ _ _ _ EC).
    eapply part_ready; [exact HV|]. apply MV; [in_files|in_files|exact RF]. }
  reflexivity.
Qed.

(** ** The whole run *)

Section Again.
  Variables (K : machine) (rates : mech -> list xnum -> res (list b64)) (floor : option Q) (C : cases) (a : main_in).
  Variables (B : limits) (w : world) (sol : mech) (me : method).
  Hypothesis RD : prepared K C a w sol.
  Hypothesis DP : double_posed K rates floor C a sol.
  Hypothesis NAME : a_method a = method_name me.
  Hypothesis TE : a_sa a = true -> temps_ok w (a_path a) B.
  Notation xs := (conds_of (k_fuel K) (k_physics K) floor C).
  Notation cs := (double_conds xs).
  Notation smp := (sampler_with K rates floor C a).
  Notation J := (graph_job a cs).

  Lemma sampler_elsewhere ref rops w1 v : smp w = (Ok (ref, rops), w1) -> holds v (a_file a) (a_phase a) sol ->
    (forall f, In f sample_files -> w_fs v f = w_fs w1 f) -> smp v = (Ok (ref, rops), v).
  Proof.
    intros E HV AG. unfold sampler_with, mbind in *. rewrite (load_holds _ _ _ _ (rd_file _ _ _ _ _ RD)) in E.
    rewrite (load_holds _ _ _ _ HV). unfold sampler_of, mbind in *.
    destruct (exec (sample (k_torn K) (k_fuel K) (k_physics K) floor (a_file a) (a_phase a) (a_path a) C) w) as [[x|e|] w2] eqn:X;
      try discriminate.
    assert (w2 = w1) as ->.
    { unfold mlift in E. destruct (mapM (rates sol) (snd x)); try discriminate. unfold mret in E. now injection E as _ _ <-. }
    rewrite (sample_elsewhere _ _ _ _ _ _ _ _ _ _ _ _ v (rd_samples _ _ _ _ _ RD) (rd_shaped _ _ _ _ _ RD) (rd_file _ _ _ _ _ RD) X HV AG).
    unfold mlift in *. destruct (mapM (rates sol) (snd x)) as [rs|e|]; try discriminate. unfold mret in *. injection E as <- <-. reflexivity.
  Qed.

  (** What a run leaves alone. *)
  Lemma run_leaves r w' : fmain B K rates floor C a w = (Ok r, w') ->
    exists ref rops w1, smp w = (Ok (ref, rops), w1) /\
      forall f, (forall n, f <> path_join (a_path a) (reduced_name n)) -> w_fs w' f = w_fs w1 f.
  Proof.
    intros E. rewrite (fmain_graph me) in E by (auto; apply RD). cbn zeta in *.
    destruct (frun me (b_thr B) (b_path B) J smp (a_limit a) w) as [[r1|e|] w2] eqn:R; try discriminate.
    destruct (frun_sampled _ _ _ _ _ _ _ _ RD _ _ _ R) as (ref & rops & w1 & S). exists ref, rops, w1. split; [exact S|].
    pose proof (sampling K floor C a w sol RD rates _ _ _ S) as SO.
    pose proof (f_fair _ _ _ _ _ _ _ RD DP _ _ _ SO) as FA.
    pose proof (f_started _ _ _ _ _ _ _ RD _ _ _ SO) as ST. pose proof (f_tame _ _ _ _ _ _ _ DP _ _ _ SO) as TA.
    pose proof (fafter_frame me a cs B smp w sol ref rops w1 ST TA r1 w2 R) as FR.
    intros f I3. destruct (a_sa a) eqn:Sa.
    - pose proof (fafter_started me a cs B smp w sol ref rops w1 ST TA FA r1 w2 R
        (temps_after K floor C a B w sol rates _ _ _ SO (TE eq_refl))) as SS.
      destruct (sa_frame _ _ _ _ _ (b_sa B) f SS) as [G _]. rewrite E in G. cbn [snd] in G.
      rewrite G by exact I3. now rewrite FR by exact I3.
    - injection E as <- <-. now apply FR.
  Qed.

  (** A run from other files, with the same samples. *)
  Lemma run_elsewhere r w' ref rops w1 v : fmain B K rates floor C a w = (Ok r, w') -> smp w = (Ok (ref, rops), w1) ->
    w_fs v (a_file a) = w_fs w1 (a_file a) -> (forall f, In f sample_files -> w_fs v f = w_fs w1 f) ->
    (a_sa a = true -> temps_ok v (a_path a) B) -> w_shared v = w_shared w ->
    exists v', fmain B K rates floor C a v = (Ok r, v') /\
      forall f, w_fs v' f = w_fs w' f \/ (w_fs w' f = w_fs w1 f /\ w_fs v' f = w_fs v f).
  Proof.
    intros E S VA VSm TV VS. assert (a_targets a <> nil) as NT by apply RD.
    rewrite (fmain_graph me) in E by auto. rewrite (fmain_graph me) by auto. cbn zeta in *.
    destruct (frun me (b_thr B) (b_path B) J smp (a_limit a) w) as [[r1|e|] w2] eqn:R; try discriminate.
    pose proof (sampling K floor C a w sol RD rates _ _ _ S) as SO.
    pose proof (f_fair _ _ _ _ _ _ _ RD DP _ _ _ SO) as FA.
    pose proof (f_started _ _ _ _ _ _ _ RD _ _ _ SO) as ST. pose proof (f_tame _ _ _ _ _ _ _ DP _ _ _ SO) as TA.
    pose proof (fafter_frame me a cs B smp w sol ref rops w1 ST TA r1 w2 R) as FR.
    assert (holds v (a_file a) (a_phase a) sol) as HV.
    { destruct (so_file _ _ _ _ _ _ _ _ _ _ SO) as (ph & F & P). exists ph. split; [congruence|exact P]. }
    pose proof (sampler_elsewhere _ _ _ v S HV VSm) as SV.
    assert (sound_pair w1 v J w1 v) as SP.
    { split; [|split; reflexivity]. split; [rewrite VS; apply SO|]. auto. }
    destruct (p_rest w1 v J sol ref (so_file _ _ _ _ _ _ _ _ _ _ SO) VA (rd_apart _ _ _ _ _ RD) me (b_thr B) (b_path B) (a_limit a) rops w1 v SP)
      as (x & y1 & v2 & R1 & R2 & ((TS & TF) & _) & _).
    rewrite <- (frun_rest J sol ref me (b_thr B) (b_path B) smp (a_limit a) rops w w1 NT (rd_file _ _ _ _ _ RD) S), R in R1.
    injection R1 as <- <-.
    rewrite <- (frun_rest J sol ref me (b_thr B) (b_path B) smp (a_limit a) rops v v NT HV SV) in R2. rewrite R2.
    destruct (a_sa a) eqn:Sa.
    - pose proof (fafter_started me a cs B smp w sol ref rops w1 ST TA FA r1 w2 R
        (temps_after K floor C a B w sol rates _ _ _ SO (TE eq_refl))) as SS.
      assert (fstarted J smp v sol ref rops v) as STv.
      { constructor; [apply RD|exact HV|apply RD|exact (rd_apart _ _ _ _ _ RD)|exact SV|exact HV]. }
      pose proof (fafter_started me a cs B smp v sol ref rops v STv TA FA r1 v2 R2 (TV eq_refl)) as SSv.
      pose proof (fafter_frame me a cs B smp v sol ref rops v STv TA r1 v2 R2) as FRv.
      destruct (run_eq _ _ _ _ _ (b_sa B) SS) as (X1 & t1 & E1 & D1 & W1 & _).
      destruct (run_eq _ _ _ _ _ (b_sa B) SSv) as (X2 & t2 & E2 & D2 & W2 & _).
      rewrite E in E1. injection E1 as <- <-.
      assert (X2 = Ok r) as ->.
      { rewrite D2, D1. cbn [sa_with s_file s_phase s_conds].
        assert (forall u, (forall f, In f sample_files -> w_fs u f = w_fs w1 f) -> sample_metrics (r_file r1) (a_phase a) cs true u = (Ok ref, u)) as SM
          by (intros u HU; now apply (so_saved _ _ _ _ _ _ _ _ _ _ SO)).
        rewrite (SM w2), (SM v2).
        - unfold start_list, given_limbo. rewrite TS. reflexivity.
        - intros f I. rewrite FRv; auto. intros n. now apply sample_not_output.
        - intros f I. rewrite FR; auto. intros n. now apply sample_not_output. }
      exists t2. split; [exact E2|]. intros f. rewrite W2. pose proof (W1 f) as W1f.
      destruct (String.eqb f (path_join (s_path (sa_with double_distance a cs (r_file r1) (r_error r1) (r_limbo r1))) (r_file r)));
        [left; congruence|].
      destruct (TF f) as [Z|[Z1 Z2]]; [left; congruence|]. right. split; [congruence|exact Z2].
    - injection E as <- <-. exists v2. split; [reflexivity|]. intros f.
      destruct (TF f) as [Z|[Z1 Z2]]; [left; congruence|right; auto].
  Qed.
End Again.

Lemma scratch_not_output p k n f : scratch p k f -> f <> path_join p (reduced_name n).
Proof.
  intros (i & _ & ->) E. pose proof (reduced_last p n) as L. rewrite <- E in L. unfold h5_name in L.
  rewrite join_last in L by (destruct (str_nat i); discriminate).
  rewrite last_app in L by discriminate. discriminate.
Qed.

(** After a run with the same model, phase, path and cases, whatever its method,
    targets, threshold and limit were. *)
Lemma run_after K rates floor C a b B B' w sol me me' :
  prepared K C a w sol -> double_posed K rates floor C a sol -> a_method a = method_name me ->
  (a_sa a = true -> temps_ok w (a_path a) B) ->
  prepared K C b w sol -> double_posed K rates floor C b sol -> a_method b = method_name me' ->
  (a_sa b = true -> temps_ok w (a_path b) B') ->
  a_file b = a_file a -> a_phase b = a_phase a -> a_path b = a_path a ->
  forall r w' r2 w2, fmain B K rates floor C a w = (Ok r, w') -> fmain B' K rates floor C b w = (Ok r2, w2) ->
  forall v, (forall f, w_fs v f = w_fs w' f) -> w_shared v = w_shared w ->
  exists v', fmain B' K rates floor C b v = (Ok r2, v') /\
    (forall f, w_fs w2 f <> w_fs w f -> w_fs v' f = w_fs w2 f) /\
    (forall f, w_fs v' f = w_fs w2 f \/ w_fs v' f = w_fs w' f).
Proof.
  intros RD DP NA TE RD' DP' NA' TE' EF EP EQ r w' r2 w2 E E2 v VF VS.
  destruct (run_leaves K rates floor C a B w sol me RD DP NA TE r w' E) as (ref & rops & w1 & S & FW).
  assert (sampler_with K rates floor C b w = (Ok (ref, rops), w1)) as S'.
  { unfold sampler_with in *. rewrite EF, EP, EQ. exact S. }
  pose proof (sampling K floor C b w sol RD' rates _ _ _ S') as SO.
  assert (forall f, In f sample_files -> w_fs v f = w_fs w1 f) as VSm.
  { intros f I. rewrite VF. apply FW. intros n. now apply sample_not_output. }
  destruct (run_elsewhere K rates floor C b B' w sol me' RD' DP' NA' TE' r2 w2 ref rops w1 v E2 S') as (v' & R & F); auto.
  - rewrite VF. apply FW. intros n Z. rewrite EF in Z. exact (rd_apart _ _ _ _ _ RD n (eq_sym Z)).
  - intros Sb. destruct (temps_after K floor C b B' w sol rates _ _ _ SO (TE' Sb)) as ([N1 N2 AP G1 G2] & O1 & O2).
    split; [|auto]. constructor; auto.
    + intros f U. rewrite VF, FW; auto. intros n ->. rewrite <- EQ, O1 in U. discriminate.
    + intros f U. rewrite VF, FW; auto. intros n ->. rewrite <- EQ, O2 in U. discriminate.
  - exists v'. split; [exact R|]. split.
    + intros f D. destruct (F f) as [Z|[Z1 Z2]]; [exact Z|]. rewrite Z2, Z1.
      destruct (in_dec string_dec f sample_files) as [I|I]; [now apply VSm|].
      destruct (some_or_none (fun i f => f = h5_name (a_path b) i) (fun i f => h5_dec (a_path b) i f) (length (ca_ign C)) f) as [(i & L & H)|H].
      * rewrite VF, FW; auto. intros n. rewrite <- EQ. apply (scratch_not_output _ (length (ca_ign C))). now exists i.
      * exfalso. apply D. rewrite Z1. apply (so_frame _ _ _ _ _ _ _ _ _ _ SO); auto. intros (i & L & G). exact (H i L G).
    + intros f. destruct (F f) as [Z|[Z1 Z2]]; [now left|right; now rewrite Z2, VF].
Qed.

Lemma run_again K rates floor C a B w sol me :
  prepared K C a w sol -> double_posed K rates floor C a sol -> a_method a = method_name me ->
  (a_sa a = true -> temps_ok w (a_path a) B) ->
  forall r w', fmain B K rates floor C a w = (Ok r, w') ->
  forall v, (forall f, w_fs v f = w_fs w' f) -> w_shared v = w_shared w ->
  exists v', fmain B K rates floor C a v = (Ok r, v') /\ forall f, w_fs v' f = w_fs w' f.
Proof.
  intros RD DP NA TE r w' E v VF VS.
  destruct (run_after K rates floor C a a B B w sol me me RD DP NA TE RD DP NA TE eq_refl eq_refl eq_refl r w' r w' E E v VF VS)
    as (v' & R & _ & F).
  exists v'. split; [exact R|]. intros f. destruct (F f); auto.
Qed.
