(** Parsing twice, failing by assertion, and what retention is for. *)
From Coq Require Import String Ascii List QArith ZArith Bool Lia.
From Verif.Base Require Import Py Num XNum Paths.
From Verif.Model Require Import Mech World Drivers Simulation Inputs.
From Verif.Spec Require Import TrimSpec DriverSpec SimSpec InputSpec.
From Verif.Proofs Require Import NumFacts PyFacts ReduceFacts DriverFacts InputFacts InputMore SimFacts.
Import ListNotations.
Local Open Scope string_scope.

(** ** A second time *)

Lemma dreplace_keys key v d : map fst (dreplace key v d) = map fst d.
Proof. unfold dreplace. rewrite map_map. apply map_ext. intros [k x]. simpl. now destruct (is_str key k). Qed.

Lemma dreplace_in key v d k x :
  In (k, x) (dreplace key v d) <-> (k <> YStr key /\ In (k, x) d) \/ (k = YStr key /\ x = v /\ exists y, In (k, y) d).
Proof.
  unfold dreplace. rewrite in_map_iff. split.
  - intros ([k' y] & E & I). simpl in E. destruct (is_str key k') eqn:S.
    + injection E as -> ->. apply is_str_iff in S as ->. eauto.
    + injection E as -> ->. left. split; [|exact I]. intros ->. simpl in S. rewrite String.eqb_refl in S. discriminate.
  - intros [(N & I)|(-> & -> & y & I)].
    + exists (k, x). split; [|exact I]. simpl. destruct (is_str key k) eqn:S; [|reflexivity].
      apply is_str_iff in S. contradiction.
    + exists (YStr key, y). split; [|exact I]. simpl. now rewrite String.eqb_refl.
Qed.

Lemma field_replace key key' v d default x : key <> key' ->
  (field key default (dreplace key' v d) x <-> field key default d x).
Proof.
  intro N. assert (N' : YStr key <> YStr key') by congruence.
  assert (H : forall y, In (YStr key, y) (dreplace key' v d) <-> In (YStr key, y) d).
  { intro y. rewrite dreplace_in. tauto. }
  unfold field. rewrite H. split; intros [I|(E & F)]; auto; right; (split; [exact E|]); intros y I; apply (F y); apply H; auto.
Qed.

Lemma dreplace_absent key v d : (forall x, ~ In (YStr key, x) d) -> dreplace key v d = d.
Proof.
  intro N. unfold dreplace. rewrite <- (map_id d) at 2. apply map_ext_in. intros [k x] I. simpl.
  destruct (is_str key k) eqn:S; [|reflexivity]. apply is_str_iff in S as ->. now apply N in I.
Qed.

Lemma dreplace_twice key v d : dreplace key v (dreplace key v d) = dreplace key v d.
Proof.
  unfold dreplace. rewrite map_map. apply map_ext. intros [k x]. simpl. destruct (is_str key k) eqn:S; simpl; now rewrite S.
Qed.

Lemma used_species d w I s sol : input_ok d w I -> holds w (in_model I) (in_phase I) sol -> used I s ->
  In s (species_names sol).
Proof.
  intros H LD (x & X & N). destruct H.
  destruct io_species as (sol' & ts & given & LD' & _ & _ & _ & _ & _ & _ & ci & cp & cf & csi & csp & csf &
    _ & _ & _ & _ & _ & _ & _ & F1 & F2 & F3).
  assert (sol' = sol) as ->. { destruct LD as (p & A & B). destruct LD' as (p' & A' & B'). congruence. }
  pose proof (mixes_ok _ _ _ _ _ _ _ F1 F2 F3 x X) as MO. destruct (io_containers x X) as (C1 & C2 & C3).
  destruct (mix_species_spec _ _ MO C1 C2 C3) as (l & _ & S & IN). apply IN. now apply S.
Qed.

Lemma with_safe_same I : with_safe I (in_safe I) = I.
Proof. now destruct I. Qed.

Lemma parse_again d w I d' w' : yaml_input d -> lists_given d ->
  parse_inputs (YDict d) w = (Ok (I, d'), w') -> parse_inputs d' w = (Ok (I, d'), w).
Proof.
  intros Y L E. destruct (parse_inv _ _ _ _ _ Y L E) as (-> & IO & (ts & given & ET & FG & PR) & ->).
  destruct (dlook "retained-species" d) as [old|] eqn:D.
  2:{ rewrite dreplace_absent in * by now apply dlook_none. exact E. }
  apply dlook_in in D.
  destruct PR as (extra & ES & ND & H).
  set (d2 := dreplace "retained-species" (in_safe I) d).
  assert (Y2 : yaml_input d2).
  { destruct Y as (W & Y). split.
    - unfold dict_ok, d2. rewrite dreplace_keys. exact W.
    - intros key v K J. apply dreplace_in in J as [(_ & J)|(Q & _)]; [eauto|].
      injection Q as ->. destruct K as [K|[K|[K|[]]]]; discriminate K. }
  assert (L2 : lists_given d2).
  { intros key v K J. apply dreplace_in in J as [(_ & J)|(_ & -> & _)]; [eauto|]. rewrite ES. eauto. }
  assert (IO2 : input_ok d2 w I).
  { pose proof IO as IO0. unfold d2. destruct IO. constructor; try (rewrite field_replace by discriminate; assumption); try assumption.
    - destruct io_upper as (u & G & U). exists u. rewrite field_replace by discriminate. auto.
    - destruct io_species as (sol & ts' & given' & LD & ET' & G5 & T & TN & G8 & S & ci & cp & cf & csi & csp & csf &
        G11 & LI1 & G12 & LI2 & G13 & LI3 & R).
      assert (given' = given) as ->.
      { destruct FG as [J|(_ & N)]; [|now apply N in D]. destruct G8 as [J'|(_ & N)]; [|now apply N in D].
        pose proof (in_dlook _ _ _ (proj1 Y) J). pose proof (in_dlook _ _ _ (proj1 Y) J'). congruence. }
      exists sol, ts', (given ++ map YStr extra)%list.
      repeat (rewrite field_replace by discriminate).
      split; [exact LD|]. split; [exact ET'|]. split; [exact G5|]. split; [exact T|]. split; [exact TN|].
      split. { left. apply dreplace_in. right. split; [reflexivity|]. split; [now rewrite <- ES|eauto]. }
      split.
      { intros v J. apply in_app_iff in J as [J|J]; [now apply S|]. apply in_map_iff in J as (s & <- & J).
        exists s. split; [reflexivity|]. apply H in J as (J & _). eapply used_species; eauto. }
      exists ci, cp, cf, csi, csp, csf. repeat (rewrite field_replace by discriminate). auto 10. }
  destruct (parse_fwd _ _ _ Y2 IO2) as (safe' & d3 & E2).
  destruct (parse_inv _ _ _ _ _ Y2 L2 E2) as (_ & _ & (ts2 & given2 & ET2 & FG2 & (extra2 & ES2 & ND2 & H2)) & ->).
  simpl in ET2, ES2. assert (ts2 = ts) as -> by congruence.
  assert (given2 = (given ++ map YStr extra)%list) as ->.
  { destruct FG2 as [J|(_ & N)].
    - apply dreplace_in in J as [(N & _)|(_ & J & _)]; congruence.
    - exfalso. apply (N (in_safe I)). apply dreplace_in. right. eauto. }
  assert (extra2 = nil) as ->.
  { destruct extra2 as [|s t]; [reflexivity|]. exfalso. destruct (proj1 (H2 s) (or_introl eq_refl)) as (U & N1 & N2).
    apply N2. apply in_app_iff. destruct (in_dec string_dec s extra) as [J|J]; [right; now apply in_map|left].
    destruct (dlook "retained-species" d) eqn:Q.
    - destruct (existsb (is_str s) given) eqn:X.
      + apply existsb_exists in X as (v & V & S). apply is_str_iff in S as ->. exact V.
      + exfalso. apply J. apply H. split; [exact U|]. split; [exact N1|]. intro V.
        assert (existsb (is_str s) given = true); [|congruence]. apply existsb_exists. exists (YStr s).
        split; [exact V|]. now apply is_str_iff.
    - exfalso. eapply dlook_none; eauto. }
  simpl in ES2. rewrite app_nil_r in ES2. rewrite E2. subst safe'. simpl in *. rewrite <- ES, with_safe_same.
  unfold d2. now rewrite dreplace_twice.
Qed.

(** ** Failing by assertion *)

Definition fails_cleanly {A} (r : res A) : Prop := (exists a, r = Ok a) \/ r = Raise AssertionError.

Lemma clean_bind {A B} (r : res A) (k : A -> res B) :
  fails_cleanly r -> (forall a, r = Ok a -> fails_cleanly (k a)) -> fails_cleanly (bind r k).
Proof. intros [(a & E)|E] H; rewrite E in *; simpl; [auto|right; reflexivity]. Qed.
Lemma clean_ok {A} (a : A) : fails_cleanly (Ok a).
Proof. left. eauto. Qed.
Lemma clean_check b : fails_cleanly (check b).
Proof. destruct b; [apply clean_ok|right; reflexivity]. Qed.
Lemma clean_get key default d : fails_cleanly (yget key default (YDict d)).
Proof. apply clean_ok. Qed.
Lemma clean_gt0 v : number v -> fails_cleanly (ygt0 v).
Proof. intros N. unfold ygt0. destruct v; try contradiction N; apply clean_ok. Qed.
Lemma clean_pos v : number v -> fails_cleanly (check_pos v).
Proof. intro N. apply clean_bind; [now apply clean_gt0|]. intros. apply clean_check. Qed.
Lemma clean_each {A} (f : A -> res unit) l : (forall x, In x l -> fails_cleanly (f x)) -> fails_cleanly (each f l).
Proof.
  induction l as [|x t IH]; intro H; simpl; [apply clean_ok|]. apply clean_bind; [apply H; simpl; auto|].
  intros. apply IH. intros; apply H; simpl; auto.
Qed.
Lemma clean_entries names v : ytrue v = true -> name_amounts v -> fails_cleanly (check_entries names v).
Proof.
  intros T [->|(d & -> & H)]; [discriminate|]. simpl. apply clean_each. intros [k x] I. destruct (H _ _ I) as (N & s & ->).
  simpl. apply clean_bind; [now apply clean_gt0|]. intros b _. destruct (b && _); [apply clean_ok|right; reflexivity].
Qed.
Lemma clean_mapM {A B} (f : A -> res B) l : (forall x, In x l -> fails_cleanly (f x)) -> fails_cleanly (mapM f l).
Proof.
  induction l as [|x t IH]; intro H; simpl; [apply clean_ok|]. apply clean_bind; [apply H; simpl; auto|].
  intros. apply clean_bind; [|intros; apply clean_ok]. apply IH. intros; apply H; simpl; auto.
Qed.

Lemma got_number key default d v :
  (forall x, In (YStr key, x) d -> number x) -> number default -> yget key default (YDict d) = Ok v -> number v.
Proof.
  intros H N E. simpl in E. injection E as <-. destruct (dlook key d) eqn:D; [|exact N]. apply dlook_in in D. eauto.
Qed.
Lemma got_amounts key d v :
  (forall x, In (YStr key, x) d -> name_amounts x) -> yget key (YList nil) (YDict d) = Ok v -> name_amounts v.
Proof.
  intros H E. simpl in E. injection E as <-. destruct (dlook key d) eqn:D; [|left; reflexivity]. apply dlook_in in D. eauto.
Qed.

Lemma zero_number : number (YNum (Fin 0)).
Proof. exact I. Qed.
Lemma tenth_number : number (YNum (Fin (1 # 10))).
Proof. exact I. Qed.

Section Clean.
Variables (d : list (yval * yval)) (names : list string).
Hypothesis HN : forall key v, In key ["temperature"; "pressure"; "width"; "equivalence-ratio"] -> In (YStr key, v) d -> number v.
Hypothesis HA : forall key v, In key ["fuel"; "oxidizer"; "reactants"] -> In (YStr key, v) d -> name_amounts v.

Lemma clean_mix : fails_cleanly (parse_mix names (YDict d)).
Proof.
  unfold parse_mix.
  apply clean_bind; [apply clean_get|]. intros ratio G1.
  apply clean_bind; [apply clean_get|]. intros fuel G2.
  apply clean_bind; [apply clean_get|]. intros oxi G3.
  apply clean_bind; [apply clean_get|]. intros rea G4.
  apply got_number in G1; [|intros x; apply HN; simpl; auto|apply zero_number].
  apply got_amounts in G2; [|intros x; apply HA; simpl; auto].
  apply got_amounts in G3; [|intros x; apply HA; simpl; auto].
  apply got_amounts in G4; [|intros x; apply HA; simpl; auto].
  apply clean_bind; [apply clean_check|]. intros _ _.
  apply clean_bind.
  { destruct (_ || _); [|apply clean_ok]. apply clean_bind; [now apply clean_gt0|]. intros b _.
    apply clean_bind; [apply clean_check|]. intros _ _. apply clean_bind; [apply clean_check|]. intros u C1.
    apply check_ok in C1. apply clean_bind; [now apply clean_entries|]. intros _ _.
    apply clean_bind; [apply clean_check|]. intros u' C2. apply check_ok in C2. now apply clean_entries. }
  intros _ _. apply clean_bind.
  { destruct (ytrue rea) eqn:T; [now apply clean_entries|apply clean_ok]. }
  intros _ _. apply clean_bind; [apply clean_get|]. intros ty _. apply clean_bind; [apply clean_check|]. intros _ _.
  apply clean_bind; [apply clean_check|]. intros _ _. apply clean_ok.
Qed.

Lemma clean_ign : fails_cleanly (parse_ign names (YDict d)).
Proof.
  unfold parse_ign.
  apply clean_bind; [apply clean_get|]. intros kind _.
  apply clean_bind; [apply clean_get|]. intros T G1.
  apply clean_bind; [apply clean_get|]. intros P G2.
  apply got_number in G1; [|intros x; apply HN; simpl; auto|apply zero_number].
  apply got_number in G2; [|intros x; apply HN; simpl; auto|apply zero_number].
  apply clean_bind; [apply clean_check|]. intros _ _. apply clean_bind; [now apply clean_pos|]. intros _ _.
  apply clean_bind; [now apply clean_pos|]. intros _ _. apply clean_bind; [apply clean_get|]. intros ? _.
  apply clean_bind; [apply clean_get|]. intros ? _. apply clean_bind; [apply clean_mix|]. intros; apply clean_ok.
Qed.
Lemma clean_psr : fails_cleanly (parse_psr names (YDict d)).
Proof.
  unfold parse_psr.
  apply clean_bind; [apply clean_get|]. intros T G1.
  apply clean_bind; [apply clean_get|]. intros P G2.
  apply got_number in G1; [|intros x; apply HN; simpl; auto|apply zero_number].
  apply got_number in G2; [|intros x; apply HN; simpl; auto|apply zero_number].
  apply clean_bind; [now apply clean_pos|]. intros _ _.
  apply clean_bind; [now apply clean_pos|]. intros _ _. apply clean_bind; [apply clean_mix|]. intros; apply clean_ok.
Qed.
Lemma clean_flame : fails_cleanly (parse_flame names (YDict d)).
Proof.
  unfold parse_flame.
  apply clean_bind; [apply clean_get|]. intros T G1.
  apply clean_bind; [apply clean_get|]. intros P G2.
  apply got_number in G1; [|intros x; apply HN; simpl; auto|apply zero_number].
  apply got_number in G2; [|intros x; apply HN; simpl; auto|apply zero_number].
  apply clean_bind; [now apply clean_pos|]. intros _ _.
  apply clean_bind; [now apply clean_pos|]. intros _ _.
  apply clean_bind; [apply clean_get|]. intros wd G3.
  apply got_number in G3; [|intros x; apply HN; simpl; auto|apply tenth_number].
  apply clean_bind; [now apply clean_pos|]. intros _ _.
  apply clean_bind; [apply clean_mix|]. intros; apply clean_ok.
Qed.
End Clean.

Lemma clean_cases {A} (parse : list string -> yval -> res A) model phase cs w sol :
  (forall names d, typed_case (YDict d) -> fails_cleanly (parse names (YDict d))) ->
  holds w model phase sol -> Forall typed_case cs ->
  fails_cleanly (fst (parse_cases parse model phase (YList cs) w)).
Proof.
  intros H LD F. unfold parse_cases, mbind, mlift. rewrite (proj2 (load_iff w _ _ sol w) (conj eq_refl LD)). simpl.
  apply clean_mapM. intros c I. rewrite Forall_forall in F. specialize (F c I). pose proof F as (d & -> & _). now apply H.
Qed.

Lemma clean_all model phase cs w sol :
  holds w model phase sol -> Forall typed_case cs ->
  fails_cleanly (fst (parse_ignition_inputs model phase (YList cs) w)) /\
  fails_cleanly (fst (parse_psr_inputs model phase (YList cs) w)) /\
  fails_cleanly (fst (parse_flame_inputs model phase (YList cs) w)).
Proof.
  intros LD F. split; [|split]; apply (clean_cases _ _ _ _ _ sol); auto; intros names d (d' & E & HN & HA); injection E as <-.
  - now apply clean_ign.
  - now apply clean_psr.
  - now apply clean_flame.
Qed.

(** ** What retention is for *)

Lemma all_some_in {A B} (f : A -> option B) l l' y : all_some f l = Some l' ->
  (In y l' <-> exists x, In x l /\ f x = Some y).
Proof.
  revert l'. induction l as [|x t IH]; simpl; intros l' E.
  - injection E as <-. split; [easy|]. intros (z & [] & _).
  - destruct (f x) as [z|] eqn:F; [|discriminate]. destruct (all_some f t) as [zs|]; [|discriminate].
    injection E as <-. simpl. rewrite IH by reflexivity. split.
    + intros [<-|(u & I & G)]; eauto.
    + intros (u & [<-|I] & G); [left; congruence|eauto].
Qed.

Lemma names_in l ns s : ynames (YList l) = Some ns -> (In s ns <-> In (YStr s) l).
Proof.
  intro E. simpl in E. rewrite (all_some_in _ _ _ _ E). split.
  - intros (x & I & G). destruct x; simpl in G; try discriminate. injection G as ->. exact I.
  - intro I. exists (YStr s). auto.
Qed.

Lemma amounts_keys d l s : amounts d = Some l -> In s (dkeys l) -> exists v, In (YStr s, v) d.
Proof.
  revert l. induction d as [|[k v] t IH]; simpl; intros l E I.
  - injection E as <-. easy.
  - destruct k as [| | | |k| |]; try discriminate. destruct (yfin v); [|discriminate].
    destruct (amounts t) as [r|]; [|discriminate]. injection E as <-. destruct I as [<-|I]; [eauto|].
    destruct (IH r eq_refl I) as (x & X). eauto.
Qed.
Lemma yamounts_keys v l s : yamounts v = Some l -> In s (dkeys l) -> exists d x, v = YDict d /\ In (YStr s, x) d.
Proof.
  unfold yamounts. destruct (ytrue v).
  - destruct v as [| | | | | |d]; try discriminate. intros E I. destruct (amounts_keys _ _ _ E I) as (x & X). eauto.
  - intros E I. injection E as <-. easy.
Qed.

Lemma typed_species x mx s : typed_mix x = Some mx -> In s (set_species mx) -> names_species x s.
Proof.
  unfold typed_mix. intro E.
  destruct (if ytrue (rm_ratio x) then yfin (rm_ratio x) else Some 0%Q) as [phi|]; [|discriminate].
  destruct (yamounts (rm_fuel x)) as [f|] eqn:F; [|discriminate].
  destruct (yamounts (rm_oxidizer x)) as [o|] eqn:O; [|discriminate].
  destruct (yamounts (rm_reactants x)) as [r|] eqn:R; [|discriminate].
  destruct (rm_type x); try discriminate. injection E as <-. unfold set_species. simpl.
  destruct (Qnz phi).
  - intro I. apply in_app_iff in I as [I|I].
    + destruct (yamounts_keys _ _ _ F I) as (d & v & A & B). exists d, v. auto.
    + destruct (yamounts_keys _ _ _ O I) as (d & v & A & B). exists d, v. auto.
  - intro I. destruct (yamounts_keys _ _ _ R I) as (d & v & A & B). exists d, v. auto.
Qed.

Lemma setup_supports x m : setup_gas x m = Ok tt <-> supports x m.
Proof.
  unfold setup_gas, supports. destruct (forallb _ _) eqn:F.
  - split; [intros _|reflexivity]. rewrite forallb_forall in F. intros s I. apply sets_iff in I. apply str_in_iff. auto.
  - split; [discriminate|]. intro H. assert (X : forallb (fun s => str_in s (species_names m)) (set_species x) = true); [|congruence].
    apply forallb_forall. intros s I. apply str_in_iff, H, sets_iff. auto.
Qed.

Lemma typed_used I C : typed_cases I = Some C ->
  (forall c, In c (ca_ign C) -> forall s, In s (set_species (ig_mix c)) -> used I s) /\
  (forall c, In c (ca_psr C) -> forall s, In s (set_species (ps_mix c)) -> used I s) /\
  (forall c, In c (ca_flame C) -> forall s, In s (set_species (fl_mix c)) -> used I s).
Proof.
  unfold typed_cases. intro E. destruct (all_some typed_ign (in_ign I)) as [a|] eqn:E1; [|discriminate].
  destruct (all_some typed_psr (in_psr I)) as [b|] eqn:E2; [|discriminate].
  destruct (all_some typed_flame (in_flame I)) as [f|] eqn:E3; [|discriminate]. injection E as <-. simpl.
  unfold used, case_mixes. split; [|split]; intros c J s S.
  - apply (all_some_in _ _ _ _ E1) in J as (r & R & T). unfold typed_ign in T.
    destruct (ri_kind r); try discriminate. destruct (yfin (ri_T r)); [|discriminate]. destruct (yfin (ri_P r)); [|discriminate].
    destruct (if ytrue (ri_end r) then _ else _); [|discriminate]. destruct (if ytrue (ri_steps r) then _ else _); [|discriminate].
    destruct (typed_mix (ri_mix r)) as [m|] eqn:M; [|discriminate]. injection T as <-. simpl in S.
    exists (ri_mix r). split; [|eapply typed_species; eauto]. rewrite !in_app_iff. left. now apply in_map.
  - apply (all_some_in _ _ _ _ E2) in J as (r & R & T). unfold typed_psr in T.
    destruct (yfin (rp_T r)); [|discriminate]. destruct (yfin (rp_P r)); [|discriminate].
    destruct (typed_mix (rp_mix r)) as [m|] eqn:M; [|discriminate]. injection T as <-. simpl in S.
    exists (rp_mix r). split; [|eapply typed_species; eauto]. rewrite !in_app_iff. right; left. now apply in_map.
  - apply (all_some_in _ _ _ _ E3) in J as (r & R & T). unfold typed_flame in T.
    destruct (yfin (rf_T r)); [|discriminate]. destruct (yfin (rf_P r)); [|discriminate]. destruct (yfin (rf_width r)); [|discriminate].
    destruct (typed_mix (rf_mix r)) as [m|] eqn:M; [|discriminate]. injection T as <-. simpl in S.
    exists (rf_mix r). split; [|eapply typed_species; eauto]. rewrite !in_app_iff. right; right. now apply in_map.
Qed.

(** Used species are targets or safe. *)
Lemma used_covered d w I d' w' J : yaml_input d -> lists_given d ->
  parse_inputs (YDict d) w = (Ok (I, d'), w') -> job_of I J ->
  forall s, used I s -> In s (j_targets J) \/ In s (j_safe J).
Proof.
  intros Y L E (_ & _ & NT & NS) s U. destruct (parse_inv _ _ _ _ _ Y L E) as (-> & IO & (ts & given & ET & FG & PR) & ->).
  destruct PR as (extra & ES & _ & H). rewrite ET in NT. rewrite ES in NS.
  rewrite (names_in _ _ s NT), (names_in _ _ s NS), in_app_iff.
  destruct (existsb (is_str s) ts) eqn:X.
  { left. apply existsb_exists in X as (v & V & S). apply is_str_iff in S as ->. exact V. }
  destruct (existsb (is_str s) given) eqn:X'.
  { right; left. apply existsb_exists in X' as (v & V & S). apply is_str_iff in S as ->. exact V. }
  right; right. apply in_map. apply H. split; [exact U|].
  assert (F : forall l, existsb (is_str s) l = false -> ~ In (YStr s) l).
  { intros l G V. assert (existsb (is_str s) l = true); [|congruence]. apply existsb_exists. exists (YStr s).
    split; [exact V|]. now apply is_str_iff. }
  split; now apply F.
Qed.

(** The job is one that the drivers accept. *)
Lemma job_of_ok d w I d' w' J sol : yaml_input d -> lists_given d ->
  parse_inputs (YDict d) w = (Ok (I, d'), w') -> job_of I J -> holds w (in_model I) (in_phase I) sol ->
  incl (j_targets J) (species_names sol) /\ incl (j_safe J) (species_names sol) /\
  (~ blank (in_method I) -> j_targets J <> nil).
Proof.
  intros Y L E (_ & _ & NT & NS) LD. destruct (parse_inv _ _ _ _ _ Y L E) as (-> & IO & (ts & given & ET & FG & PR) & ->).
  destruct PR as (extra & ES & _ & H). pose proof IO as IO0. destruct IO.
  destruct io_species as (sol' & ts' & given' & LD' & ET' & _ & T & TN & G8 & S & _).
  assert (sol' = sol) as ->. { destruct LD as (p & A & B). destruct LD' as (p' & A' & B'). congruence. }
  assert (ts' = ts) as -> by congruence. rewrite ET in NT. rewrite ES in NS.
  assert (given' = given) as ->.
  { destruct FG as [J1|(G8' & N)], G8 as [J2|(G8 & N')].
    - pose proof (in_dlook _ _ _ (proj1 Y) J1). pose proof (in_dlook _ _ _ (proj1 Y) J2). congruence.
    - now apply N' in J1.
    - now apply N in J2.
    - congruence. }
  split; [|split].
  - intros s I1. apply (names_in _ _ s NT) in I1. destruct (T _ I1) as (s' & Q & R). congruence.
  - intros s I1. apply (names_in _ _ s NS), in_app_iff in I1 as [I1|I1].
    + destruct (S _ I1) as (s' & Q & R). congruence.
    + apply in_map_iff in I1 as (s' & Q & R). injection Q as ->. apply H in R as (R & _). eapply used_species; eauto.
  - intros B Z. specialize (TN B). destruct ts as [|t ts]; [congruence|].
    destruct (T t (or_introl eq_refl)) as (s & -> & _). simpl in NT. destruct (all_some ystr ts); [|discriminate].
    congruence.
Qed.

Lemma candidates_set_up d w I d' w' J C sol rops me t m : yaml_input d -> lists_given d ->
  parse_inputs (YDict d) w = (Ok (I, d'), w') -> job_of I J -> typed_cases I = Some C ->
  holds w (in_model I) (in_phase I) sol -> wf_mech sol -> ~ blank (in_method I) ->
  rops <> nil -> (me = DRGEP -> (t <= 1)%Q) ->
  cut_to J sol (kept me J sol rops t) m -> sets_up C m.
Proof.
  intros Y L E JO TC LD WF B NE T1 C0. destruct (job_of_ok _ _ _ _ _ _ _ Y L E JO LD) as (IT & IS & TN). specialize (TN B).
  pose proof (parse_inv _ _ _ _ _ Y L E) as (_ & IO & _).
  assert (Hs : forall s, used I s -> In s (species_names m)).
  { intros s U. apply (cut_has _ _ _ _ _ C0).
    - eapply used_species; eauto.
    - destruct (used_covered _ _ _ _ _ _ Y L E JO s U) as [K|K]; [|now left].
      apply target_kept; auto. split; auto. }
  destruct (typed_used _ _ TC) as (U1 & U2 & U3).
  split; [|split]; intros c Ic s S; apply sets_iff in S; apply Hs; eauto.
Qed.

Lemma clean_asserts {A} (r : res A) : fails_cleanly r -> asserts r.
Proof. intros [(a & ->)| ->]; exact I. Qed.

Lemma returned_sets_up d w0 I d' w0' J C me smp w sol sampled rops w1 limit fuel dfuel r w' :
  yaml_input d -> lists_given d -> parse_inputs (YDict d) w0 = (Ok (I, d'), w0') ->
  job_of I J -> typed_cases I = Some C -> holds w0 (in_model I) (in_phase I) sol ->
  started J smp w sol sampled rops w1 -> fair J sol sampled limit -> rops <> nil ->
  run me exactA (floor_of me) fuel dfuel J smp limit w = (Ok r, w') ->
  sets_up C (r_model r).
Proof.
  intros Y L E JO TC LD ST FA NE R.
  destruct (driver_keeps _ _ _ _ _ _ _ _ _ ST FA _ _ _ _ NE R) as (KT & KS).
  pose proof (parse_inv _ _ _ _ _ Y L E) as (_ & IO & _).
  assert (Hs : forall s, used I s -> In s (species_names (r_model r))).
  { intros s U. destruct (used_covered _ _ _ _ _ _ Y L E JO s U) as [K|K]; [auto|]. apply KS; [exact K|].
    eapply used_species; eauto. }
  destruct (typed_used _ _ TC) as (U1 & U2 & U3).
  split; [|split]; intros c Ic s S; apply sets_iff in S; apply Hs; eauto.
Qed.
