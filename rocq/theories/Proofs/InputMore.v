(** Facts about [parse_inputs]. *)
From Coq Require Import String Ascii List QArith ZArith Bool Lia.
From Verif.Base Require Import Py Num XNum Paths.
From Verif.Model Require Import Mech World Simulation Inputs.
From Verif.Spec Require Import DriverSpec InputSpec.
From Verif.Proofs Require Import NumFacts PyFacts InputFacts.
Import ListNotations.
Local Open Scope string_scope.

Lemma mbind_ok {A B} (m : M A) (k : A -> M B) w b w' :
  mbind m k w = (Ok b, w') <-> exists a w1, m w = (Ok a, w1) /\ k a w1 = (Ok b, w').
Proof.
  unfold mbind. split.
  - destruct (m w) as [[a| |] w1]; try discriminate. eauto.
  - intros (a & w1 & -> & E). exact E.
Qed.
Lemma mlift_ok {A} (r : res A) w a w' : mlift r w = (Ok a, w') <-> r = Ok a /\ w' = w.
Proof.
  unfold mlift. split.
  - intro E. now injection E as -> ->.
  - intros (-> & ->). reflexivity.
Qed.

(** ** Species of the cases *)

Lemma list_dict_keys d : yiter (YDict d) = Ok (map fst d).
Proof. reflexivity. Qed.

Lemma blank_iter v : blank v -> container v -> yiter v = Ok nil.
Proof. intros [] C; simpl in *; try contradiction; reflexivity. Qed.

Lemma iter_container v l : yiter v = Ok l -> container v.
Proof. destruct v; simpl; try discriminate; auto. Qed.

Lemma blank_not_amounts names v : blank v -> amounts_of names v -> False.
Proof. intros B A. apply amounts_true in A. apply truth_blank in B. congruence. Qed.

Lemma blank_dict_nil d : blank (YDict d) -> d = nil.
Proof. intro B. now inversion B. Qed.

Lemma mix_species_spec names x : mix_ok names x ->
  container (rm_fuel x) -> container (rm_oxidizer x) -> container (rm_reactants x) ->
  exists l, mix_species x = Ok (map YStr l) /\ (forall s, In s l <-> names_species x s) /\ incl l names.
Proof.
  intros H C1 C2 C3.
  assert (K : forall v, container v -> (blank v \/ amounts_of names v) ->
            exists l, yiter v = Ok (map YStr l) /\ incl l names /\
              forall s, In s l <-> exists d y, v = YDict d /\ In (YStr s, y) d).
  { intros v C [B|A].
    - exists nil. rewrite (blank_iter _ B C). split; [reflexivity|]. split; [easy|].
      intro s. split; [easy|]. intros (d & y & -> & I). now rewrite (blank_dict_nil _ B) in I.
    - destruct A as (d & -> & _ & A). clear C.
      assert (E : exists l, map fst d = map YStr l /\ incl l names).
      { induction d as [|[k y] t IH]; [exists nil; easy|].
        destruct IH as (l & E & IL). { intros; apply A; simpl; auto. }
        destruct (A k y (or_introl eq_refl)) as (_ & s & -> & S).
        exists (s :: l). simpl. rewrite E. split; [reflexivity|]. intros z [->|Z]; auto. }
      destruct E as (l & E & IL). exists l. simpl. rewrite E. split; [reflexivity|]. split; [exact IL|].
      intro s. split.
      + intro I. assert (I' : In (YStr s) (map fst d)) by (rewrite E; now apply in_map).
        apply in_map_iff in I' as ([k y] & K & I'). simpl in K. subst k. eauto.
      + intros (d' & y & E' & I). injection E' as <-.
        assert (I' : In (YStr s) (map fst d)) by (apply in_map_iff; exists (YStr s, y); auto).
        rewrite E in I'. apply in_map_iff in I' as (s' & S & I'). congruence. }
  assert (J : (blank (rm_fuel x) \/ amounts_of names (rm_fuel x)) /\
              (blank (rm_oxidizer x) \/ amounts_of names (rm_oxidizer x)) /\
              (blank (rm_reactants x) \/ amounts_of names (rm_reactants x))) by (unfold mix_ok in H; tauto).
  destruct J as (J1 & J2 & J3).
  destruct (K _ C1 J1) as (l1 & E1 & I1 & S1). destruct (K _ C2 J2) as (l2 & E2 & I2 & S2).
  destruct (K _ C3 J3) as (l3 & E3 & I3 & S3).
  exists (l1 ++ l2 ++ l3)%list. unfold mix_species. rewrite E1, E2, E3. simpl.
  split; [now rewrite !map_app|]. split.
  - intro s. rewrite !in_app_iff, S1, S2, S3. unfold names_species. split.
    + intros [(d & y & ? & ?)|[(d & y & ? & ?)|(d & y & ? & ?)]]; exists d, y; auto.
    + intros (d & y & [?|[?|?]] & ?); eauto 6.
  - intros s. rewrite !in_app_iff. intros [?|[?|?]]; auto.
Qed.

Lemma mix_species_container x l : mix_species x = Ok l ->
  container (rm_fuel x) /\ container (rm_oxidizer x) /\ container (rm_reactants x).
Proof.
  intro E. apply bind_ok in E as (a & A & E). apply bind_ok in E as (b & B & E). apply bind_ok in E as (c & C & E).
  apply iter_container in A, B, C. auto.
Qed.

(** ** Retention *)

Lemma yin_list s l : yin (YStr s) (YList l) = Ok true <-> In (YStr s) l.
Proof.
  simpl. split.
  - intro E. injection E as E. apply existsb_exists in E as (x & I & S). apply is_str_iff in S as ->. exact I.
  - intro I. f_equal. apply existsb_exists. exists (YStr s). split; [exact I|]. apply is_str_iff. reflexivity.
Qed.
Lemma yin_list_false s l : yin (YStr s) (YList l) = Ok false <-> ~ In (YStr s) l.
Proof.
  rewrite <- yin_list. simpl. destruct (existsb _ l); split; congruence.
Qed.

Lemma retain_spec ts sps : forall l, exists extra, retain (YList ts) (YList l) (map YStr sps) =
    Ok (YList (l ++ map YStr extra)) /\ NoDup extra /\
    forall s, In s extra <-> In s sps /\ ~ In (YStr s) ts /\ ~ In (YStr s) l.
Proof.
  induction sps as [|sp t IH]; intro l.
  - exists nil. cbn [retain map]. rewrite app_nil_r. split; [reflexivity|]. split; [constructor|]. simpl. tauto.
  - cbn [map retain].
    destruct (in_dec string_dec sp t) as [D|D].
    all: destruct (yin (YStr sp) (YList ts)) as [[]|e|] eqn:Y; [..|discriminate|discriminate]; cbn [bind].
    1,3: apply yin_list in Y; destruct (IH l) as (ex & E & ND & H); exists ex; split; [exact E|]; split; [exact ND|];
      intro s; rewrite H; simpl; split; [tauto|]; intros ([->|I] & N & K); [contradiction|auto].
    all: apply yin_list_false in Y; destruct (yin (YStr sp) (YList l)) as [[]|e|] eqn:Z; [..|discriminate|discriminate];
      cbn [bind].
    1,3: apply yin_list in Z; destruct (IH l) as (ex & E & ND & H); exists ex; split; [exact E|]; split; [exact ND|];
      intro s; rewrite H; simpl; split; [tauto|]; intros ([->|I] & N & K); [contradiction|auto].
    all: apply yin_list_false in Z; cbn [yappend bind];
      destruct (IH (l ++ [YStr sp])%list) as (ex & E & ND & H); exists (sp :: ex); rewrite E, <- app_assoc;
      split; [reflexivity|]; (split; [constructor; [|exact ND]; rewrite H, in_app_iff; simpl; tauto|]);
      intro s; simpl; rewrite H, in_app_iff; simpl; (split;
        [intros [->|(I & N & K)]; [auto|]; (split; [auto|]); tauto
        |intros ([->|I] & N & K); [auto|]; destruct (string_dec sp s) as [->|Ne]; [auto|]; right;
         (split; [exact I|]); split; [exact N|]; intros [?|[?|[]]]; [auto|congruence]]).
Qed.

Lemma nodup_app {A} (a b : list A) : NoDup a -> NoDup b -> (forall x, In x a -> ~ In x b) -> NoDup (a ++ b).
Proof.
  induction a as [|x t IH]; intros NA NB D; [exact NB|]. inversion NA; subst. simpl. constructor.
  - rewrite in_app_iff. intros [?|?]; [contradiction|]. eapply D; simpl; eauto.
  - apply IH; auto. intros y I. apply D. simpl; auto.
Qed.

Lemma retain_all_spec names ts xs :
  (forall x, In x xs -> mix_ok names x /\ container (rm_fuel x) /\ container (rm_oxidizer x) /\ container (rm_reactants x)) ->
  forall l, exists extra, retain_all (YList ts) (YList l) xs = Ok (YList (l ++ map YStr extra)) /\ NoDup extra /\
    incl extra names /\
    forall s, In s extra <-> (exists x, In x xs /\ names_species x s) /\ ~ In (YStr s) ts /\ ~ In (YStr s) l.
Proof.
  induction xs as [|x t IH]; intros H l.
  - exists nil. simpl. rewrite app_nil_r. split; [reflexivity|]. split; [constructor|]. split; [easy|].
    intro s. split; [easy|]. intros ((x & [] & _) & _).
  - destruct (H x (or_introl eq_refl)) as (MO & C1 & C2 & C3).
    destruct (mix_species_spec _ _ MO C1 C2 C3) as (sps & E & S & IN).
    destruct (retain_spec ts sps l) as (ex1 & R1 & ND1 & H1).
    destruct (IH (fun y I => H y (or_intror I)) (l ++ map YStr ex1)%list) as (ex2 & R2 & ND2 & I2 & H2).
    assert (U : forall s z, In (YStr s) (map YStr z) <-> In s z).
    { intros s z. rewrite in_map_iff. split; [intros (y & Ey & I); congruence|eauto]. }
    exists (ex1 ++ ex2)%list. cbn [retain_all]. rewrite E. cbn [bind]. rewrite R1. cbn [bind]. rewrite R2.
    split; [now rewrite map_app, app_assoc|]. split; [|split].
    + apply nodup_app; auto. intros s I J. apply H2 in J as (_ & _ & N). apply N. rewrite in_app_iff. right. now apply U.
    + intros s I. apply in_app_iff in I as [I|I]; [|auto]. apply H1 in I as (I & _). auto.
    + intro s. rewrite in_app_iff, H1, H2, in_app_iff, U, H1. split.
      * intros [(I & N & K)|((y & Y & Z) & N & K)].
        -- split; [|auto]. exists x. split; [simpl; auto|]. now apply S.
        -- split; [|tauto]. exists y. simpl; auto.
      * intros ((y & [->|Y] & Z) & N & K).
        -- left. split; [now apply S|auto].
        -- destruct (in_dec string_dec s sps) as [D|D]; [left; auto|]. right. split; [eauto|]. split; [exact N|].
           intros [?|(? & _)]; auto.
Qed.

(** ** The whole dictionary *)

Lemma field_list key d v : In key ["targets"; "retained-species"] -> lists_given d ->
  field key (YList nil) d v -> exists l, v = YList l.
Proof. intros K L [I|(-> & _)]; eauto. Qed.

Lemma field_cases key d v : In key ["autoignition-conditions"; "psr-conditions"; "laminar-flame-conditions"] ->
  yaml_input d -> field key (YDict nil) d v -> yaml_cases v.
Proof.
  intros K (_ & L) [I|(-> & _)]; eauto. split; [|easy]. simpl. split; constructor.
Qed.

Lemma each_names names l u : each (fun sp => check (name_in sp names)) l = Ok u <-> all_species names l.
Proof.
  rewrite each_ok, Forall_forall. unfold all_species. split; intros H v I; specialize (H v I).
  - apply check_ok in H. now apply name_in_iff.
  - apply check_ok. now apply name_in_iff.
Qed.

Lemma truth_not_blank v : ytrue v = true <-> ~ blank v.
Proof. rewrite <- truth_blank. destruct (ytrue v); split; congruence. Qed.

Lemma listed_blank v cs : listed v cs -> (ytrue v = false <-> cs = nil).
Proof. intros [->|(-> & [->| ->])]; simpl; [destruct cs|..]; split; congruence. Qed.

Lemma forall2_mix {R : yval -> raw_ign -> Prop} {S : raw_mix -> Prop} cs rs :
  Forall2 R cs rs -> (forall c r, R c r -> S (ri_mix r)) -> forall x, In x (map ri_mix rs) -> S x.
Proof. intros F H x I. apply in_map_iff in I as (r & <- & I). induction F; destruct I; subst; eauto. Qed.
Lemma forall2_mix_psr {R : yval -> raw_psr -> Prop} {S : raw_mix -> Prop} cs rs :
  Forall2 R cs rs -> (forall c r, R c r -> S (rp_mix r)) -> forall x, In x (map rp_mix rs) -> S x.
Proof. intros F H x I. apply in_map_iff in I as (r & <- & I). induction F; destruct I; subst; eauto. Qed.
Lemma forall2_mix_flame {R : yval -> raw_flame -> Prop} {S : raw_mix -> Prop} cs rs :
  Forall2 R cs rs -> (forall c r, R c r -> S (rf_mix r)) -> forall x, In x (map rf_mix rs) -> S x.
Proof. intros F H x I. apply in_map_iff in I as (r & <- & I). induction F; destruct I; subst; eauto. Qed.

Lemma mixes_ok names csi csp csf ri rp rf :
  Forall2 (ign_case names) csi ri -> Forall2 (psr_case names) csp rp -> Forall2 (flame_case names) csf rf ->
  forall x, In x (map ri_mix ri ++ map rp_mix rp ++ map rf_mix rf)%list -> mix_ok names x.
Proof.
  intros F1 F2 F3 x I. rewrite !in_app_iff in I. destruct I as [I|[I|I]].
  - eapply forall2_mix; [exact F1| |exact I]. intros c r (d & H). tauto.
  - eapply forall2_mix_psr; [exact F2| |exact I]. intros c r (d & H). tauto.
  - eapply forall2_mix_flame; [exact F3| |exact I]. intros c r (d & H). tauto.
Qed.

Lemma retain_all_containers ts safe xs v : retain_all ts safe xs = Ok v ->
  forall x, In x xs -> container (rm_fuel x) /\ container (rm_oxidizer x) /\ container (rm_reactants x).
Proof.
  revert safe. induction xs as [|x t IH]; intros safe E y I; [easy|]. cbn [retain_all] in E.
  apply bind_ok in E as (l & M & E). apply bind_ok in E as (s & _ & E).
  destruct I as [->|I]; [eapply mix_species_container; eauto|eauto].
Qed.

Tactic Notation "lifted" ident(E) ident(x) ident(w1) ident(G) :=
  apply mbind_ok in E as (x & w1 & G & E); apply mlift_ok in G as (G & ->).

Lemma parse_inv d w I d' w' : yaml_input d -> lists_given d -> parse_inputs (YDict d) w = (Ok (I, d'), w') ->
  w' = w /\ input_ok d w I /\
  (exists ts given, in_targets I = YList ts /\ field "retained-species" (YList nil) d (YList given) /\
     protects I given ts) /\
  d' = YDict (dreplace "retained-species" (in_safe I) d).
Proof.
  intros Y L E. pose proof Y as (W & _). unfold parse_inputs in E.
  lifted E model w1 G1. lifted E u1 w1 C1. lifted E error w1 G2. lifted E u2 w1 C2.
  lifted E method w1 G3. lifted E sa w1 G4. lifted E u3 w1 C3. lifted E targets w1 G5.
  apply mbind_ok in E as (u4 & w1 & C4 & E).
  assert (C4' : w1 = w /\ (ytrue method = true ->
            (is_str "DRG" method || is_str "DRGEP" method || is_str "PFA" method) = true /\ ytrue targets = true)).
  { destruct (ytrue method).
    - lifted C4 v w2 D1. apply mlift_ok in C4 as (D2 & ->). apply check_ok in D1, D2. auto.
    - apply mlift_ok in C4 as (_ & ->). split; [reflexivity|discriminate]. }
  clear C4. destruct C4' as (-> & C4).
  lifted E upper w1 G6. cbv zeta in E. lifted E stype w1 G7. lifted E safe w1 G8. lifted E phase w1 G9. lifted E floor w1 G10.
  destruct model as [| | | |model| |]; try discriminate E. destruct phase as [| | | |phase| |]; try discriminate E.
  apply mbind_ok in E as (sol & w1 & LD & E). apply load_iff in LD as (-> & LD).
  lifted E ts w1 T1. lifted E u5 w1 T2. lifted E ss w1 S1. lifted E u6 w1 S2.
  lifted E ci w1 G11. lifted E cp w1 G12. lifted E cf w1 G13. lifted E u7 w1 C5.
  apply (yget_iff _ _ _ _ W) in G1, G2, G3, G4, G5, G6, G7, G8, G9, G10, G11, G12, G13.
  apply mbind_ok in E as (ri & w1 & P1 & E).
  apply ign_cases_iff in P1 as (-> & sol1 & csi & L1 & LI1 & F1); [|eapply field_cases; [|exact Y|exact G11]; simpl; auto].
  apply mbind_ok in E as (rp & w1 & P2 & E).
  apply psr_cases_iff in P2 as (-> & sol2 & csp & L2 & LI2 & F2); [|eapply field_cases; [|exact Y|exact G12]; simpl; auto].
  apply mbind_ok in E as (rf & w1 & P3 & E).
  apply flame_cases_iff in P3 as (-> & sol3 & csf & L3 & LI3 & F3); [|eapply field_cases; [|exact Y|exact G13]; simpl; auto].
  assert (Hsol : forall s, holds w model phase s -> s = sol).
  { intros s (ps & A & B). destruct LD as (ps' & A' & B'). congruence. }
  apply Hsol in L1 as ->. apply Hsol in L2 as ->. apply Hsol in L3 as ->.
  lifted E safe' w1 R. injection E as <- <- <-.
  destruct (field_list "targets" d targets) as (tl & ->); [simpl; auto|exact L|exact G5|].
  destruct (field_list "retained-species" d safe) as (given & ->); [simpl; auto|exact L|exact G8|].
  simpl in T1, S1. injection T1 as <-. injection S1 as <-.
  apply each_names in T2, S2. apply check_ok in C1, C2, C3, C5.
  assert (CT := retain_all_containers _ _ _ _ R).
  split; [reflexivity|]. split; [|split; [|reflexivity]].
  - constructor; simpl.
    + split; [exact G1|]. simpl in C1. intros ->. discriminate.
    + split; [exact G2|]. now apply truth_not_blank.
    + exact G3.
    + exact G4.
    + intros (B1 & B2). apply truth_blank in B1, B2. rewrite B1, B2 in C3. discriminate.
    + intro B. apply truth_not_blank in B. apply C4 in B as (B & _).
      apply orb_true_iff in B as [B|B]; [apply orb_true_iff in B as [B|B]|]; apply is_str_iff in B as ->; simpl; auto.
    + exists upper. split; [exact G6|]. destruct (ytrue upper) eqn:U; simpl.
      * right. split; [|reflexivity]. left. now apply truth_not_blank.
      * apply truth_blank in U. destruct (ytrue sa) eqn:V; [left|right; split; [|reflexivity]; right; now apply truth_blank].
        split; [exact U|]. split; [|reflexivity]. now apply truth_not_blank.
    + exact G7.
    + exact G9.
    + exact G10.
    + exists sol, tl, given. split; [exact LD|]. split; [reflexivity|]. split; [exact G5|]. split; [exact T2|].
      split. { intros B ->. apply truth_not_blank in B. apply C4 in B as (_ & B). discriminate. }
      split; [exact G8|]. split; [exact S2|].
      exists ci, cp, cf, csi, csp, csf. split; [exact G11|]. split; [exact LI1|]. split; [exact G12|]. split; [exact LI2|].
      split; [exact G13|]. split; [exact LI3|]. split; [|auto].
      intros (-> & -> & ->).
      rewrite (proj2 (listed_blank _ _ LI1) eq_refl), (proj2 (listed_blank _ _ LI2) eq_refl),
        (proj2 (listed_blank _ _ LI3) eq_refl) in C5. discriminate.
    + exact CT.
  - exists tl, given. split; [reflexivity|]. split; [exact G8|].
    destruct (retain_all_spec (species_names sol) tl _
      (fun x I => conj (mixes_ok _ _ _ _ _ _ _ F1 F2 F3 x I) (CT x I)) given) as (extra & R' & ND & _ & H).
    exists extra. simpl. split; [congruence|]. split; [exact ND|]. exact H.
Qed.

Lemma check_true b : b = true -> check b = Ok tt.
Proof. now intros ->. Qed.

Lemma parse_fwd d w I : yaml_input d -> input_ok d w I ->
  exists safe' d', parse_inputs (YDict d) w = (Ok (with_safe I safe', d'), w).
Proof.
  intros Y H. pose proof Y as (W & _). destruct H.
  destruct io_model as (G1 & N1). destruct io_error as (G2 & N2).
  destruct io_upper as (u & G6 & U).
  destruct io_species as (sol & ts & given & LD & ET & G5 & T & TN & G8 & S & ci & cp & cf & csi & csp & csf &
    G11 & LI1 & G12 & LI2 & G13 & LI3 & NB & F1 & F2 & F3).
  rename io_method into G3. rename io_sa into G4. rename io_type into G7. rename io_phase into G9. rename io_floor into G10.
  assert (Y1 : yaml_cases ci) by (eapply field_cases; [|exact Y|exact G11]; simpl; auto).
  assert (Y2 : yaml_cases cp) by (eapply field_cases; [|exact Y|exact G12]; simpl; auto).
  assert (Y3 : yaml_cases cf) by (eapply field_cases; [|exact Y|exact G13]; simpl; auto).
  apply (yget_iff _ _ _ _ W) in G1, G2, G3, G4, G5, G6, G7, G8, G9, G10, G11, G12, G13.
  destruct (retain_all_spec (species_names sol) ts (case_mixes I)
      (fun x J => conj (mixes_ok _ _ _ _ _ _ _ F1 F2 F3 x J) (io_containers x J)) given) as (extra & R & _).
  exists (YList (given ++ map YStr extra)). eexists. unfold parse_inputs.
  unfold mbind at 1. unfold mlift at 1. rewrite G1.
  unfold mbind at 1. unfold mlift at 1. rewrite check_true by (simpl; apply negb_true_iff; now apply String.eqb_neq).
  unfold mbind at 1. unfold mlift at 1. rewrite G2.
  unfold mbind at 1. unfold mlift at 1. rewrite check_true by now apply truth_not_blank.
  unfold mbind at 1. unfold mlift at 1. rewrite G3.
  unfold mbind at 1. unfold mlift at 1. rewrite G4.
  unfold mbind at 1. unfold mlift at 1. rewrite check_true.
  2:{ apply orb_true_iff. destruct (ytrue (in_method I)) eqn:B1; [auto|]. destruct (ytrue (in_sa I)) eqn:B2; [auto|].
      exfalso. apply io_way. split; now apply truth_blank. }
  unfold mbind at 1. unfold mlift at 1. rewrite G5.
  unfold mbind at 1.
  replace ((if ytrue (in_method I)
     then mlift (check (is_str "DRG" (in_method I) || is_str "DRGEP" (in_method I) || is_str "PFA" (in_method I))) ;;;
          mlift (check (ytrue (YList ts)))
     else mret tt) w) with (@Ok unit tt, w).
  2:{ destruct (ytrue (in_method I)) eqn:B; [|reflexivity]. apply truth_not_blank in B.
      pose proof (io_known B) as K. specialize (TN B). unfold mbind, mlift.
      rewrite check_true.
      - rewrite check_true; [reflexivity|]. destruct ts; [congruence|reflexivity].
      - destruct K as [<-|[<-|[<-|[]]]]; reflexivity. }
  unfold mbind at 1. unfold mlift at 1. rewrite G6. cbv zeta.
  unfold mbind at 1. unfold mlift at 1. rewrite G7.
  unfold mbind at 1. unfold mlift at 1. rewrite G8.
  unfold mbind at 1. unfold mlift at 1. rewrite G9.
  unfold mbind at 1. unfold mlift at 1. rewrite G10.
  unfold mbind at 1. rewrite (proj2 (load_iff w _ _ sol w) (conj eq_refl LD)).
  unfold mbind at 1. unfold mlift at 1. cbn [yiter].
  unfold mbind at 1. unfold mlift at 1. rewrite (proj2 (each_names (species_names sol) ts tt) T).
  unfold mbind at 1. unfold mlift at 1.
  unfold mbind at 1. unfold mlift at 1. rewrite (proj2 (each_names (species_names sol) given tt) S).
  unfold mbind at 1. unfold mlift at 1. rewrite G11.
  unfold mbind at 1. unfold mlift at 1. rewrite G12.
  unfold mbind at 1. unfold mlift at 1. rewrite G13.
  unfold mbind at 1. unfold mlift at 1. rewrite check_true.
  2:{ rewrite !orb_true_iff. destruct (ytrue ci) eqn:B1; [auto|]. destruct (ytrue cp) eqn:B2; [auto|].
      destruct (ytrue cf) eqn:B3; [auto|]. exfalso. apply NB.
      split; [|split]; eapply listed_blank; eauto. }
  unfold mbind at 1. rewrite (proj2 (ign_cases_iff (in_model I) (in_phase I) ci w (in_ign I) w Y1)) by eauto 8.
  unfold mbind at 1. rewrite (proj2 (psr_cases_iff (in_model I) (in_phase I) cp w (in_psr I) w Y2)) by eauto 8.
  unfold mbind at 1. rewrite (proj2 (flame_cases_iff (in_model I) (in_phase I) cf w (in_flame I) w Y3)) by eauto 8.
  unfold mbind at 1. unfold mlift at 1. unfold case_mixes in R. rewrite R.
  unfold mret, with_safe. rewrite ET.
  replace (if negb (ytrue u) && ytrue (in_sa I) then YNum (Fin (1 # 10)) else u) with (in_upper I); [reflexivity|].
  destruct U as [(B1 & B2 & ->)|([B|B] & ->)].
  - apply truth_blank in B1. apply truth_not_blank in B2. now rewrite B1, B2.
  - apply truth_not_blank in B. now rewrite B.
  - apply truth_blank in B. rewrite B, andb_false_r. reflexivity.
Qed.
