(** More about the whole program: DRG with sensitivity analysis, and the
    command line. *)
From Coq Require Import String List QArith Bool Arith Lia Lqa.
From Verif.Base Require Import Py Num XNum Paths.
From Verif.Model Require Import Mech Matrices Graph World Metrics Drivers Sensitivity Simulation Sampling Inputs Main.
From Verif.Spec Require Import TrimSpec GraphSpec MetricSpec DriverSpec SensitivitySpec SimSpec SamplingSpec InputSpec MainSpec.
From Verif.Proofs Require Import PyFacts NumFacts TrimFacts DriverFacts SimMore SaFacts SaPkg InputFacts InputMore MainFacts MainEnd.
Import ListNotations.
Local Open Scope string_scope.

Lemma mixture_missing fuel Ph floor C m os s : in_mixture C s -> ~ In s (species_names m) ->
  forall e, error_of (conds_of fuel Ph floor C) os m <> Ok e.
Proof.
  intros H N. apply unsupported_escapes.
  destruct H as [(c & I & M)|[(c & I & M)|(c & I & M)]]; [left|right; left|right; right]; exists c;
    (split; [exact I|]); intros S; apply N; now apply S.
Qed.

(** Sensitivity analysis that has to try such a species does not succeed. *)
Lemma sa_tries K w tmp tmp2 sol fuel fu Ph floor C s : sa_started K w tmp tmp2 sol ->
  s_conds K = conds_of fu Ph floor C -> in_mixture C s -> In s (given_limbo w (s_limbo K)) ->
  forall r w', run_sa fuel tmp tmp2 K w <> (Ok r, w').
Proof.
  intros SS CS IM G r w' E. destruct (run_eq K w tmp tmp2 sol fuel SS) as (R & w2 & E2 & ER & _).
  rewrite E in E2. injection E2 as <- _.
  destruct (fst (sample_metrics (s_file K) (s_phase K) (s_conds K) true w)) as [ref|e|]; try discriminate.
  cbn [bind] in ER.
  assert (In s (fst (start_list K w sol))) as IL.
  { unfold start_list. destruct (given_limbo w (s_limbo K)) as [|x l]; [destruct G|]. destruct (s_limbo K); exact G. }
  unfold p_run in ER. destruct (mapM _ (fst (start_list K w sol))) as [errs|e|] eqn:M; try discriminate.
  apply mapM_ok in M. clear - M IL IM CS. revert M. generalize errs. induction (fst (start_list K w sol)) as [|x l IH]; [destruct IL|].
  intros ys F. inversion F; subst. destruct IL as [->|IL]; [|eapply IH; eauto].
  unfold score in H1. destruct (without (s_phase K) sol s) as [m'|?|] eqn:W; try discriminate. cbn [bind] in H1.
  rewrite CS in H1. eapply mixture_missing; [exact IM| |exact H1].
  unfold without in W. destruct (trim_mech_ok _ _ _ _ _ W) as (E & _). unfold species_names. rewrite E.
  intros I. apply trim_names_in in I. destruct I as [_ N]. apply N. now left.
Qed.

(** DRG finds every target in the list of species to try. *)
Lemma drg_sa_aborts B K floor C a w sol s : prepared K C a w sol -> well_posed K floor C sol ->
  a_method a = "DRG" -> a_sa a = true -> truthy (a_upper a) = true -> temps_ok w (a_path a) B ->
  In s (a_targets a) -> in_mixture C s ->
  forall r w', main_on exactA floor5 floor6 B K floor C a w <> (Ok r, w').
Proof.
  intros RD WP NA SA UP TE IT IM r w' E. unfold main_on in E.
  set (cs := conds_of (k_fuel K) (k_physics K) floor C) in *.
  rewrite (main_graph DRG) in E by (auto; apply RD). rewrite exact_floor in E.
  destruct (run DRG exactA (floor_of DRG) (b_thr B) (b_path B) (graph_job a cs) (sampler_for K floor C a) (a_limit a) w)
    as [[r1|e|] w2] eqn:R; try discriminate.
  rewrite SA in E.
  destruct (run_sampled K floor C a B w sol RD _ _ _ R) as (ref & rops & w1 & S).
  pose proof (sampling K floor C a w sol RD (k_rates K) _ _ _ S) as SO.
  pose proof (is_fair K floor C a w sol RD _ _ _ SO WP) as FA. pose proof (so_started K floor C a w sol RD _ _ _ SO) as ST.
  pose proof (temps_after K floor C a B w sol _ _ _ _ SO TE) as TE1.
  pose proof (after_started DRG a cs B _ w sol ref rops w1 ST FA r1 w2 R TE1) as SS.
  assert (rops <> nil) as NE by (apply (so_rops _ _ _ _ _ _ _ _ _ _ SO), (WP ref), SO).
  destruct (driver_limbo _ _ _ _ _ _ _ _ _ ST _ _ _ _ _ _ R) as ((ss & EL & L) & _).
  eapply (sa_tries _ _ _ _ _ _ _ _ _ _ s SS); [reflexivity|exact IM| |exact E].
  cbn [sa_with s_limbo]. rewrite EL. cbn [given_limbo].
  cbn [j_upper graph_job] in L. rewrite NA in L. change (String.eqb "DRG" "PFA") with false in L. cbv iota in L.
  rewrite UP in L. apply L. destruct rops as [|q qs]; [contradiction|].
  exists (create_drg_matrix (kin_of sol q)), s. split; [left; reflexivity|]. split; [exact IT|]. constructor.
  now apply (rd_targets _ _ _ _ _ RD).
Qed.

(** ** The command line *)

Lemma rsplit_app c l a b : rsplit c l = Some (a, b) -> l = (a ++ b)%list.
Proof.
  revert a b. induction l as [|x t IH]; cbn [rsplit]; [discriminate|]. intros a b.
  destruct (rsplit c t) as [[a' b']|].
  - intros E. injection E as <- <-. cbn [app]. now rewrite (IH a' b').
  - destruct (Ascii.eqb x c); [|discriminate]. intros E. injection E as <- <-. reflexivity.
Qed.

Lemma after_slash_app l : exists p, l = (p ++ after_slash l)%list.
Proof.
  unfold after_slash. destruct (rsplit slash l) as [[a b]|] eqn:E; [|now exists nil].
  apply rsplit_app in E. destruct b as [|x b]; [exists a; exact E|]. exists (a ++ [x])%list. rewrite <- app_assoc. exact E.
Qed.

Lemma string_app a b : string_of_list_ascii (a ++ b) = string_of_list_ascii a ++ string_of_list_ascii b.
Proof. induction a as [|x a IH]; cbn; [reflexivity|]. now rewrite IH. Qed.

Lemma splitext_ends p : exists b, p = b ++ snd (splitext p).
Proof.
  assert (forall q, q = q ++ "") as N by (intros q; induction q as [|c q IH]; cbn; congruence).
  unfold splitext. destruct (rsplit dot _) as [[b e]|] eqn:E; [|now exists p].
  destruct (all_dots b); [now exists p|]. cbn [snd].
  apply rsplit_app in E. destruct (after_slash_app (list_ascii_of_string p)) as [q Q]. rewrite E in Q.
  exists (string_of_list_ascii (q ++ b)). rewrite <- string_app, <- app_assoc, <- Q.
  symmetry. apply string_of_list_ascii_of_string.
Qed.

Lemma yaml_name_ends m : yaml_name m = true -> exists b, m = b ++ ".yaml" \/ m = b ++ ".yml".
Proof.
  unfold yaml_name. intros H. apply str_in_iff in H. destruct (splitext_ends m) as [b E]. exists b.
  destruct H as [H|[H|[]]]; rewrite <- H in E; auto.
Qed.

Lemma parse_model dict w I d' w' : parse_inputs dict w = (Ok (I, d'), w') ->
  yget "model" (YStr "") dict = Ok (YStr (in_model I)).
Proof.
  intros E. unfold parse_inputs in E.
  lifted E model w1 G1. lifted E u1 w1 C1. lifted E error w1 G2. lifted E u2 w1 C2.
  lifted E method w1 G3. lifted E sa w1 G4. lifted E u3 w1 C3. lifted E targets w1 G5.
  apply mbind_ok in E as (u4 & w2 & C4 & E).
  lifted E upper w3 G6. lifted E st w3 G7. lifted E safe w3 G8. lifted E phase w3 G9. lifted E fl w3 G10.
  destruct model; try discriminate. destruct phase; try discriminate.
  apply mbind_ok in E as (gas & w4 & _ & E).
  lifted E ts w5 G11. lifted E u5 w5 G12. lifted E ss w5 G13. lifted E u6 w5 G14. lifted E ci w5 G15. lifted E cp w5 G16.
  lifted E cf w5 G17. lifted E u7 w5 G18.
  apply mbind_ok in E as (ri & w6 & _ & E). apply mbind_ok in E as (rp & w7 & _ & E). apply mbind_ok in E as (rf & w8 & _ & E).
  lifted E safe' w9 G19. injection E as <- _ _. exact G1.
Qed.

Lemma cli_other_model read convert run d m n o w w1 : dict_ok d -> In (YStr "model", YStr m) d ->
  (forall b, m <> b ++ ".yaml") -> (forall b, m <> b ++ ".yml") ->
  o_convert o = false -> read (o_input o) w = (Ok (YDict d), w1) ->
  (forall x w', pymars read convert run n o w <> (Ok x, w')) /\
  (forall run', pymars read convert run' n o w = pymars read convert run n o w).
Proof.
  intros W I N1 N2 CV RD.
  assert (forall J d' w2, parse_inputs (YDict d) w1 = (Ok (J, d'), w2) -> yaml_name (in_model J) = false) as NY.
  { intros J d' w2 P. apply parse_model in P. apply yget_iff in P; [|exact W].
    assert (in_model J = m) as ->.
    { destruct P as [P|[_ P]]; [|exfalso; eapply P; eauto].
      assert (YStr (in_model J) = YStr m) as X; [|now injection X].
      pose proof (proj2 (yget_iff "model" (YStr "") d (YStr (in_model J)) W) (or_introl P)) as G1.
      pose proof (proj2 (yget_iff "model" (YStr "") d (YStr m) W) (or_introl I)) as G2. congruence. }
    destruct (yaml_name m) eqn:Y; [|reflexivity]. destruct (yaml_name_ends _ Y) as (b & [E|E]); exfalso; [eapply N1|eapply N2]; eauto. }
  assert (exists y, (forall x w', y <> (Ok x, w')) /\ forall run, pymars read convert run n o w = y) as (y & Y1 & Y2).
  { unfold pymars. rewrite CV. destruct (Nat.eqb n 0); [eexists; split; [|reflexivity]; discriminate|].
    destruct (o_version o); [eexists; split; [|reflexivity]; discriminate|].
    destruct (String.eqb (o_input o) ""); [eexists; split; [|reflexivity]; discriminate|].
    unfold mbind. rewrite RD.
    destruct (parse_inputs (YDict d) w1) as [[[J d']|e|] w2] eqn:P; try (eexists; split; [|reflexivity]; discriminate).
    cbn [fst]. rewrite (NY _ _ _ eq_refl). eexists; split; [|reflexivity]. intros x w'.
    destruct (convert (in_model J) (o_path o) w2) as [[u|e|] w3]; discriminate. }
  rewrite Y2. split; auto.
Qed.

Lemma cli_converted read convert run n o w w1 dict I d' w2 u w3 :
  n <> 0%nat -> o_version o = false -> o_convert o = false -> o_input o <> "" ->
  read (o_input o) w = (Ok dict, w1) -> parse_inputs dict w1 = (Ok (I, d'), w2) ->
  (forall b, in_model I <> b ++ ".yaml") -> (forall b, in_model I <> b ++ ".yml") ->
  convert (in_model I) (o_path o) w2 = (Ok u, w3) ->
  pymars read convert run n o w = (Raise AttributeError, w3).
Proof.
  intros N V CV IN RD P N1 N2 C. unfold pymars. rewrite V, CV. apply Nat.eqb_neq in N. rewrite N.
  apply String.eqb_neq in IN. rewrite IN. unfold mbind at 1. rewrite RD. unfold mbind at 1. rewrite P. cbn [fst].
  destruct (yaml_name (in_model I)) eqn:Y.
  - destruct (yaml_name_ends _ Y) as (b & [E|E]); exfalso; [eapply N1|eapply N2]; eauto.
  - unfold mbind. rewrite C. reflexivity.
Qed.

(** A run of the program that succeeds is one of [main]. *)
Lemma cli_is_main read convert A fl5 fl6 B K other n o d w I d' a C floor x w' :
  o_convert o = false -> read (o_input o) w = (Ok d, w) -> parse_inputs d w = (Ok (I, d'), w) ->
  main_args I (o_path o) = Some a -> typed_cases I = Some C -> ymaybe (in_floor I) = Some floor ->
  pymars read convert (run_main_of A fl5 fl6 B K other) n o w = (Ok x, w') ->
  exists r, main_on A fl5 fl6 B K floor C a w = (Ok r, w').
Proof.
  intros CV RD P MA TC FL E. unfold pymars in E. rewrite CV in E. destruct (Nat.eqb n 0); [discriminate|].
  destruct (o_version o); [discriminate|]. destruct (String.eqb (o_input o) ""); [discriminate|].
  unfold mbind at 1 in E. rewrite RD in E. unfold mbind at 1 in E. rewrite P in E. cbn [fst] in E.
  destruct (yaml_name (in_model I)).
  - unfold run_main_of in E. rewrite MA, TC, FL in E. unfold mbind in E.
    destruct (main_on A fl5 fl6 B K floor C a w) as [[r|e|] w2]; try discriminate. injection E as _ <-. eauto.
  - unfold mbind in E. destruct (convert (in_model I) (o_path o) w) as [[u|e|] w3]; discriminate.
Qed.

Lemma main_args_ok I path a : main_args I path = Some a ->
  a_file a = in_model I /\ ynum (in_error I) = Some (a_limit a) /\ ystring (in_method I) = Some (a_method a) /\
  ynames (in_targets I) = Some (a_targets a) /\ ynames (in_safe I) = Some (a_safe a) /\ a_phase a = in_phase I /\
  a_sa a = ytrue (in_sa I) /\ ymaybe (in_upper I) = Some (a_upper a) /\ a_path a = path.
Proof.
  unfold main_args. destruct (ynum (in_error I)); [|discriminate]. destruct (ystring (in_method I)); [|discriminate].
  destruct (ynames (in_targets I)); [|discriminate]. destruct (ynames (in_safe I)); [|discriminate].
  destruct (ymaybe (in_upper I)); [|discriminate]. destruct (ystring (in_type I)); [|discriminate].
  intros E. injection E as <-. cbn. repeat split.
Qed.

Lemma upper_truthy d w I u : input_ok d w I -> ytrue (in_sa I) = true -> ymaybe (in_upper I) = Some u -> truthy u = true.
Proof.
  intros IO SA U. apply truth_not_blank in SA. destruct (io_upper _ _ _ IO) as (v & _ & [(_ & _ & E)|([NB|B] & E)]).
  - rewrite E in U. injection U as <-. reflexivity.
  - rewrite E in U. unfold ymaybe in U. assert (~ blank v) as NB' by exact NB. apply truth_not_blank in NB.
    destruct v as [|b|z|x|s|l|l]; try discriminate; unfold yfin in U; cbn [ynum] in U.
    + destruct b; [injection U as <-; reflexivity|discriminate].
    + injection U as <-. cbn [truthy ytrue] in *. unfold Qnz. rewrite negb_true_iff. apply not_true_is_false. intros Z.
      apply Qeq_bool_iff in Z. destruct (Z.eqb_spec z 0); [discriminate|]. apply n. unfold Qeq in Z. cbn in Z. lia.
    + destruct x as [q| | |]; try discriminate. injection U as <-. cbn [truthy ytrue] in *. exact NB.
  - contradiction.
Qed.
