(** Models written to files and read back. *)
From Coq Require Import String Ascii List Bool.
From Verif.Base Require Import Py Paths.
From Verif.Model Require Import Mech World.
From Verif.Spec Require Import TrimSpec TextSpec ExportSpec DriverSpec WriteSpec Samples.
From Verif.Proofs Require Import PyFacts TrimFacts SampleFacts StepFacts ExportFacts.
Import ListNotations.
Local Open Scope string_scope.

Lemma join_relative d f : directory d -> relative f -> path_join d f = inside d f.
Proof.
  intros D [N R]. destruct f as [|c f]; [congruence|]. unfold path_join.
  destruct (Ascii.eqb_spec c slash) as [->|_]; [exfalso; exact (R f eq_refl)|].
  unfold inside. destruct (last_char d) as [l|] eqn:E.
  - destruct (last_char_snoc d l E) as [t T].
    destruct (Ascii.eqb_spec l slash) as [->|_]; [exfalso; exact (D t T)|].
    destruct (String.eqb_spec d "") as [->|_]; [destruct t; discriminate|]. reflexivity.
  - rewrite (last_char_none d E). reflexivity.
Qed.

Lemma append_nonempty a c b : a ++ String c b <> "".
Proof. destruct a; discriminate. Qed.

Lemma yaml_write_named m name f path w : goes_to m name f -> yaml_write m name path w = yaml_write m f path w.
Proof.
  intros [f' _|]; [reflexivity|]. unfold yaml_write. cbn [String.eqb].
  destruct (String.eqb_spec (m_name m ++ ".yaml") "") as [E|_]; [exfalso; revert E; apply append_nonempty|reflexivity].
Qed.

Lemma wrote_replaced w f m w' : wrote w f m w' -> replaced w f m w'.
Proof.
  intros [W S]. split; [|split; [|exact S]].
  - rewrite W, String.eqb_refl. reflexivity.
  - intros g N. rewrite W. apply String.eqb_neq in N. rewrite N. reflexivity.
Qed.

Lemma write_replaces : forall w m name f d,
  directory d -> goes_to m name f -> relative f ->
  exists w', yaml_write m name d w = (Ok (inside d f), w') /\ replaced w (inside d f) m w'.
Proof.
  intros w m name f d D G R. rewrite (yaml_write_named m name f d w G).
  destruct (yaml_write_eq w m f d (proj1 R)) as (w' & Y & W). rewrite (join_relative d f D R) in Y, W.
  exists w'. split; [exact Y|]. apply wrote_replaced, W.
Qed.

Lemma find_phase ph l m : finds l ph m <-> pick_phase l ph = Ok m.
Proof.
  unfold pick_phase. destruct (String.eqb_spec ph "") as [->|N].
  - split.
    + intros [[_ [t ->]]|[X _]]; [reflexivity|congruence].
    + intros E. left. split; [reflexivity|]. destruct l as [|x t]; [discriminate|]. injection E as ->. exists t. reflexivity.
  - split.
    + intros [[X _]|[_ [E [a [b [-> F]]]]]]; [congruence|].
      assert (find (fun x => String.eqb (m_name x) ph) (a ++ m :: b) = Some m) as ->; [|reflexivity].
      induction a as [|x a IH]; cbn.
      * rewrite E, String.eqb_refl. reflexivity.
      * destruct (String.eqb_spec (m_name x) ph) as [X|_]; [exfalso; exact (F x (or_introl eq_refl) X)|].
        apply IH. intros y I. apply F. right. exact I.
    + intros E. right. split; [exact N|].
      destruct (find (fun x => String.eqb (m_name x) ph) l) as [y|] eqn:Y; [|discriminate]. injection E as ->.
      assert (m_name m = ph) as X.
      { apply find_some in Y. destruct Y as [_ Y]. apply String.eqb_eq in Y. exact Y. }
      split; [exact X|]. revert Y. induction l as [|x l IH]; [discriminate|]. cbn.
      destruct (String.eqb_spec (m_name x) ph) as [Z|Z].
      * intros Y. injection Y as ->. exists nil, l. split; [reflexivity|]. intros ? [].
      * intros Y. destruct (IH Y) as [a [b [-> F]]]. exists (x :: a), b. split; [reflexivity|].
        intros z [<-|I]; [exact Z|exact (F z I)].
Qed.

Lemma model_in_holds w f ph m : model_in w f ph m <-> holds w f ph m.
Proof. split; intros [l [A B]]; exists l; (split; [exact A|]); apply find_phase, B. Qed.

Lemma load_model_in w f ph m : model_in w f ph m <-> load f ph w = (Ok m, w).
Proof.
  rewrite model_in_holds. unfold holds, load, mbind, get_file. destruct (w_fs w f) as [[l|?|?|?|]|].
  - unfold mlift. split.
    + intros [k [E P]]. injection E as <-. rewrite P. reflexivity.
    + intros E. injection E as E. exists l. split; [reflexivity|exact E].
  - split; [intros [k [E _]]; discriminate|discriminate].
  - split; [intros [k [E _]]; discriminate|discriminate].
  - split; [intros [k [E _]]; discriminate|discriminate].
  - split; [intros [k [E _]]; discriminate|discriminate].
  - split; [intros [k [E _]]; discriminate|discriminate].
Qed.

Lemma load_written : forall w f m w' phase,
  replaced w f m w' ->
  load f phase w' = (if String.eqb phase "" || String.eqb phase (m_name m) then Ok m else Raise CanteraError, w').
Proof.
  intros w f m w' ph [W _]. unfold load, mbind, get_file. rewrite W. unfold mlift, pick_phase. f_equal.
  destruct (String.eqb ph ""); [reflexivity|]. cbn. rewrite (String.eqb_sym ph).
  destruct (String.eqb (m_name m) ph); reflexivity.
Qed.

Lemma written_found : forall w f m w' phase,
  replaced w f m w' ->
  (phase = "" \/ phase = m_name m -> load f phase w' = (Ok m, w')) /\
  (phase <> "" -> phase <> m_name m -> load f phase w' = (Raise CanteraError, w')).
Proof.
  intros w f m w' ph R. rewrite (load_written w f m w' ph R).
  destruct (String.eqb_spec ph "") as [N|N]; destruct (String.eqb_spec ph (m_name m)) as [E|E]; cbn; split; intros; try congruence; tauto.
Qed.

Lemma trimmed_name : forall sol excl d b e phase m,
  stem b -> extension e ->
  trim_mech sol excl (inside d b ++ e) phase = Ok m ->
  (phase = "" -> m_name m = inside d b) /\ (phase <> "" -> m_name m = phase) /\
  m_transport m = m_transport sol /\ m_TP m = m_TP sol.
Proof.
  intros sol excl d b e ph m S X. unfold trim_mech. rewrite (splitext_inside d b e S X). cbn [fst].
  destruct (trim_species sol excl) as [|x l]; [discriminate|]. intros E. injection E as <-. cbn.
  destruct (String.eqb_spec ph "") as [->|N]; repeat split; congruence.
Qed.

Lemma trim_steps_files : forall w file phase sol A B f1 f2 name d m w1 g w2,
  model_in w file phase sol -> wf_mech sol -> no_multi_explicit sol ->
  trim file A f1 phase w = (Ok m, w1) -> yaml_write m name d w1 = (Ok g, w2) ->
  model_in w2 g phase m /\
  exists r, trim g B f2 phase w2 = (r, w2) /\ trim file (A ++ B) f2 phase w = (r, w).
Proof.
  intros w file ph sol A B f1 f2 name d m w1 g w2 H WF NM T Y.
  apply load_model_in in H. unfold trim, mbind in T |- *. rewrite H in T |- *. unfold mlift in T |- *.
  injection T as T <-.
  assert (exists f, goes_to m name f) as [f G].
  { destruct (String.eqb_spec name "") as [->|N]; [eexists; apply goes_default|eexists; apply goes_asked; exact N]. }
  rewrite (yaml_write_named m name f d w G) in Y.
  assert (f <> "") as N by (destruct G; [assumption|apply append_nonempty]).
  destruct (yaml_write_eq w m f d N) as (w' & Y' & W). rewrite Y in Y'. injection Y' as -> ->.
  assert (holds w' (path_join d f) ph m) as L.
  { apply wrote_holds with w; [exact W|]. eapply trim_phase. exact T. }
  apply model_in_holds in L. split; [exact L|].
  apply load_model_in in L. rewrite L. eexists. split; [reflexivity|].
  rewrite (trim_compose sol A B f1 f2 ph m WF NM T). reflexivity.
Qed.

(** Without a phase name the trimmed model is not called like the original. *)
Lemma trim_loses_name : forall w d b e sol A name dir m w1 g w2,
  stem b -> extension e ->
  model_in w (inside d b ++ e) "" sol ->
  trim (inside d b ++ e) A ("reduced_" ++ inside d b ++ e) "" w = (Ok m, w1) ->
  yaml_write m name dir w1 = (Ok g, w2) ->
  m_name sol <> "" -> m_name sol <> "reduced_" ++ inside d b ->
  load g "" w2 = (Ok m, w2) /\ load g (m_name sol) w2 = (Raise CanteraError, w2).
Proof.
  intros w d b e sol A name dir m w1 g w2 S X H T Y N1 N2.
  apply load_model_in in H. unfold trim, mbind in T. rewrite H in T. unfold mlift in T. injection T as T0 <-.
  assert (trim_mech sol A (("reduced_" ++ inside d b) ++ e) "" = Ok m) as T by exact T0. clear T0.
  assert (m_name m = "reduced_" ++ inside d b) as NM.
  { destruct (String.eqb_spec d "") as [->|Nd].
    - assert (stem ("reduced_" ++ b)) as S2.
      { destruct S as (_ & S1 & S2). split; [discriminate|]. split; cbn; repeat (split; [reflexivity|]); assumption. }
      change ("reduced_" ++ inside "" b) with (inside "" ("reduced_" ++ b)) in T |- *.
      exact (proj1 (trimmed_name sol A "" ("reduced_" ++ b) e "" m S2 X T) eq_refl).
    - assert ("reduced_" ++ inside d b = inside ("reduced_" ++ d) b) as E.
      { unfold inside. apply String.eqb_neq in Nd. rewrite Nd. reflexivity. }
      rewrite E in T |- *.
      exact (proj1 (trimmed_name sol A ("reduced_" ++ d) b e "" m S X T) eq_refl). }
  assert (exists f, goes_to m name f) as [f G].
  { destruct (String.eqb_spec name "") as [->|N]; [eexists; apply goes_default|eexists; apply goes_asked; exact N]. }
  rewrite (yaml_write_named m name f dir w G) in Y.
  assert (f <> "") as N by (destruct G; [assumption|apply append_nonempty]).
  destruct (yaml_write_eq w m f dir N) as (w' & Y' & W). rewrite Y in Y'. injection Y' as -> ->.
  apply wrote_replaced in W. split.
  - apply (proj1 (written_found w _ m w' "" W)). left. reflexivity.
  - apply (proj2 (written_found w _ m w' (m_name sol) W)); congruence.
Qed.
