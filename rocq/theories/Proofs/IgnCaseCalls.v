(** Facts about calls of the objects for ignition cases, one after the
    other; and what a steady network is. *)
From Coq Require Import String List QArith Qabs ZArith Bool Arith Lia Lqa.
From Verif.Base Require Import Py Num XNum Paths.
From Verif.Model Require Import Mech World Drivers Simulation Psr IgnCase.
From Verif.Spec Require Import SimSpec PsrSpec IgnCaseSpec.
From Verif.Proofs Require Import NumFacts SimFacts SimMore IgnCaseFacts.
Import ListNotations.

Lemma setup_new Ns path idx c m o : ign_setup Ns path idx c m = Ok o ->
  o = ob (Ns c m) c (h5_name path idx) 0 0 None.
Proof.
  unfold ign_setup. destruct (setup_gas _ _); try discriminate. cbn [bind]. intros H. injection H as <-. reflexivity.
Qed.

(** ** The same as the other parts of the model *)
Lemma as_ign_condition fuel Ns Ph path idx c m :
  ign_cond fuel (with_networks Ns Ph) c m =
  bind (ign_setup Ns path idx c m) (fun o => bind (fst (ign_calculate (A := ph_calc Ph) fuel o)) (fun d => Ok [Fin d])).
Proof.
  unfold ign_cond. destruct (setup_gas (ig_mix c) m) as [u| |] eqn:S; unfold ign_setup; rewrite S; try reflexivity.
  cbn [bind]. change (mkIgnObj c (h5_name path idx) (Ns c m) [] 0 None) with (ob (Ns c m) c (h5_name path idx) 0 0 None).
  rewrite calculate_new. reflexivity.
Qed.

Lemma as_ign_run fuel Ns Ph path idx c m o w : ign_setup Ns path idx c m = Ok o -> reinit_is_idle (Ns c m) ->
  forall r o' w', ign_run (A := ph_calc Ph) fuel false false o w = (r, o', w') ->
  (forall d, r = Ok (Some d) <-> fst (run_case (A := ph_calc Ph) fuel (ph_reactor (with_networks Ns Ph) c m) c (h5_name path idx) w) = Ok d) /\
  (forall e, r = Raise e <-> fst (run_case (A := ph_calc Ph) fuel (ph_reactor (with_networks Ns Ph) c m) c (h5_name path idx) w) = Raise e) /\
  w' = snd (run_case (A := ph_calc Ph) fuel (ph_reactor (with_networks Ns Ph) c m) c (h5_name path idx) w) /\
  (forall skip, fst (ign_process (A := ph_calc Ph) skip o' w') =
     bind (fst (process_results (A := ph_calc Ph) (h5_name path idx) w')) (fun x => Ok (fst x, if skip then None else Some (snd x)))).
Proof.
  intros H RI r o' w' E. apply setup_new in H. subst o.
  pose proof (run_new (CA := ph_calc Ph) (Ns c m) c (h5_name path idx) fuel None w RI) as Q. rewrite E in Q.
  cbn [ph_reactor with_networks]. rewrite Q. cbn [fst snd].
  assert (r <> Ok None) as NN.
  { unfold ign_run in E. cbn [andb] in E. destruct (obj_integrate _ _ _) as [[[ps flag]|e|] o1]; try congruence.
    destruct flag; congruence. }
  split; [|split; [|split]].
  - intros d. destruct r as [[q|]|e|]; cbn [bind]; split; congruence.
  - intros e. destruct r as [[q|]|e'|]; cbn [bind]; split; congruence.
  - reflexivity.
  - intros skip. rewrite process_new. replace (io_file o') with (h5_name path idx); [reflexivity|].
    clear - E. unfold ign_run in E. cbn [andb] in E.
    assert (forall stop fuel ps flag o, io_file (snd (obj_to_time (A := ph_calc Ph) fuel stop ps flag o)) = io_file o) as FT.
    { clear. intros stop. induction fuel as [|fuel IH]; intros ps flag o; cbn [obj_to_time]; destruct (Qlt_bool _ _); try reflexivity.
      cbn [take_step]. destruct (nt_ok _ _); [|reflexivity]. destruct (_ && _); [|rewrite IH; reflexivity].
      destruct stop; [reflexivity|rewrite IH; reflexivity]. }
    assert (forall stop todo mx ps flag o, io_file (snd (obj_to_steady (A := ph_calc Ph) todo stop mx ps flag o)) = io_file o) as FS.
    { clear. intros stop. induction todo as [|todo IH]; intros mx ps flag o; cbn [obj_to_steady]; [reflexivity|].
      cbn [take_step]. destruct (nt_ok _ _); [|reflexivity]. destruct (hot _ _ && negb flag); cbn [andb];
        [destruct stop; [reflexivity|]|]; (destruct (xlt _ _); [reflexivity|rewrite IH; reflexivity]). }
    assert (forall stop o, io_file (snd (obj_integrate (A := ph_calc Ph) fuel stop o)) = io_file o) as FI.
    { intros stop o. unfold obj_integrate. destruct (Qnz _); [apply FT|]. destruct (_ <? _)%Z; [reflexivity|].
      match goal with |- io_file (snd (match ?X with _ => _ end)) = _ =>
        pose proof (FS stop (Z.to_nat (max_steps (io_case (did EReinit o)))) (state_now (did EReinit o)) [now o] false (did EReinit o)) as Y;
        destruct X as [[[[a b] k]|e|] o1] end; cbn [snd] in *; rewrite Y; reflexivity. }
    pose proof (FI false (ob (Ns c m) c (h5_name path idx) 0 0 None)) as X.
    destruct (obj_integrate _ _ _) as [[[ps flag]|e|] o1]; cbn [snd] in X; injection E as _ <- _; symmetry; exact X.
Qed.

Section Calculations.
Context {CA : calc}.


(** ** Calls one after the other *)

(** What a call leaves as it was, and that the past only grows. *)
Definition same_case (o o' : ign_obj) : Prop :=
  io_case o' = io_case o /\ io_file o' = io_file o /\ io_net o' = io_net o /\ exists l, io_past o' = (l ++ io_past o)%list.

Lemma same_refl o : same_case o o.
Proof. repeat split; auto. exists []. reflexivity. Qed.
Lemma same_trans a b c : same_case a b -> same_case b c -> same_case a c.
Proof.
  intros (A1 & A2 & A3 & l & A4) (B1 & B2 & B3 & k & B4). repeat split; try congruence.
  exists (k ++ l)%list. rewrite B4, A4, app_assoc. reflexivity.
Qed.
Lemma same_did e o : same_case o (did e o).
Proof. repeat split; auto. exists [e]. reflexivity. Qed.
Lemma same_delay d o : same_case o (set_delay d o).
Proof. repeat split; auto. exists []. reflexivity. Qed.

Lemma been_now o : been_at o (now o).
Proof. exists [], (io_past o). split; reflexivity. Qed.
Lemma been_same o o' p : same_case o o' -> been_at o p -> been_at o' p.
Proof.
  intros (_ & _ & E & l & A) (x & y & P & ->). exists (l ++ x)%list, y. rewrite A, P, app_assoc, E. auto.
Qed.

(** [n] points, all visited. *)
Definition all_been (o : ign_obj) (ps : list point) : Prop := Forall (been_at o) ps.
Lemma all_same o o' ps : same_case o o' -> all_been o ps -> all_been o' ps.
Proof. intros S. apply Forall_impl. intros p. apply been_same. exact S. Qed.

Definition from_been (o : ign_obj) (d : Q) : Prop := d = 0%Q \/ exists p, been_at o p /\ d = p_time p.
Definition hot_been (o : ign_obj) (d : Q) : Prop :=
  exists p, been_at o p /\ d = p_time p /\ (c_plus (ig_T (io_case o)) 400 <= p_T p)%Q.
Lemma from_same o o' d : same_case o o' -> from_been o d -> from_been o' d.
Proof. intros S [H|(p & A & B)]; [left; auto|right]. exists p. split; [eapply been_same; eauto|auto]. Qed.
Lemma hot_same o o' d : same_case o o' -> hot_been o d -> hot_been o' d.
Proof. intros S (p & A & B & C). exists p. split; [eapply been_same; eauto|]. split; auto. destruct S as (-> & _). exact C. Qed.
Lemma hot_from o d : hot_been o d -> from_been o d.
Proof. intros (p & A & B & _). right. eauto. Qed.

(** What integration keeps. *)
Definition good (o0 : ign_obj) (flag : bool) (o : ign_obj) : Prop :=
  same_case o0 o /\ from_been o (io_delay o) /\ (flag = true -> hot_been o (io_delay o)).

Lemma good_step o0 flag o e : good o0 flag o -> good o0 flag (did e o).
Proof.
  intros (A & B & C). split; [eapply same_trans; [exact A|apply same_did]|]. split.
  - apply (from_same o); [apply same_did|exact B].
  - intros F. apply (hot_same o); [apply same_did|apply C; exact F].
Qed.
Lemma good_hot o0 flag o : good o0 flag o -> hot (ig_T (io_case o)) (p_T (now o)) = true ->
  good o0 true (set_delay (p_time (now o)) o).
Proof.
  intros (A & B & C) H.
  assert (hot_been (set_delay (p_time (now o)) o) (p_time (now o))) as X.
  { exists (now o). split; [apply (been_same o); [apply same_delay|apply been_now]|]. split; [reflexivity|now apply hot_iff]. }
  split; [eapply same_trans; [exact A|apply same_delay]|]. split; [apply hot_from; exact X|intros _; exact X].
Qed.

Lemma to_time_keeps o0 stop : forall fuel ps flag o, good o0 flag o -> all_been o ps ->
  match obj_to_time fuel stop ps flag o with
  | (Ok (ps', flag'), o') => good o0 flag' o' /\ all_been o' ps' /\ (ps <> [] -> ps' <> [])
  | (_, o') => exists flag', good o0 flag' o'
  end.
Proof.
  induction fuel as [|fuel IH]; intros ps flag o G A; cbn [obj_to_time]; destruct (Qlt_bool _ _); try (now split; auto); [eexists; exact G|].
  cbn [take_step]. pose proof (good_step _ _ _ EStep G) as G1. pose proof (all_same _ _ _ (same_did EStep o) A) as A1.
  set (o1 := did EStep o) in *. destruct (nt_ok (io_net o1) (io_past o1)); [|eexists; exact G1].
  assert (all_been o1 (ps ++ [now o1])) as A2.
  { apply Forall_app. split; [exact A1|]. constructor; [apply been_now|constructor]. }
  destruct (hot (ig_T (io_case o1)) (p_T (now o1))) eqn:H; cbn [andb].
  - destruct flag; cbn [negb].
    + specialize (IH (ps ++ [now o1])%list true o1 G1 A2). destruct (obj_to_time _ _ _ _ _) as [[[ps' flag']|e|] o'];
      try exact IH. destruct IH as (X & Y & Z). split; auto. split; auto. intros _. apply Z. now destruct ps.
    + pose proof (good_hot _ _ _ G1 H) as G2.
      pose proof (all_same _ _ _ (same_delay (p_time (now o1)) o1) A2) as A3. destruct stop.
      * split; auto. split; auto. intros _. now destruct ps.
      * specialize (IH (ps ++ [now o1])%list true _ G2 A3). destruct (obj_to_time _ _ _ _ _) as [[[ps' flag']|e|] o'];
        try exact IH. destruct IH as (X & Y & Z). split; auto. split; auto. intros _. apply Z. now destruct ps.
  - specialize (IH (ps ++ [now o1])%list flag o1 G1 A2). destruct (obj_to_time _ _ _ _ _) as [[[ps' flag']|e|] o'];
    try exact IH. destruct IH as (X & Y & Z). split; auto. split; auto. intros _. apply Z. now destruct ps.
Qed.

Lemma to_steady_keeps o0 stop : forall todo mx ps flag o, good o0 flag o -> all_been o ps ->
  match obj_to_steady todo stop mx ps flag o with
  | (Ok (ps', flag', _), o') => good o0 flag' o' /\ all_been o' ps' /\ (ps <> [] -> ps' <> [])
  | (_, o') => exists flag', good o0 flag' o'
  end.
Proof.
  induction todo as [|todo IH]; intros mx ps flag o G A; cbn [obj_to_steady]; [split; auto|].
  cbn [take_step]. pose proof (good_step _ _ _ EStep G) as G1. pose proof (all_same _ _ _ (same_did EStep o) A) as A1.
  set (o1 := did EStep o) in *. destruct (nt_ok (io_net o1) (io_past o1)); [|eexists; exact G1].
  assert (all_been o1 (ps ++ [now o1])) as A2.
  { apply Forall_app. split; [exact A1|]. constructor; [apply been_now|constructor]. }
  set (b := hot (ig_T (io_case o1)) (p_T (now o1)) && negb flag).
  set (o2 := if b then set_delay (p_time (now o1)) o1 else o1).
  assert (good o0 (flag || b) o2 /\ all_been o2 (ps ++ [now o1])) as (G2 & A3).
  { unfold o2. destruct b eqn:EB.
    - apply andb_true_iff in EB. destruct EB as (H & _). rewrite orb_true_r. split; [apply (good_hot _ _ _ G1 H)|].
      apply (all_same o1); [apply same_delay|exact A2].
    - rewrite orb_false_r. split; [exact G1|exact A2]. }
  assert ((ps ++ [now o1])%list <> []) as NE by now destruct ps.
  destruct (b && stop) eqn:EB.
  - apply andb_true_iff in EB. destruct EB as (EB & _). rewrite EB, orb_true_r in G2. split; auto.
  - destruct (xlt _ _); [split; auto|].
    specialize (IH (map2 xmax mx (state_now o2)) (ps ++ [now o1])%list (flag || b) o2 G2 A3).
    destruct (obj_to_steady _ _ _ _ _ _) as [[[[ps' flag'] k]|e|] o']; try exact IH.
    destruct IH as (X & Y & Z). split; auto.
Qed.

Lemma integrate_keeps fuel stop o : from_been o (io_delay o) ->
  match obj_integrate fuel stop o with
  | (Ok (ps', flag'), o') => good o flag' o' /\ all_been o' ps' /\ ps' <> []
  | (_, o') => exists flag', good o flag' o'
  end.
Proof.
  intros F. assert (good o false o) as G by (split; [apply same_refl|]; split; [exact F|discriminate]).
  assert (all_been o [now o]) as A by (constructor; [apply been_now|constructor]).
  unfold obj_integrate. destruct (Qnz _).
  - pose proof (to_time_keeps o stop fuel [now o] false o G A) as X.
    destruct (obj_to_time _ _ _ _ _) as [[[ps flag]|e|] o']; try exact X.
    destruct X as (X & Y & Z). split; auto. split; auto. apply Z. discriminate.
  - pose proof (good_step _ _ _ EReinit G) as G1. pose proof (all_same _ _ _ (same_did EReinit o) A) as A1.
    set (o1 := did EReinit o) in *. destruct (_ <? _)%Z; [eexists; exact G1|].
    pose proof (to_steady_keeps o stop (Z.to_nat (max_steps (io_case o1))) (state_now o1) [now o] false o1 G1 A1) as X.
    destruct (obj_to_steady _ _ _ _ _ _) as [[[[ps flag] k]|e|] o']; try exact X.
    destruct X as (X & Y & Z). destruct (Nat.eqb k 0); [eexists; exact X|]. split; auto. split; auto. apply Z. discriminate.
Qed.

Lemma calc_time_keeps o0 : forall fuel o, good o0 false o ->
  match obj_calc_time fuel o with
  | (Ok d, o') => good o0 false o' /\ d = io_delay o'
  | (_, o') => good o0 false o'
  end.
Proof.
  induction fuel as [|fuel IH]; intros o G; cbn [obj_calc_time]; destruct (Qlt_bool _ _); try (split; auto; fail); [exact G|].
  cbn [take_step]. pose proof (good_step _ _ _ EStep G) as G1. set (o1 := did EStep o) in *.
  destruct (nt_ok (io_net o1) (io_past o1)).
  - destruct (hot _ _) eqn:H; [|apply IH; exact G1]. split; [|reflexivity].
    destruct (good_hot _ _ _ G1 H) as (X & Y & _). split; auto. split; auto. discriminate.
  - split; [|reflexivity]. destruct G1 as (X & Y & _). split; [eapply same_trans; [exact X|apply same_delay]|].
    split; [left; reflexivity|discriminate].
Qed.
Lemma calc_steps_keeps o0 : forall todo o, good o0 false o ->
  good o0 false (snd (obj_calc_steps todo o)) /\ fst (obj_calc_steps todo o) = io_delay (snd (obj_calc_steps todo o)).
Proof.
  induction todo as [|todo IH]; intros o G; cbn [obj_calc_steps]; [split; auto|].
  cbn [take_step]. pose proof (good_step _ _ _ EStep G) as G1. set (o1 := did EStep o) in *.
  destruct (nt_ok (io_net o1) (io_past o1)).
  - destruct (hot _ _) eqn:H; [|apply IH; exact G1]. split; [|reflexivity].
    destruct (good_hot _ _ _ G1 H) as (X & Y & _). split; auto. split; auto. discriminate.
  - split; [|reflexivity]. destruct G1 as (X & Y & _). cbn [snd]. split; [eapply same_trans; [exact X|apply same_delay]|].
    split; [left; reflexivity|discriminate].
Qed.
Lemma calculate_keeps fuel o : from_been o (io_delay o) ->
  match ign_calculate fuel o with
  | (Ok d, o') => good o false o' /\ d = io_delay o'
  | (_, o') => good o false o'
  end.
Proof.
  intros F. assert (good o false o) as G by (split; [apply same_refl|]; split; [exact F|discriminate]).
  unfold ign_calculate. destruct (Qnz _); [apply calc_time_keeps; exact G|]. destruct (_ <? _)%Z; [exact G|].
  pose proof (calc_steps_keeps o (Z.to_nat (max_steps (io_case o))) o G) as X.
  destruct (obj_calc_steps _ _) as [d o']. exact X.
Qed.

(** The file of the object: none, or visited points. *)
Definition own_file (o : ign_obj) (w : world) : Prop :=
  match w_fs w (io_file o) with
  | None => True
  | Some (FProfile ps) => all_been o ps
  | _ => False
  end.
Lemma own_same o o' w : same_case o o' -> own_file o w -> own_file o' w.
Proof.
  intros S. unfold own_file. pose proof S as (_ & -> & _). destruct (w_fs w (io_file o)) as [[]|]; auto.
  apply all_same. exact S.
Qed.

Lemma first_hot_in T0 ps : first_hot T0 ps = 0%Q \/ exists p, In p ps /\ first_hot T0 ps = p_time p.
Proof.
  induction ps as [|p ps IH]; cbn [first_hot]; auto. destruct (hot _ _); [right; exists p; split; auto; left; reflexivity|].
  destruct IH as [IH|(q & A & B)]; auto. right. exists q. split; auto. right. exact A.
Qed.

Lemma rows_in ps rows row : sample_profile ps = Ok rows -> In row rows ->
  (forall x, In x row -> x = 0%Q) \/ exists p, In p ps /\ row = p_T p :: p_P p :: p_Y p.
Proof.
  intros H I. destruct (profile_rows _ _ H) as (_ & p0 & _ & R). destruct (R row I) as [->|(p & P & ->)]; [left|right].
  - intros x X. apply repeat_spec in X. exact X.
  - exists p. split; [exact P|reflexivity].
Qed.

Lemma put_own o w ps : all_been o ps -> own_file o (snd (put_file (io_file o) (FProfile ps) w)).
Proof. intros A. unfold own_file, put_file. cbn [snd w_fs]. rewrite fs_set_same. exact A. Qed.

Lemma do_keeps fuel k o w : from_been o (io_delay o) -> own_file o w ->
  let '(r, o', w') := ign_do fuel k o w in
  same_case o o' /\ from_been o' (io_delay o') /\ own_file o' w' /\ about_visited o' k r /\
  (forall d x, r = Ok (Some d, x) -> io_delay o' = d).
Proof.
  intros F W. destruct k as [stop restart| |skip|]; cbn [ign_do].
  - unfold ign_run. destruct (restart && _).
    { cbn [bind]. split; [apply same_refl|]. split; auto. split; auto. split; [|congruence].
      intros d rows E. injection E as <- <-. split; [discriminate|discriminate]. }
    pose proof (integrate_keeps fuel stop o F) as X.
    destruct (obj_integrate fuel stop o) as [[[ps flag]|e|] o'].
    + destruct X as ((S & FB & HB) & A & NE).
      assert (own_file o' (snd (put_file (io_file o') (FProfile ps) w))) as OF by (apply put_own; exact A).
      destruct flag; cbn [bind].
      * split; auto. split; auto. split; auto. split; [|intros d x E; injection E as <- _; reflexivity].
        intros d rows E. injection E as <- <-. split; [|discriminate].
        intros q E. injection E as <-. apply HB. reflexivity.
      * split; auto. split; auto. split; auto. split; [|congruence]. intros d rows E. discriminate.
    + destruct X as (flag & S & FB & _). cbn [bind]. split; auto. split; auto. split; [eapply own_same; eauto|].
      split; [|congruence]. intros d rows E. discriminate.
    + destruct X as (flag & S & FB & _). cbn [bind]. split; auto. split; auto. split; [eapply own_same; eauto|].
      split; [|congruence]. intros d rows E. discriminate.
  - pose proof (calculate_keeps fuel o F) as X. destruct (ign_calculate fuel o) as [[d|e|] o'].
    + destruct X as ((S & FB & _) & ->). cbn [bind]. split; auto. split; auto. split; [eapply own_same; eauto|].
      split; [|intros d x E; injection E as <- _; reflexivity].
      intros d rows E. injection E as <- <-. split; [|discriminate]. intros q E. injection E as <-. exact FB.
    + destruct X as (S & FB & _). cbn [bind]. split; auto. split; auto. split; [eapply own_same; eauto|].
      split; [|congruence]. intros d rows E. discriminate.
    + destruct X as (S & FB & _). cbn [bind]. split; auto. split; auto. split; [eapply own_same; eauto|].
      split; [|congruence]. intros d rows E. discriminate.
  - assert (forall e, let '(r, o', w') := (@Raise (option Q * option (list (list Q))) e, o, w) in
      same_case o o' /\ from_been o' (io_delay o') /\ own_file o' w' /\ about_visited o' (CallIgnProcess skip) r /\
      (forall d x, r = Ok (Some d, x) -> io_delay o' = d)) as BAD.
    { intros e. split; [apply same_refl|]. split; auto. split; auto. split; [|congruence]. intros d rows E. discriminate. }
    unfold ign_process. unfold own_file in W. destruct (w_fs w (io_file o)) as [[ | | |[|p0 t]| ]|] eqn:EF; try (apply BAD); try contradiction.
    set (d := first_hot (p_T p0) (p0 :: t)).
    assert (same_case o (set_delay d o)) as S by apply same_delay.
    assert (from_been (set_delay d o) d) as FB.
    { apply (from_same o); [exact S|]. destruct (first_hot_in (p_T p0) (p0 :: t)) as [E|(p & IP & E)]; [left; exact E|].
      right. exists p. split; [|exact E]. apply (proj1 (Forall_forall _ _) W). exact IP. }
    assert (own_file o w) as OF by (unfold own_file; rewrite EF; exact W).
    destruct skip; cbn [bind fst snd].
    + split; auto. split; auto. split; [eapply own_same; eauto|]. split; [|intros q x E; injection E as <- _; reflexivity].
      intros q rows E. injection E as <- <-. split; [|discriminate]. intros q E. injection E as <-. exact FB.
    + destruct (sample_profile (p0 :: t)) as [rows|e|] eqn:SP; cbn [bind fst snd].
      * assert (same_case o (set_rows rows (set_delay d o))) as S2.
        { repeat split; auto. exists []. reflexivity. }
        split; auto. split; [destruct FB as [FB|(p & A & B)]; [left; exact FB|right; exists p; split; [|exact B]]|].
        { apply (been_same (set_delay d o)); [|exact A]. repeat split; auto. exists []. reflexivity. }
        split; [apply (own_same o); auto|]. split; [|intros q x E; injection E as <- _; reflexivity].
        intros q l E. injection E as <- <-. split.
        -- intros q E. injection E as <-. apply (from_same (set_delay d o)); [|exact FB]. repeat split; auto. exists []. reflexivity.
        -- intros l row E I. injection E as <-. destruct (rows_in _ _ _ SP I) as [Z|(p & IP & E)]; [left; exact Z|].
           right. exists p. split; [|exact E]. apply (been_same o); [exact S2|]. apply (proj1 (Forall_forall _ _) W). exact IP.
      * split; auto. split; auto. split; [eapply own_same; eauto|]. split; [|congruence]. intros q rows E. discriminate.
      * split; auto. split; auto. split; [eapply own_same; eauto|]. split; [|congruence]. intros q rows E. discriminate.
  - split; [apply same_refl|]. split; auto. split; [|split; [|congruence]].
    + unfold own_file, clean, remove_file. destruct (w_fs w (io_file o)) eqn:E; cbn [snd w_fs]; [rewrite fs_set_same; exact I|rewrite E; exact I].
    + intros d rows E. injection E as <- <-. split; discriminate.
Qed.

Lemma about_same o o' k r : same_case o o' -> about_visited o k r -> about_visited o' k r.
Proof.
  intros S A d rows E. destruct (A d rows E) as (X & Y). split.
  - intros q Q. specialize (X q Q). destruct k; [apply (hot_same o); auto|apply (from_same o); auto..].
  - intros l row L I. destruct (Y l row L I) as [Z|(p & P & Q)]; [left; exact Z|right]. exists p. split; [eapply been_same; eauto|exact Q].
Qed.

Lemma calls_keep fuel : forall ks o w, from_been o (io_delay o) -> own_file o w ->
  let '(rs, o', w') := ign_calls fuel ks o w in
  same_case o o' /\ from_been o' (io_delay o') /\ own_file o' w' /\ Forall2 (about_visited o') ks rs.
Proof.
  induction ks as [|k ks IH]; intros o w F W; cbn [ign_calls].
  - split; [apply same_refl|]. split; auto.
  - pose proof (do_keeps fuel k o w F W) as X. destruct (ign_do fuel k o w) as [[r o1] w1].
    destruct X as (S1 & F1 & W1 & A1 & _). specialize (IH o1 w1 F1 W1). destruct (ign_calls fuel ks o1 w1) as [[rs o2] w2].
    destruct IH as (S2 & F2 & W2 & A2). split; [eapply same_trans; eauto|]. split; auto. split; auto.
    constructor; [eapply about_same; eauto|exact A2].
Qed.

Lemma calls_visited Ns fuel path idx c m o ks w rs o' w' :
  ign_setup Ns path idx c m = Ok o -> w_fs w (h5_name path idx) = None ->
  ign_calls fuel ks o w = (rs, o', w') -> io_case o' = c /\ io_net o' = Ns c m /\ Forall2 (about_visited o') ks rs.
Proof.
  intros S N H. apply setup_new in S. subst o.
  pose proof (calls_keep fuel ks (ob (Ns c m) c (h5_name path idx) 0 0 None) w (or_introl eq_refl)) as X.
  rewrite H in X. destruct X as (Y & _ & _ & Z).
  - unfold own_file. cbn [io_file ob]. rewrite N. exact I.
  - destruct Y as (Y1 & Y2 & Y3 & _). auto.
Qed.

Lemma calls_app fuel ks k : forall o w,
  ign_calls fuel (ks ++ [k]) o w =
  let '(rs, o1, w1) := ign_calls fuel ks o w in
  let '(r, o2, w2) := ign_do fuel k o1 w1 in ((rs ++ [r])%list, o2, w2).
Proof.
  induction ks as [|k0 ks IH]; intros o w; cbn [app ign_calls].
  - destruct (ign_do fuel k o w) as [[r o2] w2]. reflexivity.
  - destruct (ign_do fuel k0 o w) as [[r o2] w2]. rewrite IH.
    destruct (ign_calls fuel ks o2 w2) as [[rs o3] w3]. destruct (ign_do fuel k o3 w3) as [[r' o4] w4]. reflexivity.
Qed.

(** ** process_results again *)
Lemma process_repeats fuel : forall ks o w, (forall k, In k ks -> exists s, k = CallIgnProcess s) ->
  let '(rs, o', w') := ign_calls fuel ks o w in
  w' = w /\ io_past o' = io_past o /\ io_file o' = io_file o /\
  Forall2 (fun k r => r = fst (fst (ign_do fuel k o w))) ks rs.
Proof.
  induction ks as [|k ks IH]; intros o w A; cbn [ign_calls]; [auto|].
  destruct (A k (or_introl eq_refl)) as (s & ->).
  assert (forall s, snd (ign_do fuel (CallIgnProcess s) o w) = w) as SW.
  { intros s'. cbn [ign_do]. destruct (ign_process s' o w). reflexivity. }
  assert (io_past (snd (fst (ign_do fuel (CallIgnProcess s) o w))) = io_past o /\
          io_file (snd (fst (ign_do fuel (CallIgnProcess s) o w))) = io_file o) as (SP & SF).
  { cbn [ign_do]. unfold ign_process. destruct (w_fs w (io_file o)) as [[ | | |[|p0 t]| ]|]; try (split; reflexivity).
    destruct s; [split; reflexivity|]. destruct (sample_profile _); split; reflexivity. }
  specialize (SW s). destruct (ign_do fuel (CallIgnProcess s) o w) as [[r o1] w1] eqn:E. cbn [fst snd] in *. subst w1.
  specialize (IH o1 w (fun k I => A k (or_intror I))). destruct (ign_calls fuel ks o1 w) as [[rs o2] w2].
  destruct IH as (-> & P2 & F2 & B). split; [reflexivity|]. split; [congruence|]. split; [congruence|].
  constructor; [rewrite E; reflexivity|].
  assert (forall k, In k ks -> fst (fst (ign_do fuel k o1 w)) = fst (fst (ign_do fuel k o w))) as Q.
  { intros k I. destruct (A k (or_intror I)) as (s' & ->).
    assert (forall o, fst (fst (ign_do fuel (CallIgnProcess s') o w)) =
       bind (fst (ign_process s' o w)) (fun x => Ok (Some (fst x), snd x))) as Y.
    { intros a. cbn [ign_do]. destruct (ign_process s' a w). reflexivity. }
    rewrite !Y, !process_new, SF. reflexivity. }
  clear - B Q. induction B as [|k r ks rs HB B IH]; constructor.
  - rewrite HB. apply Q. left. reflexivity.
  - apply IH. intros k' I. apply Q. right. exact I.
Qed.

(** ** A second call *)

Lemma run_then fuel fuel' Ns path idx c m o w d o' w' stop :
  ign_setup Ns path idx c m = Ok o -> reinit_is_idle (Ns c m) -> Qnz (ig_end c) = true ->
  ign_run fuel false false o w = (Ok (Some d), o', w') ->
  ign_calculate fuel' o' = (Ok d, o') /\
  exists w2, ign_run fuel' stop false o' w' = (Raise RuntimeError, o', w2) /\
    (let T := p_T (nt_point (io_net o') (io_past o')) in (T < c_plus T 400)%Q -> fst (ign_process true o' w2) = Ok (0%Q, None)).
Proof.
  intros S RI QE H. apply setup_new in S. subst o.
  pose proof (integrate_new (Ns c m) c (h5_name path idx) fuel None RI) as X. unfold ign_run in H. cbn [andb] in H.
  destruct (obj_integrate _ _ _) as [[[ps flag]|e|] o1]; try discriminate.
  destruct X as (_ & C1 & C2 & C3 & X & _). destruct flag; [|discriminate]. injection H as <- <- <-.
  destruct (X QE) as (n & EO & TE).
  assert (Qlt_bool (p_time (now o1)) (ig_end (io_case o1)) = false) as TF by (rewrite C1; now apply Qlt_bool_false).
  split.
  - unfold ign_calculate. rewrite C1, QE. destruct fuel'; cbn [obj_calc_time]; rewrite TF; reflexivity.
  - unfold ign_run, obj_integrate. cbn [andb]. rewrite C1, QE.
    assert (obj_to_time fuel' stop [now o1] false o1 = (Ok ([now o1], false), o1)) as ->.
    { destruct fuel'; cbn [obj_to_time]; rewrite TF; reflexivity. }
    eexists. split; [reflexivity|]. cbv zeta. intros LT. unfold ign_process, put_file. cbn [snd w_fs]. rewrite fs_set_same.
    cbn [first_hot]. assert (hot (p_T (now o1)) (p_T (now o1)) = false) as ->; [|reflexivity].
    apply hot_false. apply LT.
Qed.

Lemma restart_skips fuel stop o w : w_fs w (io_file o) <> None -> ign_run fuel stop true o w = (Ok None, o, w).
Proof. intros H. unfold ign_run. cbn [andb]. destruct (w_fs w (io_file o)); [reflexivity|contradiction]. Qed.
Lemma restart_runs fuel stop o w : w_fs w (io_file o) = None -> ign_run fuel stop true o w = ign_run fuel stop false o w.
Proof. intros H. unfold ign_run. rewrite H. reflexivity. Qed.

(** calculate twice *)
Lemma calc_time_at N c f x k t : ignites (reactor_of N) (ig_T c) k t -> forall fuel n d, (n < k <= n + fuel)%nat ->
  (forall j, (n <= j < k)%nat -> exists t, time_at (reactor_of N) j t /\ (t < ig_end c)%Q) ->
  obj_calc_time fuel (ob N c f n d x) = (Ok t, ob N c f k t x).
Proof.
  intros I. induction fuel as [|fuel IH]; intros n d K T; [lia|]. cbn [obj_calc_time]. rewrite now_ob. cbn [io_case ob].
  destruct (T n) as (u & U & L); [lia|]. rewrite (time_val N _ _ U) in L. apply Qlt_bool_iff in L. rewrite L.
  rewrite step_ob. destruct (Nat.eq_dec k (S n)) as [->|NE].
  - destruct (ignites_ok N c _ _ I) as (-> & H & <-). rewrite now_ob. cbn [io_case ob]. rewrite H. reflexivity.
  - destruct (before_ok N c _ _ (S n) I) as (-> & H); [lia|]. rewrite now_ob. cbn [io_case ob]. rewrite H.
    apply IH; [lia|]. intros j J. apply T. lia.
Qed.
Lemma calc_steps_at N c f x k t : ignites (reactor_of N) (ig_T c) k t -> forall todo n d, (n < k <= n + todo)%nat ->
  obj_calc_steps todo (ob N c f n d x) = (t, ob N c f k t x).
Proof.
  intros I. induction todo as [|todo IH]; intros n d K; [lia|]. cbn [obj_calc_steps].
  rewrite step_ob. destruct (Nat.eq_dec k (S n)) as [->|NE].
  - destruct (ignites_ok N c _ _ I) as (-> & H & <-). rewrite now_ob. cbn [io_case ob]. rewrite H. reflexivity.
  - destruct (before_ok N c _ _ (S n) I) as (-> & H); [lia|]. rewrite now_ob. cbn [io_case ob]. rewrite H.
    apply IH. lia.
Qed.

Lemma calculate_twice fuel Ns path idx c m o k d p :
  ign_setup Ns path idx c m = Ok o -> let R := reactor_of (Ns c m) in
  ignites R (ig_T c) k d -> in_reach R c (S k) -> (Qnz (ig_end c) = true -> (k <= fuel)%nat) ->
  ra_step R (S k) = Some p -> (c_plus (ig_T c) 400 <= p_T p)%Q ->
  fst (ign_calculate fuel o) = Ok d /\ fst (ign_calculate fuel (snd (ign_calculate fuel o))) = Ok (p_time p).
Proof.
  intros S R I RE FU SK HP. apply setup_new in S. subst o. pose proof I as (P & _).
  unfold R in SK. rewrite ra_step_of in SK. destruct (nt_ok _ (steps_of (S k))) eqn:OK; [|discriminate]. injection SK as <-.
  apply hot_iff in HP. unfold ign_calculate. cbn [io_case ob]. unfold in_reach in RE. change steps_allowed with max_steps in RE. destruct (Qnz (ig_end c)) eqn:QE.
  - specialize (FU eq_refl). rewrite (calc_time_at _ c _ None k d I fuel 0 0); [|lia|intros j J; apply RE; lia].
    split; [reflexivity|]. cbn [snd io_case ob]. rewrite QE. destruct fuel as [|fuel]; [lia|]. cbn [obj_calc_time].
    rewrite now_ob. cbn [io_case ob]. destruct (RE k) as (u & U & L); [lia|]. rewrite (time_val _ _ _ U) in L. apply Qlt_bool_iff in L. rewrite L.
    rewrite step_ob, OK, now_ob. cbn [io_case ob]. rewrite HP. reflexivity.
  - destruct (Z.ltb_spec (max_steps c) 0) as [|LE]; [lia|].
    rewrite (calc_steps_at _ c _ None k d I _ 0 0); [|lia]. cbn [fst snd io_case ob]. rewrite QE. split; [reflexivity|].
    destruct (Z.ltb_spec (max_steps c) 0) as [|_]; [lia|].
    destruct (Z.to_nat (max_steps c)) as [|n] eqn:EN; [lia|]. cbn [obj_calc_steps].
    rewrite step_ob, OK, now_ob. cbn [io_case ob]. rewrite HP. reflexivity.
Qed.

(** ** Stopping early gives the same delay *)
Lemma stop_same fuel Ns path idx c m o w d o' w' :
  ign_setup Ns path idx c m = Ok o -> reinit_is_idle (Ns c m) ->
  starts_at (reactor_of (Ns c m)) (ig_T c) ->
  ign_run fuel false false o w = (Ok (Some d), o', w') ->
  exists o2 w2, ign_run fuel true false o w = (Ok (Some d), o2, w2) /\ fst (ign_process true o2 w2) = Ok (d, None).
Proof.
  intros S RI ET H. apply setup_new in S. subst o.
  pose proof (run_new (Ns c m) c (h5_name path idx) fuel None w RI) as X. rewrite H in X. cbn [bind] in X.
  assert (fst (run_case fuel (reactor_of (Ns c m)) c (h5_name path idx) w) = Ok d) as Y by now rewrite X.
  apply run_case_iff in Y. destruct Y as (n & k & EN & K & I).
  destruct (stop_new (Ns c m) c (h5_name path idx) fuel None w d RI) as (A & B).
  destruct (B k) as (o2 & w2 & E).
  - split; [exact I|]. change steps_allowed with max_steps. unfold ended in EN. destruct (Qnz (ig_end c)).
    + destruct EN as ((_ & T) & _). intros j J. apply T. lia.
    + destruct EN as (LE & (_ & _ & _ & T) & L). split; [lia|]. intros j J. apply T. lia.
  - unfold ended in EN. intros QE. rewrite QE in EN. lia.
  - exists o2, w2. split; [exact E|]. destruct (A o2 w2 E) as (k' & (I' & _) & _ & RC & _ & ->).
    rewrite process_new. assert (io_file o2 = h5_name path idx) as ->.
    { unfold ign_run in E. cbn [andb] in E.
      pose proof (integrate_keeps fuel true (ob (Ns c m) c (h5_name path idx) 0 0 None) (or_introl eq_refl)) as Z.
      destruct (obj_integrate _ _ _) as [[[ps flag]|e|] o1]; try discriminate.
      destruct Z as (((_ & Z & _) & _) & _). injection E as _ <- _. exact Z. }
    destruct RC as (qs & EQ & RC). 
    unfold process_results, mbind, get_file, mlift, mret. cbn [w_fs]. rewrite fs_set_same, EQ.
    destruct (sample_profile_ok (ra_init (reactor_of (Ns c m))) qs) as (rows & ->). cbn [fst bind snd].
    rewrite <- EQ. rewrite (first_hot_recorded (reactor_of (Ns c m)) (ig_T c) k' (pts (Ns c m) k') k' d); auto.
    exists qs. split; [exact EQ|exact RC].
Qed.

(** ** Steady networks *)
Lemma map2_nth g : forall (a b : vec) i x y, nth_error a i = Some x -> nth_error b i = Some y ->
  nth_error (map2 g a b) i = Some (g x y).
Proof.
  unfold map2. induction a as [|u a IH]; intros [|v b] [|i] x y A B; cbn in *; try discriminate.
  - congruence.
  - apply IH; auto.
Qed.

Lemma greatest_is N : decent N -> forall n i x0, nth_error (state_at N 0) i = Some (Fin x0) ->
  exists j z, (j <= n)%nat /\ nth_error (state_at N j) i = Some (Fin z) /\ nth_error (greatest N n) i = Some (Fin z) /\ (x0 <= z)%Q.
Proof.
  intros (_ & _ & _ & LE & FI & _). induction n as [|n IH]; intros i x0 E.
  - exists 0%nat, x0. split; [lia|]. split; auto. split; [exact E|lra].
  - destruct (IH i x0 E) as (j & z & J & A & B & L). cbn [greatest].
    assert (i < length (state_at N (S n)))%nat as LI by (rewrite LE; apply nth_error_Some; congruence).
    destruct (nth_error (state_at N (S n)) i) as [y|] eqn:EY; [|apply nth_error_None in EY; lia].
    destruct (FI (S n) y) as (q & ->); [eapply nth_error_In; exact EY|].
    pose proof (map2_nth xmax _ _ _ _ _ B EY) as M. unfold state_at in M. fold (steps_of (S n)) in M.
    unfold xmax in M. cbn [is_nan xlt] in M. destruct (Qlt_bool z q) eqn:Z.
    + exists (S n), q. split; [lia|]. split; auto. split; [exact M|]. apply Qlt_bool_iff in Z. lra.
    + exists j, z. split; [lia|]. split; auto.
Qed.

Lemma small_unchanged N n : decent N -> (1 <= n)%nat -> ra_small (reactor_of N) n = true -> nearly_unchanged N n.
Proof.
  intros D LN SM i x y r EX EY ER. pose proof D as (NB & AT & (r' & ER' & RP) & LE & FI & NN).
  rewrite ER in ER'. injection ER' as <-.
  assert (i < length (state_at N 0))%nat as LI by (rewrite <- (LE n); apply nth_error_Some; congruence).
  destruct (nth_error (state_at N 0) i) as [x0|] eqn:E0; [|apply nth_error_None in E0; lia].
  destruct (FI 0%nat x0) as (q0 & ->); [eapply nth_error_In; exact E0|].
  pose proof (NN q0 (nth_error_In _ _ E0)) as P0.
  destruct (greatest_is N D n i q0 E0) as (j & z & J & A & B & L).
  exists j, z. split; auto. split; auto. split; [lra|].
  cbn [ra_small reactor_of] in SM. unfold residual in SM. rewrite ER in SM.
  set (v := map2 xdiv _ _) in SM.
  assert (xlt (nt_norm N v) (Fin (10 * nt_rtol N * r)) = true) as SN.
  { destruct (nt_norm N v) as [q| | |]; cbn [xdiv] in SM.
    - destruct (Qeq_bool r 0) eqn:R0; [apply Qeq_bool_iff in R0; lra|]. cbn [xlt] in *. apply Qlt_bool_iff in SM. apply Qlt_bool_iff.
      apply (Qmult_lt_r _ _ r) in SM; [|exact RP]. unfold Qdiv in SM.
      assert (q * / r * r == q)%Q as RR by (field; lra). rewrite RR in SM. exact SM.
    - destruct (Qlt_bool r 0) eqn:R0; [apply Qlt_bool_iff in R0; lra|]. discriminate.
    - reflexivity.
    - discriminate. }
  pose proof (NB v _ SN) as F. rewrite Forall_forall in F.
  assert (nth_error v i = Some (xdiv (xsub (Fin y) (Fin x)) (xadd (Fin z) (Fin (nt_atol N))))) as EV.
  { unfold v. apply map2_nth.
    - unfold vsub. apply (map2_nth xsub); assumption.
    - rewrite nth_error_map, B. reflexivity. }
  destruct (F _ (nth_error_In _ _ EV)) as (q & EQ & BQ). cbn in EQ.
  destruct (Qeq_bool (z + nt_atol N) 0) eqn:Z0; [apply Qeq_bool_iff in Z0; lra|]. injection EQ as <-.
  assert (0 < z + nt_atol N)%Q as ZP by lra.
  unfold Qdiv in BQ. rewrite Qabs_Qmult in BQ. rewrite (Qabs_pos (/ (z + nt_atol N))) in BQ by (apply Qinv_le_0_compat; lra).
  apply (Qmult_lt_r _ _ (z + nt_atol N)) in BQ; [|exact ZP].
  assert (Qabs (y + - x) * / (z + nt_atol N) * (z + nt_atol N) == Qabs (y + - x))%Q as RR by (field; lra).
  rewrite RR in BQ. exact BQ.
Qed.

Lemma run_settles fuel Ns path idx c m o w d o' w' :
  ign_setup Ns path idx c m = Ok o -> reinit_is_idle (Ns c m) -> Qnz (ig_end c) = false -> decent (Ns c m) ->
  ign_run fuel false false o w = (Ok (Some d), o', w') ->
  exists n, (1 <= n)%nat /\ (Z.of_nat n < max_steps c)%Z /\ io_past o' = (repeat EStep n ++ [EReinit])%list /\
    nearly_unchanged (Ns c m) n.
Proof.
  intros S RI QE D H. apply setup_new in S. subst o.
  pose proof (integrate_new (Ns c m) c (h5_name path idx) fuel None RI) as X. unfold ign_run in H. cbn [andb] in H.
  destruct (obj_integrate _ _ _) as [[[ps flag]|e|] o1]; try discriminate.
  destruct X as (_ & _ & _ & _ & _ & X). destruct (X QE) as (n & EO & (P & _ & SM & _) & L).
  destruct flag; [|discriminate]. injection H as _ <- _. exists n. split; auto. split; auto.
  split; [rewrite EO; reflexivity|]. apply small_unchanged; auto.
Qed.

Lemma stop_returns Ns fuel path idx c m o w d :
  ign_setup Ns path idx c m = Ok o -> reinit_is_idle (Ns c m) ->
  let R := reactor_of (Ns c m) in
  (forall o' w', ign_run fuel true false o w = (Ok (Some d), o', w') ->
     exists k ps, stops_at R c k d /\ recorded R k ps /\ io_delay o' = d /\
       w_fs w' (h5_name path idx) = Some (FProfile ps) /\
       forall f, f <> h5_name path idx -> w_fs w' f = w_fs w f) /\
  (forall k, stops_at R c k d -> (k <= fuel)%nat ->
     exists o' w', ign_run fuel true false o w = (Ok (Some d), o', w')).
Proof.
  intros S RI R. apply setup_new in S. subst o.
  destruct (stop_new (Ns c m) c (h5_name path idx) fuel None w d RI) as (A & B). split.
  - intros o' w' E. destruct (A o' w' E) as (k & ST & _ & RC & D & ->). exists k, (pts (Ns c m) k).
    split; [exact ST|]. split; [exact RC|]. split; [exact D|]. cbn [w_fs]. split; [apply fs_set_same|].
    intros f NF. unfold fs_set. apply String.eqb_neq in NF. rewrite NF. reflexivity.
  - intros k ST L. apply (B k ST). auto.
Qed.

End Calculations.
