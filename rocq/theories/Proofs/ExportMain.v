(** The files of [write] and [convert]. *)
From Coq Require Import String Ascii List Bool Arith ZArith QArith Lia.
From Verif.Base Require Import Py Num XNum Paths Text.
From Verif.Model Require Import Chem Compare Chemkin.
From Verif.Spec Require Import TextSpec ChemkinSpec CardSpec ExportSpec.
From Verif.Proofs Require Import FormatFacts TextFacts WrapFacts ChemkinFacts CardFacts ExportFacts.
Import ListNotations.
Local Open Scope string_scope.

Section Write.
Variable repr : xnum -> string.
Variable ar : arith.

Lemma thermo_ok_iff s : (exists t, thermo_entry s = Ok t) <-> cs_coeffs s <> nil.
Proof.
  unfold thermo_entry. destruct (cs_coeffs s) as [|m l]; cbn [item nth_error bind]; split; intros H; try congruence.
  - destruct H as [t H]. discriminate.
  - eauto.
Qed.
Lemma get_number_ok a t x : get_number a t = Ok x -> exists d, t = Some d /\ dget a d = Some (TNum x).
Proof.
  unfold get_number, get_attr. destruct t as [d|]; [|discriminate]. destruct (dget a d) as [v|] eqn:E; [|discriminate].
  cbn [attr bind]. destruct v as [y| |]; try discriminate. intros H. injection H as ->. eauto.
Qed.
Lemma geometry_iff g : (exists d, dget g geometries = Some d) <-> shape g <> None.
Proof.
  unfold shape, geometries. cbn [dget].
  destruct (String.eqb_spec g "atom") as [->|N1]; [split; [discriminate|eauto]|].
  destruct (String.eqb_spec g "linear") as [->|N2]; [split; [discriminate|eauto]|].
  destruct (String.eqb_spec g "nonlinear") as [->|N3]; [split; [discriminate|eauto]|].
  split; [intros [d H]; discriminate|congruence].
Qed.
Lemma transport_ok_iff s : (exists t, transport_entry ar s = Ok t) <-> transport_data s.
Proof.
  unfold transport_entry, transport_data. split.
  - intros [t H]. destruct (get_attr "geometry" (cs_transport s)) as [g| |] eqn:G; try discriminate. cbn [bind] in H.
    destruct g as [|g|]; try discriminate. destruct (dget g geometries) as [d|] eqn:D; try discriminate. cbn [bind] in H.
    destruct (get_number "well_depth" (cs_transport s)) as [x1| |] eqn:E1; try discriminate. cbn [bind] in H.
    destruct (get_number "diameter" (cs_transport s)) as [x2| |] eqn:E2; try discriminate. cbn [bind] in H.
    destruct (get_number "dipole" (cs_transport s)) as [x3| |] eqn:E3; try discriminate. cbn [bind] in H.
    destruct (get_number "polarizability" (cs_transport s)) as [x4| |] eqn:E4; try discriminate. cbn [bind] in H.
    destruct (get_number "rotational_relaxation" (cs_transport s)) as [x5| |] eqn:E5; try discriminate.
    apply get_number_ok in E1, E2, E3, E4, E5. destruct E1 as [tr [T E1]]. rewrite T in *.
    destruct E2 as [? [Q2 E2]]. injection Q2 as <-. destruct E3 as [? [Q3 E3]]. injection Q3 as <-.
    destruct E4 as [? [Q4 E4]]. injection Q4 as <-. destruct E5 as [? [Q5 E5]]. injection Q5 as <-.
    exists tr, g. split; [reflexivity|]. split.
    { unfold get_attr in G. destruct (dget "geometry" tr); cbn in G; [injection G as ->; reflexivity|discriminate]. }
    split; [apply geometry_iff; eauto|].
    cbn [In]. intros a [<-|[<-|[<-|[<-|[<-|[]]]]]]; eauto.
  - intros [tr [g [T [G [S A]]]]]. apply geometry_iff in S. destruct S as [d D].
    unfold get_number, get_attr. rewrite T, G. cbn [attr bind]. rewrite D. cbn [bind].
    destruct (A "well_depth") as [x1 ->]; [cbn; auto|]. destruct (A "diameter") as [x2 ->]; [cbn; auto|].
    destruct (A "dipole") as [x3 ->]; [cbn; auto|]. destruct (A "polarizability") as [x4 ->]; [cbn; auto 10|].
    destruct (A "rotational_relaxation") as [x5 ->]; [cbn; auto 10|]. cbn [attr bind]. eauto.
Qed.

Lemma Forall_iff {A} (P R : A -> Prop) l : (forall a, P a <-> R a) -> Forall P l <-> Forall R l.
Proof. intros H. split; apply Forall_impl; intros a; apply H. Qed.
Lemma model_ok s : snd (model_text repr ar s) = Ok tt <-> Forall writable (so_reactions s).
Proof.
  unfold model_text.
  rewrite <- (Forall_iff _ _ _ (writable_iff repr ar (map cs_name (so_species s)))), <- write_each_ok.
  destruct (write_each _ _) as [t [[]| |]]; cbn [snd]; split; congruence.
Qed.
Lemma thermo_text_ok l : snd (thermo_text l) = Ok tt <-> Forall (fun x => cs_coeffs x <> nil) l.
Proof.
  unfold thermo_text. rewrite <- (Forall_iff _ _ _ thermo_ok_iff), <- write_each_ok.
  destruct (write_each _ _) as [t [[]| |]]; cbn [snd]; split; congruence.
Qed.
Lemma transport_text_ok l : snd (transport_text ar l) = Ok tt <-> Forall transport_data l.
Proof. unfold transport_text. rewrite <- (Forall_iff _ _ _ transport_ok_iff). apply write_each_ok. Qed.
Lemma all_transport l :
  forallb (fun sp => match cs_transport sp with Some _ => true | None => false end) l = true <-> Forall any_transport l.
Proof.
  rewrite forallb_forall, Forall_forall. unfold any_transport. split; intros H x X; specialize (H x X); destruct (cs_transport x); congruence.
Qed.

(** The files in full, when nothing is raised. *)
Lemma write_ok s f d st sp : Forall writable (so_reactions s) ->
  (st = false -> Forall (fun x => cs_coeffs x <> nil) (so_species s)) ->
  (sp = false -> Forall any_transport (so_species s) -> Forall transport_data (so_species s)) ->
  exists name th tr, name = path_join d (if String.eqb f "" then so_name s ++ ".inp" else f) /\
    (st = true /\ th = nil \/ st = false /\ th = [(fst (splitext name) ++ "_thermo.dat", fst (thermo_text (so_species s)))]) /\
    (~ (sp = false /\ Forall any_transport (so_species s)) /\ tr = nil \/
     (sp = false /\ Forall any_transport (so_species s)) /\ tr = [(fst (splitext name) ++ "_transport.dat", fst (transport_text ar (so_species s)))]) /\
    write repr ar s f d st sp =
      (((name, fst (model_text repr ar s)) :: th ++ tr)%list, Ok (map fst ((name, fst (model_text repr ar s)) :: th ++ tr)%list)).
Proof.
  intros W T R. unfold write. set (name := path_join d _). exists name.
  apply (proj2 (model_ok s)) in W. destruct (model_text repr ar s) as [mt [[]| |]]; try discriminate. cbn [fst].
  set (has := forallb _ (so_species s)). assert (HAS : has = true <-> Forall any_transport (so_species s)) by apply all_transport.
  assert (TH : exists th, (if st then (nil, Ok tt) else let '(x, r) := thermo_text (so_species s) in ([(fst (splitext name) ++ "_thermo.dat", x)], r)) = (th, Ok tt) /\
     (st = true /\ th = nil \/ st = false /\ th = [(fst (splitext name) ++ "_thermo.dat", fst (thermo_text (so_species s)))])).
  { destruct st; [exists nil; auto|]. specialize (T eq_refl). apply thermo_text_ok in T.
    destruct (thermo_text (so_species s)) as [x [[]| |]]; try discriminate. eexists. split; [reflexivity|]. auto. }
  destruct TH as [th [-> TH]]. exists th.
  assert (TR : exists tr, (if negb sp && has then let '(x, r) := transport_text ar (so_species s) in ([(fst (splitext name) ++ "_transport.dat", x)], r) else (nil, Ok tt)) = (tr, Ok tt) /\
    (~ (sp = false /\ Forall any_transport (so_species s)) /\ tr = nil \/
     (sp = false /\ Forall any_transport (so_species s)) /\ tr = [(fst (splitext name) ++ "_transport.dat", fst (transport_text ar (so_species s)))])).
  { destruct (negb sp && has) eqn:E.
    - apply andb_true_iff in E. destruct E as [E1 E2]. apply negb_true_iff in E1. apply HAS in E2.
      specialize (R E1 E2). apply transport_text_ok in R.
      destruct (transport_text ar (so_species s)) as [x [[]| |]]; try discriminate. eexists. split; [reflexivity|]. auto.
    - exists nil. split; [reflexivity|]. left. split; [|reflexivity]. intros [-> H]. apply HAS in H. rewrite H in E. discriminate. }
  destruct TR as [tr [-> TR]]. exists tr. split; [reflexivity|]. split; [exact TH|]. split; [exact TR|]. reflexivity.
Qed.

(** ** Success and names *)
Lemma export_iff s f d st sp :
  (exists l, snd (write repr ar s f d st sp) = Ok l) <->
  Forall writable (so_reactions s) /\
  (st = false -> Forall (fun x => cs_coeffs x <> nil) (so_species s)) /\
  (sp = false -> Forall any_transport (so_species s) -> Forall transport_data (so_species s)).
Proof.
  split.
  - intros [l H]. unfold write in H.
    destruct (model_text repr ar s) as [mt rm] eqn:M. destruct rm as [[]|e|]; try discriminate.
    assert (W : snd (model_text repr ar s) = Ok tt) by (rewrite M; reflexivity). apply model_ok in W.
    split; [exact W|].
    set (name := path_join d _) in H.
    destruct (if st then _ else _) as [th rt] eqn:T. destruct rt as [[]|e|]; try discriminate.
    split.
    + intros ->. destruct (thermo_text (so_species s)) as [x r] eqn:X. injection T as _ ->.
      apply thermo_text_ok. rewrite X. reflexivity.
    + intros -> A. apply all_transport in A. rewrite A in H. cbn [negb andb] in H.
      destruct (transport_text ar (so_species s)) as [x r] eqn:X. destruct r as [[]|e|]; try discriminate.
      apply transport_text_ok. rewrite X. reflexivity.
  - intros [W [T R]]. destruct (write_ok s f d st sp W T R) as [name [th [tr [_ [_ [_ ->]]]]]]. cbn [snd]. eauto.
Qed.

Lemma export_names s b d st sp l : directory d -> stem b ->
  snd (write repr ar s (b ++ ".inp") d st sp) = Ok l ->
  map fst (fst (write repr ar s (b ++ ".inp") d st sp)) = l /\
  expected (inside d b) (st = false) (sp = false /\ Forall any_transport (so_species s)) l.
Proof.
  intros D S H. assert (X := proj1 (export_iff s (b ++ ".inp") d st sp) (ex_intro _ l H)). destruct X as [W [T R]].
  destruct (write_ok s (b ++ ".inp") d st sp W T R) as [name [th [tr [N [TH [TR E]]]]]].
  rewrite E in *. cbn [fst snd] in *. injection H as H. split; [exact H|].
  assert (NN : name = inside d b ++ ".inp").
  { rewrite N. destruct (String.eqb_spec (b ++ ".inp") "") as [Z|_]; [destruct b; discriminate|]. apply join_inside; assumption. }
  assert (SX : fst (splitext name) = inside d b) by (rewrite NN, (splitext_inside d b ".inp" S ext_inp); reflexivity).
  rewrite SX in TH, TR. rewrite <- H, NN. exists (map fst th), (map fst tr). split; [cbn [map fst]; rewrite map_app; reflexivity|].
  split.
  - destruct TH as [[-> ->]|[-> ->]]; [right; split; [discriminate|reflexivity]|left; split; reflexivity].
  - destruct TR as [[X ->]|[X ->]]; [right; split; [exact X|reflexivity]|left; split; [exact X|reflexivity]].
Qed.

(** ** The model file *)
Lemma first_file s b d st sp : directory d -> stem b ->
  exists rest, fst (write repr ar s (b ++ ".inp") d st sp) = (inside d b ++ ".inp", fst (model_text repr ar s)) :: rest.
Proof.
  intros D S. unfold write.
  destruct (String.eqb_spec (b ++ ".inp") "") as [Z|_]; [destruct b; discriminate|]. rewrite (join_inside d b ".inp" D S).
  destruct (model_text repr ar s) as [mt rm]. destruct rm as [u|e|]; cbn [fst]; [|eauto|eauto].
  destruct (if st then _ else _) as [th rt]. destruct rt as [v|e|]; cbn [fst app]; [|eauto|eauto].
  destruct (if negb sp && _ then _ else _) as [tr rr]. destruct rr as [w|e|]; cbn [fst app]; eauto.
Qed.

Lemma export_reads_by conv ok small (CV : converts ar conv ok small) (REPR : prints repr) s b d st sp :
  directory d -> stem b -> usable_model s -> Forall (in_scope ok small) (so_reactions s) ->
  exists text rest es,
    fst (write repr ar s (b ++ ".inp") d st sp) = (inside d b ++ ".inp", text) :: rest /\
    names_in "ELEMENTS" text = so_elements s /\ names_in "SPECIES" text = map cs_name (so_species s) /\
    read_reactions text = Some es /\ Forall2 (describes_by conv (map cs_name (so_species s))) (so_reactions s) es.
Proof.
  intros D S U SC. destruct (first_file s b d st sp D S) as [rest F].
  destruct (model_reads repr ar conv ok small CV REPR s U SC) as [text [es [M [N1 [N2 [_ [R P]]]]]]]. rewrite M in F.
  exists text, rest, es. repeat split; assumption.
Qed.

(** The lists of names, whatever the reactions are. *)
Lemma header_reads s : free is_newline (so_name s) ->
  Forall usable_name (so_elements s) -> Forall usable_name (map cs_name (so_species s)) ->
  let text := fst (model_text repr ar s) in
  names_in "ELEMENTS" text = so_elements s /\ names_in "SPECIES" text = map cs_name (so_species s) /\
  Forall (fits 60) (section "SPECIES" text).
Proof.
  intros UN UE US. cbv zeta.
  assert (TX0 : exists t, fst (model_text repr ar s) = model_header s ++ t).
  { unfold model_text. destruct (write_each _ _) as [t [u| |]]; cbn [fst]; eauto. }
  destruct TX0 as [t ->].
  set (names := map cs_name (so_species s)) in *.
  set (joined := String.concat "  " names) in *.
  assert (TN : Forall token names) by (eapply Forall_impl; [|exact US]; intros a [T _]; exact T).
  assert (TE : Forall token (so_elements s)) by (eapply Forall_impl; [|exact UE]; intros a [T _]; exact T).
  assert (WJ : words joined = names) by (apply (words_join 2); [lia|exact TN]).
  assert (FJ : free is_newline joined).
  { apply free_concat; [cbn; auto|]. eapply Forall_impl; [apply token_free_newline|exact TN]. }
  set (el := String.concat "  " (so_elements s)) in *.
  assert (WE : words el = so_elements s) by (apply (words_join 2); [lia|exact TE]).
  assert (FE : free is_newline el).
  { apply free_concat; [cbn; auto|]. eapply Forall_impl; [apply token_free_newline|exact TE]. }
  destruct (fill_lines 60 joined FJ) as [fl [_ [FL2 [FL3 FL4]]]].
  set (title := "!Chemkin file converted from solution object: " ++ so_name s).
  assert (TX : model_header s ++ t =
    unlines ([title; ""; "ELEMENTS"; el; "END"; ""; "SPECIES"] ++ fl ++ ["END"; ""; "REACTIONS"]) t).
  { unfold model_header. fold names joined el.
    rewrite !unlines_app. rewrite (unlines_end fl), <- FL2.
    unfold title. cbn [unlines fold_right]. rewrite !app_assoc_s. reflexivity. }
  rewrite TX. unfold names_in, section. rewrite lines_unlines.
  2:{ repeat (apply Forall_app; split); auto.
      - repeat constructor; auto.
      - eapply Forall_impl; [|exact FL4]. intros a [_ H]. exact H.
      - repeat constructor. }
  assert (KE : forall k, In k section_keywords -> k <> el).
  { intros k K E. apply (usable_no_keyword _ k UE K). rewrite <- WE, <- E. rewrite (words_token k (keyword_token k K)). left. reflexivity. }
  assert (KF : forall k, In k section_keywords -> ~ In k fl).
  { intros k K. apply (line_no_keyword k names); [apply keyword_token; exact K|apply (usable_no_keyword _ k US K)|].
    rewrite FL3. exact WJ. }
  assert (S1 : before "END" (after "ELEMENTS" ((([title; ""; "ELEMENTS"; el; "END"; ""; "SPECIES"] ++ fl ++ ["END"; ""; "REACTIONS"]) ++ lines t)%list)) = [el]).
  { cbn [app after]. destruct (String.eqb_spec title "ELEMENTS") as [E|_]; [discriminate|].
    change (String.eqb "" "ELEMENTS") with false. cbv iota. rewrite String.eqb_refl. cbn [before].
    destruct (String.eqb_spec el "END") as [E|_]; [|reflexivity]. exfalso. apply (KE "END"); [cbn; auto|auto]. }
  assert (S2 : before "END" (after "SPECIES" ((([title; ""; "ELEMENTS"; el; "END"; ""; "SPECIES"] ++ fl ++ ["END"; ""; "REACTIONS"]) ++ lines t)%list)) = fl).
  { replace (([title; ""; "ELEMENTS"; el; "END"; ""; "SPECIES"] ++ fl ++ ["END"; ""; "REACTIONS"]) ++ lines t)%list
      with ([title; ""; "ELEMENTS"; el; "END"; ""] ++ "SPECIES" :: (fl ++ "END" :: [""; "REACTIONS"] ++ lines t))%list
      by (cbn [app]; rewrite <- !app_assoc; reflexivity).
    rewrite after_spec.
    - apply before_spec. apply KF. cbn. auto.
    - cbn. intros H. repeat destruct H as [H|H]; try discriminate; try contradiction. symmetry in H. revert H. apply KE. cbn. auto. }
  rewrite S1, S2. cbn [map concat]. rewrite app_nil_r.
  split; [exact WE|]. split; [rewrite FL3; exact WJ|].
  eapply Forall_impl; [|exact FL4]. intros a [H _]. exact H.
Qed.

Lemma species_list s b d st sp : directory d -> stem b ->
  free is_newline (so_name s) -> Forall usable_name (so_elements s) -> Forall usable_name (map cs_name (so_species s)) ->
  exists text rest, fst (write repr ar s (b ++ ".inp") d st sp) = (inside d b ++ ".inp", text) :: rest /\
    names_in "SPECIES" text = map cs_name (so_species s) /\ Forall (fits 60) (section "SPECIES" text).
Proof.
  intros D S N E U. destruct (first_file s b d st sp D S) as [rest F].
  exists (fst (model_text repr ar s)), rest. split; [exact F|]. destruct (header_reads s N E U) as [_ [A B]]. auto.
Qed.

(** ** The other files *)
Lemma thermo_file s b d sp : directory d -> stem b -> Forall writable (so_reactions s) -> Forall fits_card (so_species s) ->
  exists text cards, In (inside d b ++ "_thermo.dat", text) (fst (write repr ar s (b ++ ".inp") d false sp)) /\
    read_thermo text = Some cards /\ Forall2 card_of (so_species s) cards.
Proof.
  intros D S W F. destruct (thermo_reads (so_species s) F) as [text [cards [T [R P]]]].
  exists text, cards. split; [|auto].
  apply (proj2 (model_ok s)) in W. unfold write.
  destruct (model_text repr ar s) as [mt [[]| |]]; try discriminate.
  destruct (String.eqb_spec (b ++ ".inp") "") as [Z|_]; [destruct b; discriminate|]. rewrite (join_inside d b ".inp" D S).
  rewrite (splitext_inside d b ".inp" S ext_inp). cbn [fst]. rewrite T.
  destruct (if negb sp && _ then _ else _) as [tr rr]. destruct rr; cbn [fst app In]; auto.
Qed.
Lemma transport_file_by conv ok room (CT : converts_t ar conv ok room) s b d st : directory d -> stem b -> Forall writable (so_reactions s) ->
  (st = false -> Forall (fun x => cs_coeffs x <> nil) (so_species s)) -> Forall (fits_by room) (so_species s) -> Forall (transport_scope ok) (so_species s) ->
  exists text ts, In (inside d b ++ "_transport.dat", text) (fst (write repr ar s (b ++ ".inp") d st false)) /\
    read_transport text = Some ts /\ Forall2 (transport_by conv) (so_species s) ts.
Proof.
  intros D S W C F SC. destruct (transport_reads ar conv ok room CT (so_species s) F SC) as [text [ts [T [R P]]]].
  exists text, ts. split; [|auto].
  assert (A : Forall any_transport (so_species s)).
  { eapply Forall_impl; [|exact F]. intros a [_ [g [e [dd [m [p [z [[t [H _]] _]]]]]]]]. unfold any_transport. congruence. }
  assert (TD : Forall transport_data (so_species s)) by (apply transport_text_ok; rewrite T; reflexivity).
  destruct (write_ok s (b ++ ".inp") d st false W C (fun _ _ => TD)) as [name [th [tr [N [_ [TR E]]]]]].
  rewrite E. cbn [fst]. destruct TR as [[X _]|[_ ->]]; [exfalso; apply X; auto|].
  destruct (String.eqb_spec (b ++ ".inp") "") as [Z|_]; [destruct b; discriminate|]. rewrite (join_inside d b ".inp" D S) in N.
  rewrite N, (splitext_inside d b ".inp" S ext_inp), T. cbn [fst]. right. apply in_or_app. right. left. reflexivity.
Qed.

(** ** A reaction that cannot be written *)
Lemma export_stops s pre r post b d st sp : directory d -> stem b ->
  so_reactions s = (pre ++ r :: post)%list -> Forall writable pre -> ~ writable r ->
  exists text e rest, write repr ar s (b ++ ".inp") d st sp = ([(inside d b ++ ".inp", text)], Raise e) /\
    fst (write repr ar (only_reactions pre s) (b ++ ".inp") d st sp) = (inside d b ++ ".inp", text ++ "END") :: rest /\
    (~ known_type (cr_type r) -> e = NotImplementedErr) /\
    ((starts "falloff-" (cr_type r) \/ starts "chemically-activated" (cr_type r)) ->
     rt_low (cr_rate r) <> None -> rt_high (cr_rate r) <> None ->
     (exists c, rt_falloff (cr_rate r) = Some c /\ c <> nil) ->
     rt_sub (cr_rate r) = "Troe" \/ rt_sub (cr_rate r) = "SRI" -> e = IndexError).
Proof.
  intros D S L P NW. set (names := map cs_name (so_species s)).
  destruct (not_writable_raises repr ar names r NW) as [e E].
  assert (PO : snd (write_each (reaction_text repr ar names) pre) = Ok tt).
  { apply write_each_ok. eapply Forall_impl; [|exact P]. intros a W. apply writable_iff, W. }
  destruct (write_each (reaction_text repr ar names) pre) as [t rp] eqn:WP. cbn [snd] in PO. subst rp.
  assert (M : model_text repr ar s = (model_header s ++ t, Raise e)).
  { unfold model_text. fold names. rewrite L, write_each_app, WP. cbn [write_each]. rewrite E. rewrite append_nil. reflexivity. }
  assert (M' : model_text repr ar (only_reactions pre s) = (model_header s ++ t ++ "END", Ok tt)).
  { unfold model_text. cbn [so_reactions so_species only_reactions]. fold names. rewrite WP. reflexivity. }
  destruct (first_file (only_reactions pre s) b d st sp D S) as [rest F]. rewrite M' in F. cbn [fst] in F.
  exists (model_header s ++ t), e, rest. split; [|split; [|split]].
  - unfold write. rewrite M.
    destruct (String.eqb_spec (b ++ ".inp") "") as [Z|_]; [destruct b; discriminate|]. rewrite (join_inside d b ".inp" D S). reflexivity.
  - rewrite app_assoc_s. exact F.
  - intros K. rewrite (unknown_raises repr ar names r K) in E. congruence.
  - intros T RL RH [c [RC NC]] SUB.
    destruct (rt_low (cr_rate r)) as [low|] eqn:LO; [|congruence]. destruct (rt_high (cr_rate r)) as [high|] eqn:HI; [|congruence].
    destruct c as [|c0 c]; [congruence|].
    assert (SHORT : exists f, (rt_sub (cr_rate r) = "Troe" /\ f = 4%nat \/ rt_sub (cr_rate r) = "SRI" /\ f = 5%nat) /\ (Datatypes.S (length c) < f)%nat).
    { destruct SUB as [SUB|SUB]; [exists 4%nat|exists 5%nat]; (split; [auto|]).
      - destruct (Nat.lt_ge_cases (Datatypes.S (length c)) 4) as [X|X]; [exact X|]. exfalso. apply NW. apply w_falloff; [exact T|congruence|congruence|].
        exists (c0 :: c). split; [exact RC|]. right. left. split; [exact SUB|]. exact X.
      - destruct (Nat.lt_ge_cases (Datatypes.S (length c)) 5) as [X|X]; [exact X|]. exfalso. apply NW. apply w_falloff; [exact T|congruence|congruence|].
        exists (c0 :: c). split; [exact RC|]. right. right. split; [exact SUB|]. exact X. }
    destruct SHORT as [f [SF LF]].
    rewrite (short_raises repr ar names r low high (c0 :: c) (length c) f T LO HI SF RC eq_refl LF) in E. congruence.
Qed.

(** ** [convert] *)
Lemma convert_to_chemkin load ck2yaml from b e thermo transport d s :
  directory d -> stem b -> In e [".yaml"; ".yml"; ".cti"] -> load (inside from b ++ e) = Ok s ->
  convert repr ar load ck2yaml (inside from b ++ e) thermo transport d =
  (fst (write repr ar s (b ++ ".inp") d false false), bind (snd (write repr ar s (b ++ ".inp") d false false)) (fun l => Ok (Names l))).
Proof.
  intros D S E L. assert (X : extension e).
  { cbn in E. destruct E as [<-|[<-|[<-|[]]]]; [exists "yaml"|exists "yml"|exists "cti"]; (split; [reflexivity|split; cbn; auto 10]). }
  unfold convert. rewrite (basename_inside from b e S X).
  assert (SX := splitext_inside "" b e S X). change (inside "" b) with b in SX. rewrite SX. cbn [fst snd].
  assert (I : str_in e [".yaml"; ".yml"; ".cti"] = true) by (cbn in E; destruct E as [<-|[<-|[<-|[]]]]; reflexivity).
  rewrite I, L. destruct (write repr ar s (b ++ ".inp") d false false) as [files r]. reflexivity.
Qed.
Lemma convert_names load ck2yaml from b e thermo transport d s files c :
  directory d -> stem b -> In e [".yaml"; ".yml"; ".cti"] -> load (inside from b ++ e) = Ok s ->
  convert repr ar load ck2yaml (inside from b ++ e) thermo transport d = (files, Ok c) ->
  exists l, c = Names l /\ map fst files = l /\ expected (inside d b) True (Forall any_transport (so_species s)) l.
Proof.
  intros D S E L H. rewrite (convert_to_chemkin load ck2yaml from b e thermo transport d s D S E L) in H.
  assert (HF : fst (write repr ar s (b ++ ".inp") d false false) = files) by congruence.
  assert (HR : bind (snd (write repr ar s (b ++ ".inp") d false false)) (fun l => Ok (Names l)) = Ok c) by congruence.
  destruct (snd (write repr ar s (b ++ ".inp") d false false)) as [l| |] eqn:R; try discriminate. cbn [bind] in HR.
  exists l. split; [congruence|]. destruct (export_names s b d false false l D S R) as [A [t [r [B1 [B2 B3]]]]]. rewrite <- HF.
  split; [exact A|]. exists t, r. split; [exact B1|]. split.
  - destruct B2 as [[_ B2]|[B2 _]]; [left; auto|congruence].
  - destruct B3 as [[[_ X] B3]|[X B3]]; [left; auto|right]. split; [intros Y; apply X; auto|exact B3].
Qed.
Lemma convert_to_yaml load ck2yaml from b e thermo transport d :
  directory d -> stem b -> extension e -> ~ In e [".yaml"; ".yml"; ".cti"] ->
  convert repr ar load ck2yaml (inside from b ++ e) thermo transport d =
  (nil, bind (ck2yaml (yaml_arguments (inside from b ++ e) thermo transport (inside d b ++ ".yaml")))
       (fun _ => Ok (Name (inside d b ++ ".yaml")))).
Proof.
  intros D S X N. unfold convert. rewrite (basename_inside from b e S X).
  assert (SX := splitext_inside "" b e S X). change (inside "" b) with b in SX. rewrite SX. cbn [fst snd].
  destruct (str_in e [".yaml"; ".yml"; ".cti"]) eqn:I.
  { exfalso. apply N. cbn in I. destruct (String.eqb_spec e ".yaml") as [->|_]; [cbn; auto|].
    destruct (String.eqb_spec e ".yml") as [->|_]; [cbn; auto|]. destruct (String.eqb_spec e ".cti") as [->|_]; [cbn; auto|discriminate]. }
  rewrite (join_inside d b ".yaml" D S). unfold given, yaml_arguments.
  destruct (String.eqb_spec thermo ""), (string_dec thermo ""); try contradiction;
    destruct (String.eqb_spec transport ""), (string_dec transport ""); try contradiction; reflexivity.
Qed.
End Write.

(** Without rounding. *)
Lemma Forall_all {A} (P : A -> Prop) l : (forall x, P x) -> Forall P l.
Proof. intros H. induction l; constructor; auto. Qed.
Lemma export_reads repr fpow (REPR : prints repr) s b d st sp : directory d -> stem b -> usable_model s ->
  exists text rest es,
    fst (write repr (exact_arith fpow) s (b ++ ".inp") d st sp) = (inside d b ++ ".inp", text) :: rest /\
    names_in "ELEMENTS" text = so_elements s /\ names_in "SPECIES" text = map cs_name (so_species s) /\
    read_reactions text = Some es /\ Forall2 (describes (map cs_name (so_species s))) (so_reactions s) es.
Proof.
  intros D S U. apply (export_reads_by _ _ _ _ _ (exact_converts fpow)); auto. apply Forall_all. intros r. split; auto.
Qed.
Lemma transport_file repr fpow s b d st : directory d -> stem b -> Forall writable (so_reactions s) ->
  (st = false -> Forall (fun x => cs_coeffs x <> nil) (so_species s)) -> Forall fits_transport (so_species s) ->
  exists text ts, In (inside d b ++ "_transport.dat", text) (fst (write repr (exact_arith fpow) s (b ++ ".inp") d st false)) /\
    read_transport text = Some ts /\ Forall2 transport_of (so_species s) ts.
Proof.
  intros D S W C F. apply (transport_file_by _ _ _ _ _ (exact_converts_t fpow)); auto. apply Forall_all. intros r t a x _ _. exact I.
Qed.
