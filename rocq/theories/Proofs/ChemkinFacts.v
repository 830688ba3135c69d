(** The exported Chemkin file reads back. *)
From Coq Require Import String Ascii List Bool Arith ZArith QArith Qabs Qpower Lqa Lia.
From Verif.Base Require Import Py Num XNum Paths Text.
From Verif.Model Require Import Chem Compare Chemkin.
From Verif.Spec Require Import TextSpec ChemkinSpec CompareSpec CompareDoubleSpec.
From Verif.Proofs Require Import FormatFacts TextFacts WrapFacts.
Import ListNotations.
Local Open Scope string_scope.

(** ** Numbers *)
Lemma to_digits_eq k x y v : (x == y)%Q -> to_digits k x v -> to_digits k y v.
Proof. unfold to_digits. intros E. rewrite E. auto. Qed.
Lemma to_decimals_eq k x y v : (x == y)%Q -> to_decimals k x v -> to_decimals k y v.
Proof. unfold to_decimals. intros E. rewrite E. auto. Qed.
Lemma precise_eq x y v : (x == y)%Q -> precise x v -> precise y v.
Proof. unfold precise. intros E. rewrite E. auto. Qed.

Lemma Qred_Z z : Qred (inject_Z z) = inject_Z z.
Proof.
  unfold Qred, inject_Z. assert (G := Z.ggcd_gcd z 1). assert (D := Z.ggcd_correct_divisors z 1).
  destruct (Z.ggcd z 1) as [g [aa bb]]. cbn [fst snd] in *. rewrite Z.gcd_1_r in G. destruct D as [D1 D2].
  rewrite G in D1, D2. assert (bb = 1)%Z by lia. assert (aa = z) by lia. subst bb aa. reflexivity.
Qed.
Lemma thousand_Z fpow k z : (k == inject_Z z)%Q -> thousand fpow k = Qpower 1000 z.
Proof. intros E. unfold thousand. rewrite (Qred_complete _ _ E), Qred_Z. reflexivity. Qed.
Lemma cgs_thousand fpow m k A : (k == inject_Z (m - 1))%Q -> (A * thousand fpow k == cgs m A)%Q.
Proof.
  intros E. rewrite (thousand_Z _ _ _ E). unfold cgs. setoid_replace (1000000 / 1000)%Q with 1000%Q by reflexivity. reflexivity.
Qed.
Lemma calories_eq E : (E / calories == cal_per_mol E)%Q.
Proof. unfold cal_per_mol, calories. setoid_replace (1000 * (4184 # 1000))%Q with 4184%Q by reflexivity. reflexivity. Qed.

(** What the proofs need of the arithmetic: conversions of the numbers of
    interest are finite and will do. *)
Record converts (ar : arith) (conv : Q -> Q -> Prop) (ok : xnum -> Prop) (small : Z -> Prop) : Prop := {
  cv_times : forall n m A k, ok (Fin A) -> small n -> (n - 1 <= m <= n + 1)%Z -> (k == inject_Z (m - 1))%Q ->
    exists x, times ar (Fin A) (kilo ar k) = Fin x /\ conv (cgs m A) x;
  cv_cal : forall E, ok (Fin E) -> exists x, over ar (Fin E) (Fin calories) = Fin x /\ conv (cal_per_mol E) x;
  cv_atm : forall p, ok (Fin p) -> exists x, over ar (Fin p) (Fin one_atm) = Fin x /\ conv (atm p) x
}.
Definition in_scope (ok : xnum -> Prop) (small : Z -> Prop) (r : creaction) : Prop :=
  (forall x, In x (rate_values (cr_rate r)) -> ok x) /\ (forall n, order r n -> small n).

Lemma exact_converts fpow : converts (exact_arith fpow) Qeq (fun _ => True) (fun _ => True).
Proof.
  split; cbn [times over kilo exact_arith xmul xdiv]; intros.
  - eexists. split; [reflexivity|]. symmetry. apply cgs_thousand. assumption.
  - change (Qeq_bool calories 0) with false. eexists. split; [reflexivity|]. symmetry. apply calories_eq.
  - change (Qeq_bool one_atm 0) with false. eexists. split; [reflexivity|]. reflexivity.
Qed.

Section Export.
Variable repr : xnum -> string.
Variable ar : arith.
Variable conv : Q -> Q -> Prop.
Variable ok : xnum -> Prop.
Variable small : Z -> Prop.
Hypothesis CV : converts ar conv ok small.
Notation shows := (ChemkinSpec.shows conv).
Notation kinetics := (ChemkinSpec.kinetics conv).

Lemma order_of_spec r n : order r n -> (order_of r == inject_Z n)%Q.
Proof.
  intros H. unfold order in H. rewrite <- H. unfold order_of, sumQ. generalize (cr_reactants r). intros l.
  induction l as [|e l IH]; [reflexivity|]. cbn [map fold_right]. rewrite IH. reflexivity.
Qed.

(** ** Three numbers *)
(** [s] consists of the words for the numbers [v] and no slash. *)
Definition body_of (s : string) (v : list Q) : Prop :=
  free is_newline s /\ free is_slash s /\ read_nums (words s) = Some v.
Definition triple_of (s : string) (v : list Q) : Prop :=
  body_of s v /\ exists a b c, words s = [a; b; c] /\ s = a ++ "  " ++ b ++ "  " ++ c /\ a <> "".

Lemma triple_text a b c va vb vc : token a -> token b -> token c ->
  read_num a = Some va -> read_num b = Some vb -> read_num c = Some vc ->
  triple_of (arrhenius_text a b c) [va; vb; vc].
Proof.
  intros Ha Hb Hc Ra Rb Rc. assert (W : words (arrhenius_text a b c) = [a; b; c]).
  { exact (words_join 2 [a; b; c] ltac:(lia) ltac:(repeat constructor; [apply Ha|apply Ha|apply Hb|apply Hb|apply Hc|apply Hc])). }
  split; [|exists a, b, c; split; [exact W|split; [reflexivity|apply Ha]]].
  unfold body_of. rewrite W. cbn [read_nums]. rewrite Ra, Rb, Rc. unfold arrhenius_text. rewrite !free_app.
  repeat split; try (apply token_free_newline; assumption); try (apply token_free_slash; assumption).
Qed.

Lemma build_ok (n m : Z) (k : Q) a : finite_arr a -> (forall x, In x (arr_numbers a) -> ok x) -> small n ->
  (n - 1 <= m <= n + 1)%Z -> (k == inject_Z (m - 1))%Q ->
  (exists v, triple_of (arrhenius_text (xsci 4 (times ar (a_A a) (kilo ar k))) (xfixed 3 (a_b a)) (xfixed 2 (over ar (a_E a) (Fin calories)))) v
     /\ shows m (to_decimals 2) a v) /\
  (exists v, triple_of (arrhenius_text (xsci 4 (times ar (a_A a) (kilo ar k))) (xfixed 3 (a_b a)) (xsci 3 (over ar (a_E a) (Fin calories)))) v
     /\ shows m (to_digits 3) a v).
Proof.
  intros [[A EA] [[b Eb] [E EE]]] OK SM Hm Hk. destruct a as [A' b' E']. cbn [a_A a_b a_E] in *. subst A' b' E'.
  destruct (cv_times _ _ _ _ CV n m A k (OK _ (or_introl eq_refl)) SM Hm Hk) as [cA [XA CA]].
  destruct (cv_cal _ _ _ _ CV E (OK _ (or_intror (or_intror (or_introl eq_refl))))) as [cE [XE CE]].
  rewrite XA, XE. cbn [xsci xfixed xformat].
  destruct (read_sci 4 cA) as [vA [R1 D1]]. destruct (read_fixed 3 b) as [vb [R2 D2]].
  destruct (read_fixed 2 cE) as [vE [R3 D3]]. destruct (read_sci 3 cE) as [vE' [R4 D4]].
  split; eexists; (split; [apply triple_text; try apply sci_token; try apply fixed_token; eassumption|]);
    exists A, b, E, cA, cE; eexists; eexists; eexists; (split; [reflexivity|]); (split; [reflexivity|]); auto 10.
Qed.

(** ** Lines *)
Definition aux_line (s : string) (a : aux) : Prop :=
  free is_newline s /\ s <> "END" /\ is_aux s = true /\ read_aux s = Some a.

Lemma data_line k body v : In k data_keywords -> body_of body v ->
  aux_line (k ++ " / " ++ body ++ " /") (Data k v).
Proof.
  intros K [FN [FS R]].
  assert (TK : token k /\ str_in k data_keywords = true /\ k <> "DUPLICATE" /\ k <> "END").
  { cbn in K. repeat destruct K as [<-|K]; try (repeat split; try discriminate; reflexivity). contradiction. }
  destruct TK as [TK [SK [_ _]]].
  assert (SP : split_on is_slash (k ++ " / " ++ body ++ " /") = [k ++ " "; " " ++ body ++ " "; ""]).
  { change (" / " ++ body ++ " /") with (" " ++ String "/" (" " ++ body ++ " " ++ String "/" "")).
    rewrite <- app_assoc_s. rewrite split_sep by reflexivity.
    rewrite (split_free is_slash (k ++ " ")) by (rewrite free_app; split; [apply token_free_slash; exact TK|cbn; auto]).
    replace (" " ++ body ++ " " ++ String "/" "") with ((" " ++ body ++ " ") ++ String "/" "") by (rewrite !app_assoc_s; reflexivity).
    rewrite split_sep by reflexivity.
    rewrite (split_free is_slash (" " ++ body ++ " ")) by (rewrite !free_app; repeat split; exact FS).
    reflexivity. }
  assert (ND : String.eqb (k ++ " / " ++ body ++ " /") "DUPLICATE" = false).
  { destruct (String.eqb_spec (k ++ " / " ++ body ++ " /") "DUPLICATE") as [E|]; [|reflexivity]. rewrite E in SP. discriminate. }
  split; [|split; [|split]].
  - rewrite !free_app. repeat split; try exact FN. apply token_free_newline, TK.
  - intros E. rewrite E in SP. discriminate.
  - unfold is_aux. rewrite ND, SP. reflexivity.
  - unfold read_aux. rewrite ND, SP.
    assert (W1 : words (k ++ " ") = [k]).
    { change " " with (spaces 1). rewrite words_spaces_r. apply words_token, TK. }
    assert (W2 : words (" " ++ body ++ " ") = words body).
    { change " " with (spaces 1). rewrite words_spaces_l, words_spaces_r. reflexivity. }
    rewrite W1, W2. change (words "") with (@nil string). rewrite SK, R. reflexivity.
Qed.

Lemma dup_line : aux_line "DUPLICATE" Duplicate.
Proof. repeat split; discriminate. Qed.

(** ** Efficiencies *)
Definition effs_join (l : list (string * string)) : string :=
  String.concat "  " (map (fun e => fst e ++ "/" ++ snd e ++ "/") l).
Lemma pairs_text l f n :
  Forall2 (fun e x => token (fst e) /\ token (snd e) /\ fst e = fst x /\ read_num (snd e) = Some (snd x)) l f ->
  read_pairs (split_on is_slash (spaces n ++ effs_join l)) = Some f.
Proof.
  intros F. revert n. induction F as [|[a b] [c v] l f [Ta [Tb [Hc R]]] F IH]; intros n.
  - unfold effs_join. cbn [map String.concat]. rewrite append_nil.
    rewrite split_free by (apply free_spaces; reflexivity). cbn [read_pairs].
    rewrite <- (append_nil (spaces n)), words_spaces_l. reflexivity.
  - cbn [fst snd] in *. subst c.
    assert (E : exists m, effs_join ((a, b) :: l) = a ++ String "/" (b ++ String "/" (spaces m ++ effs_join l))).
    { destruct l as [|e l].
      - exists 0%nat. reflexivity.
      - exists 2%nat. unfold effs_join. cbn [map fst snd].
        match goal with |- String.concat ?s (?x :: ?y :: ?t) = _ => change (String.concat s (x :: y :: t)) with (x ++ s ++ String.concat s (y :: t)) end.
        rewrite !app_assoc_s. reflexivity. }
    destruct E as [m ->].
    rewrite <- app_assoc_s. rewrite split_sep by reflexivity.
    rewrite (split_free is_slash (spaces n ++ a)) by (rewrite free_app; split; [apply free_spaces; reflexivity|apply token_free_slash, Ta]).
    rewrite split_sep by reflexivity. rewrite (split_free is_slash b) by (apply token_free_slash, Tb).
    cbn [app read_pairs].
    assert (Wa : words (spaces n ++ a) = [a]) by (rewrite words_spaces_l; apply words_token, Ta).
    destruct (split_on is_slash (spaces m ++ effs_join l)) as [|w r] eqn:SE.
    + exfalso. specialize (IH m). rewrite SE in IH. discriminate.
    + rewrite Wa, (words_token b Tb), R. rewrite <- SE, (IH m). reflexivity.
Qed.

Lemma eff_line l f : l <> nil ->
  Forall2 (fun e x => usable_name (fst e) /\ token (snd e) /\ fst e = fst x /\ read_num (snd e) = Some (snd x)) l f ->
  aux_line (effs_join l) (Efficiencies f).
Proof.
  intros N F.
  assert (F' : Forall2 (fun e x => token (fst e) /\ token (snd e) /\ fst e = fst x /\ read_num (snd e) = Some (snd x)) l f).
  { clear N. induction F as [|e x l f [[H1 _] H2] F IH]; constructor; [split; [exact H1|exact H2]|exact IH]. }
  assert (P := pairs_text l f 0 F'). cbn [spaces String.append] in P.
  destruct F as [|[a b] [c v] l f [[Ta Na] [Tb _]] F]; [contradiction|]. cbn [fst snd] in *.
  assert (SP : exists w r, split_on is_slash (effs_join ((a, b) :: l)) = a :: b :: w :: r).
  { assert (E : exists t, effs_join ((a, b) :: l) = a ++ String "/" (b ++ String "/" t)).
    { destruct l as [|e l]; [exists ""; reflexivity|].
      exists ("  " ++ effs_join (e :: l)). unfold effs_join. cbn [map fst snd].
      match goal with |- String.concat ?s (?x :: ?y :: ?t) = _ => change (String.concat s (x :: y :: t)) with (x ++ s ++ String.concat s (y :: t)) end.
      rewrite !app_assoc_s. reflexivity. }
    destruct E as [t ->]. rewrite split_sep by reflexivity. rewrite (split_free is_slash a) by (apply token_free_slash, Ta).
    rewrite split_sep by reflexivity. rewrite (split_free is_slash b) by (apply token_free_slash, Tb).
    assert (NN : split_on is_slash t <> nil).
    { destruct t as [|d t]; cbn [split_on]; [discriminate|]. destruct (is_slash d); [discriminate|]. destruct (split_on is_slash t); discriminate. }
    destruct (split_on is_slash t) as [|w r]; [contradiction|]. exists w, r. reflexivity. }
  destruct SP as [w [r SP]].
  assert (ND : String.eqb (effs_join ((a, b) :: l)) "DUPLICATE" = false).
  { destruct (String.eqb_spec (effs_join ((a, b) :: l)) "DUPLICATE") as [E|]; [|reflexivity]. rewrite E in SP. discriminate. }
  split; [|split; [|split]].
  - unfold effs_join. apply free_concat; [cbn; auto|]. clear - F'. induction F' as [|e x l1 f1 [H1 [H2 _]] F2 IH]; [constructor|].
    cbn [map]. constructor; [|exact IH]. rewrite !free_app. repeat split; apply token_free_newline; assumption.
  - intros E. rewrite E in SP. discriminate.
  - unfold is_aux. rewrite ND, SP. reflexivity.
  - unfold read_aux. rewrite ND, SP. rewrite SP in P. rewrite P.
    rewrite (words_token a Ta).
    assert (SN : str_in a data_keywords = false).
    { unfold str_in. destruct (existsb (String.eqb a) data_keywords) eqn:X; [|reflexivity]. exfalso. apply Na.
      apply existsb_exists in X. destruct X as [y [Iy Ey]]. apply String.eqb_eq in Ey. subst y. apply in_or_app. right. exact Iy. }
    destruct r; [|reflexivity]. destruct (words w); [|reflexivity]. rewrite SN. reflexivity.
Qed.

(** ** Main line *)
Lemma ljust_main eq s v : usable_equation eq -> triple_of s v ->
  let l := ljust 51 eq ++ s in
  free is_newline l /\ l <> "END" /\ is_aux l = false /\ read_main l = Some (squeeze eq, v).
Proof.
  intros [FN [FS L]] [[SN [SS R]] [a [b [c [W [E _]]]]]]. cbv zeta. unfold ljust.
  set (n := (51 - String.length eq)%nat). assert (N : (0 < n)%nat) by (unfold n; lia).
  assert (WL : words ((eq ++ spaces n) ++ s) = (words eq ++ [a; b; c])%list).
  { rewrite app_assoc_s, words_spaces_m by exact N. rewrite W. reflexivity. }
  assert (FL : free is_slash ((eq ++ spaces n) ++ s)).
  { rewrite !free_app. repeat split; auto. apply free_spaces. reflexivity. }
  split; [|split; [|split]].
  - rewrite !free_app. repeat split; auto. apply free_spaces. reflexivity.
  - intros X. rewrite X in WL. change (words "END") with ["END"] in WL. apply (f_equal (@length string)) in WL.
    rewrite app_length in WL. cbn in WL. lia.
  - unfold is_aux. rewrite (split_free _ _ FL).
    destruct (String.eqb_spec ((eq ++ spaces n) ++ s) "DUPLICATE") as [X|]; [|reflexivity].
    rewrite X in WL. change (words "DUPLICATE") with ["DUPLICATE"] in WL. apply (f_equal (@length string)) in WL.
    rewrite app_length in WL. cbn in WL. lia.
  - unfold read_main. rewrite WL, rev_app_distr. cbn [rev app]. rewrite W in R. rewrite R, rev_involutive. reflexivity.
Qed.

(** ** Whole reactions *)
Hypothesis REPR : prints repr.

Lemma print_list l : Forall finite l ->
  exists v, read_nums (map repr l) = Some v /\ Forall token (map repr l) /\ precise_all l v.
Proof.
  intros F. induction F as [|x l [q ->] F [v [R [T P]]]].
  - exists nil. repeat split; constructor.
  - destruct (REPR q) as [TQ [w [RQ PQ]]]. exists (w :: v). cbn [map read_nums]. rewrite RQ, R.
    repeat split; try constructor; auto; try apply TQ. exists q. auto.
Qed.
Lemma body_join n l v : (0 < n)%nat -> Forall token l -> read_nums l = Some v -> body_of (String.concat (spaces n) l) v.
Proof.
  intros N T R. unfold body_of. rewrite words_join by assumption. split; [|split; [|exact R]].
  - apply free_concat; [apply free_spaces; reflexivity|]. eapply Forall_impl; [apply token_free_newline|exact T].
  - apply free_concat; [apply free_spaces; reflexivity|]. eapply Forall_impl; [apply token_free_slash|exact T].
Qed.
Lemma unlines_one s : unlines [s] "" = s ++ newline.
Proof. reflexivity. Qed.
Lemma concat_lines l : String.concat "" (map (fun s => s ++ newline) l) = unlines l "".
Proof.
  induction l as [|x l IH]; [reflexivity|]. cbn [map unlines fold_right]. fold (unlines l ""). rewrite <- IH.
  destruct l as [|y l]; [reflexivity|]. cbn [map].
  match goal with |- String.concat ?s (?x :: ?y :: ?t) = _ => change (String.concat s (x :: y :: t)) with (x ++ s ++ String.concat s (y :: t)) end.
  rewrite app_assoc_s. reflexivity.
Qed.

Lemma broadening_ok k : whole_broadening k ->
  exists dl data, falloff_text repr k = Ok (unlines dl "") /\ Forall2 aux_line dl data /\ broadening k data.
Proof.
  intros [c [H1 [H2 H3]]]. unfold falloff_text. rewrite H1. cbn [attr bind].
  destruct (print_list c H2) as [v [R [T P]]].
  assert (B := body_join 2 (map repr c) v ltac:(lia) T R).
  destruct H3 as [->|[[S L]|[S L]]].
  - exists nil, nil. repeat split; try constructor. exact H1.
  - destruct c as [|c0 [|c1 [|c2 [|c3 [|c4 c]]]]]; try discriminate L.
    cbn [length Nat.ltb Nat.leb]. unfold build_falloff. rewrite S. cbn [String.eqb Ascii.eqb Bool.eqb].
    cbn [mapM item nth_error bind].
    eexists [_], [Data "TROE" v]. split; [|split].
    + rewrite unlines_one. f_equal. change ("TROE / ") with ("TROE" ++ " / ").
      instantiate (1 := "TROE" ++ " / " ++ String.concat (spaces 2) (map repr [c0; c1; c2; c3]) ++ " /").
      rewrite !app_assoc_s. reflexivity.
    + constructor; [|constructor]. apply data_line; [cbn; auto|exact B].
    + exact (troe k _ v H1 S P).
  - destruct c as [|c0 [|c1 [|c2 [|c3 [|c4 [|c5 c]]]]]]; try discriminate L.
    cbn [length Nat.ltb Nat.leb]. unfold build_falloff. rewrite S. cbn [String.eqb Ascii.eqb Bool.eqb].
    cbn [mapM item nth_error bind].
    eexists [_], [Data "SRI" v]. split; [|split].
    + rewrite unlines_one. f_equal. change ("SRI / ") with ("SRI" ++ " / ").
      instantiate (1 := "SRI" ++ " / " ++ String.concat (spaces 2) (map repr [c0; c1; c2; c3; c4]) ++ " /").
      rewrite !app_assoc_s. reflexivity.
    + constructor; [|constructor]. apply data_line; [cbn; auto|exact B].
    + exact (sri k _ v H1 S P).
Qed.

Lemma mapM_plog r n l : order r n -> small n -> Forall (fun e : Q * arr => finite_arr (snd e)) l ->
  (forall e x, In e l -> In x (Fin (fst e) :: arr_numbers (snd e)) -> ok x) ->
  exists ls data,
    mapM (fun e => bind (build_arrhenius ar (snd e) (order_of r) "pressure-dependent-Arrhenius") (fun s =>
            Ok ("PLOG / " ++ repr (over ar (Fin (fst e)) (Fin one_atm)) ++ " " ++ s ++ " /" ++ newline))) l
      = Ok (map (fun s => s ++ newline) ls) /\
    Forall2 aux_line ls data /\
    Forall2 (fun e x => exists cp vp w, x = Data "PLOG" (vp :: w) /\
               conv (atm (fst e)) cp /\ precise cp vp /\ shows n (to_decimals 2) (snd e) w) l data.
Proof.
  intros O SM F OK. induction F as [|[p a] l Ha F IH].
  - exists nil, nil. repeat split; constructor.
  - destruct IH as [ls [data [IH1 [IH2 IH3]]]]; [intros e x I; apply OK; right; exact I|].
    assert (OKh := fun x => OK (p, a) x (or_introl eq_refl)). cbn [snd fst] in *.
    assert (OK1 : (order_of r - 1 == inject_Z (n - 1))%Q).
    { rewrite (order_of_spec r n O). unfold Zminus. rewrite inject_Z_plus. reflexivity. }
    destruct (build_ok n n (order_of r - 1) a Ha (fun x I => OKh x (or_intror I)) SM ltac:(lia) OK1) as [[w [TW SW]] _].
    destruct (cv_atm _ _ _ _ CV p (OKh _ (or_introl eq_refl))) as [cp [XP CP]].
    destruct (REPR cp) as [TP [vp [RP PP]]].
    cbn [mapM]. unfold build_arrhenius at 1.
    change (str_in "pressure-dependent-Arrhenius" ["Arrhenius"; "pressure-dependent-Arrhenius"]) with true.
    cbv iota beta zeta. cbn [bind fst snd]. rewrite IH1. cbn [bind].
    set (s := arrhenius_text _ _ _) in *.
    exists (("PLOG" ++ " / " ++ (repr (Fin cp) ++ " " ++ s) ++ " /") :: ls), (Data "PLOG" (vp :: w) :: data).
    split; [|split].
    + cbn [map]. f_equal. f_equal. rewrite XP.
      change "PLOG / " with ("PLOG" ++ " / "). rewrite !app_assoc_s. reflexivity.
    + constructor; [|exact IH2]. apply data_line; [cbn; auto 10|].
      destruct TW as [[N1 [N2 N3]] _]. unfold body_of. rewrite !free_app.
      change " " with (spaces 1). rewrite words_spaces_m by lia. rewrite (words_token _ TP).
      cbn [app read_nums]. rewrite RP, N3.
      repeat split; auto; [apply token_free_newline|apply token_free_slash]; exact TP.
    + constructor; [|exact IH3]. exists cp, vp, w. auto.
Qed.

Lemma cheb_row l : Forall finite l ->
  exists v, body_of (String.concat " " (map (xsci 6) l)) v /\ Forall2 (fun c y => exists q, c = Fin q /\ to_digits 6 q y) l v.
Proof.
  intros F.
  assert (A : exists v, read_nums (map (xsci 6) l) = Some v /\ Forall token (map (xsci 6) l) /\
                Forall2 (fun c y => exists q, c = Fin q /\ to_digits 6 q y) l v).
  { induction F as [|x l [q ->] F [v [R [T P]]]].
    - exists nil. repeat split; constructor.
    - destruct (read_sci 6 q) as [w [RQ PQ]]. exists (w :: v). cbn [map read_nums xsci xformat]. rewrite RQ, R.
      repeat split; try constructor; auto; try apply sci_token. exists q. auto. }
  destruct A as [v [R [T P]]]. exists v. split; [|exact P]. exact (body_join 1 _ v ltac:(lia) T R).
Qed.
Lemma cheb_rows l : Forall (Forall finite) l ->
  exists ls data,
    map (fun row => "CHEB / " ++ String.concat " " (map (xsci 6) row) ++ " /" ++ newline) l = map (fun s => s ++ newline) ls /\
    Forall2 aux_line ls data /\
    Forall2 (fun row x => exists v, x = Data "CHEB" v /\
               Forall2 (fun c y => exists q, c = Fin q /\ to_digits 6 q y) row v) l data.
Proof.
  intros F. induction F as [|row l H F [ls [data [IH1 [IH2 IH3]]]]].
  - exists nil, nil. repeat split; constructor.
  - destruct (cheb_row row H) as [v [B P]].
    exists (("CHEB" ++ " / " ++ String.concat " " (map (xsci 6) row) ++ " /") :: ls), (Data "CHEB" v :: data).
    split; [|split].
    + cbn [map]. rewrite IH1. f_equal. change "CHEB / " with ("CHEB" ++ " / "). rewrite !app_assoc_s. reflexivity.
    + constructor; [|exact IH2]. apply data_line; [cbn; auto 10|exact B].
    + constructor; [|exact IH3]. exists v. auto.
Qed.

Lemma shift_order r n (d : Z) : order r n -> (order_of r - inject_Z d == inject_Z (n - d))%Q.
Proof. intros O. rewrite (order_of_spec r n O). unfold Zminus. rewrite inject_Z_plus, inject_Z_opp. reflexivity. Qed.
Lemma order_up r n : order r n -> (order_of r == inject_Z (n + 1 - 1))%Q.
Proof. intros O. rewrite (order_of_spec r n O). replace (n + 1 - 1)%Z with n by lia. reflexivity. Qed.
Lemma two_bodies a b ra rb : token a -> token b -> read_num a = Some ra -> read_num b = Some rb -> body_of (a ++ "  " ++ b) [ra; rb].
Proof.
  intros Ta Tb Ra Rb. refine (body_join 2 [a; b] [ra; rb] _ _ _); [lia|repeat constructor; try apply Ta; apply Tb|].
  cbn [read_nums]. rewrite Ra, Rb. reflexivity.
Qed.

Lemma prefix_app p w : String.prefix p (p ++ w) = true.
Proof.
  induction p as [|c p IH]; [destruct w; reflexivity|]. cbn [String.append String.prefix].
  destruct (ascii_dec c c); [exact IH|contradiction].
Qed.

Lemma kinetics_ok r : exportable r -> in_scope ok small r ->
  exists s v dl data, main_line ar r = Ok s /\ triple_of s v /\
    auxiliary repr ar r = Ok (unlines dl "") /\ Forall2 aux_line dl data /\ kinetics r v data.
Proof.
  intros X [OK SM]. unfold rate_values in OK. destruct X as [n a T O A F|n low high T O L H FL FH B|n l T O P N F|c t0 t1 p0 p1 cols T C HT HP R N F].
  - assert (O1 := shift_order r n 1 O). change (inject_Z 1) with 1%Q in O1.
    assert (OKa : forall x, In x (arr_numbers a) -> ok x) by (intros x I; apply OK; rewrite A; rewrite !in_app_iff; cbn [opt]; auto 10).
    unfold main_line, auxiliary. destruct T as [T|T]; rewrite T.
    + destruct (build_ok n n _ a F OKa (SM n O) ltac:(lia) O1) as [[v [TV SV]] _].
      eexists _, v, nil, nil. split; [|split; [exact TV|split; [reflexivity|split; [constructor|]]]].
      * change (str_in "Arrhenius" ["Arrhenius"; "three-body-Arrhenius"]) with true. cbv iota. rewrite A. reflexivity.
      * exact (k_arrhenius conv r n a v T O A SV).
    + destruct (build_ok n (n + 1) _ a F OKa (SM n O) ltac:(lia) (order_up r n O)) as [[v [TV SV]] _].
      eexists _, v, nil, nil. split; [|split; [exact TV|split; [reflexivity|split; [constructor|]]]].
      * change (str_in "three-body-Arrhenius" ["Arrhenius"; "three-body-Arrhenius"]) with true. cbv iota. rewrite A. reflexivity.
      * exact (k_three_body conv r n a v T O A SV).
  - assert (OKl : forall x, In x (arr_numbers low) -> ok x) by (intros x I; apply OK; rewrite L; rewrite !in_app_iff; cbn [opt]; auto 10).
    assert (OKh : forall x, In x (arr_numbers high) -> ok x) by (intros x I; apply OK; rewrite H; rewrite !in_app_iff; cbn [opt]; auto 10).
    destruct (broadening_ok _ B) as [dl [data [D1 [D2 D3]]]].
    unfold main_line, auxiliary. destruct T as [T|T]; destruct T as [w T]; rewrite T.
    + assert (O1 := shift_order r n 1 O). change (inject_Z 1) with 1%Q in O1.
      destruct (build_ok n n _ high FH OKh (SM n O) ltac:(lia) O1) as [_ [v [TV SV]]].
      destruct (build_ok n (n + 1) _ low FL OKl (SM n O) ltac:(lia) (order_up r n O)) as [_ [u [TU SU]]].
      match type of TU with triple_of ?x _ => set (su := x) in TU end.
      eexists _, v, (("LOW" ++ " / " ++ su ++ " /") :: dl), (Data "LOW" u :: data). split; [|split; [exact TV|split; [|split]]].
      * change (str_in ("falloff-" ++ w) ["Arrhenius"; "three-body-Arrhenius"]) with false.
        unfold build_falloff_arrhenius. rewrite prefix_app, H. reflexivity.
      * unfold build_falloff_arrhenius. rewrite prefix_app. cbv iota. rewrite L. cbn [attr bind]. cbv beta zeta iota.
        cbn [bind]. rewrite D1. cbn [bind]. f_equal.
        cbn [unlines fold_right]. fold (unlines dl "").
        change "LOW / " with ("LOW" ++ " / "). rewrite !app_assoc_s. reflexivity.
      * constructor; [|exact D2]. apply data_line; [cbn; auto|exact (proj1 TU)].
      * exact (k_falloff conv r n low high v u data (ex_intro _ w T) O L H SV SU D3).
    + assert (O1 := shift_order r n 1 O). change (inject_Z 1) with 1%Q in O1.
      assert (O2 := shift_order r n 2 O). change (inject_Z 2) with 2%Q in O2. replace (n - 2)%Z with (n - 1 - 1)%Z in O2 by lia.
      destruct (build_ok n n _ low FL OKl (SM n O) ltac:(lia) O1) as [_ [v [TV SV]]].
      destruct (build_ok n (n - 1) _ high FH OKh (SM n O) ltac:(lia) O2) as [_ [u [TU SU]]].
      match type of TU with triple_of ?x _ => set (su := x) in TU end.
      eexists _, v, (("HIGH" ++ " / " ++ su ++ " /") :: dl), (Data "HIGH" u :: data). split; [|split; [exact TV|split; [|split]]].
      * change (str_in ("chemically-activated" ++ w) ["Arrhenius"; "three-body-Arrhenius"]) with false.
        unfold build_falloff_arrhenius. change (String.prefix "falloff-" ("chemically-activated" ++ w)) with false.
        rewrite prefix_app, L. reflexivity.
      * unfold build_falloff_arrhenius. change (String.prefix "falloff-" ("chemically-activated" ++ w)) with false.
        rewrite prefix_app. cbv iota. rewrite H. cbn [attr bind]. cbv beta zeta iota.
        cbn [bind]. rewrite D1. cbn [bind]. f_equal.
        cbn [unlines fold_right]. fold (unlines dl "").
        change "HIGH / " with ("HIGH" ++ " / "). rewrite !app_assoc_s. reflexivity.
      * constructor; [|exact D2]. apply data_line; [cbn; auto|exact (proj1 TU)].
      * exact (k_activated conv r n low high v u data (ex_intro _ w T) O L H SV SU D3).
  - assert (OKp : forall e x, In e l -> In x (Fin (fst e) :: arr_numbers (snd e)) -> ok x).
    { intros e x I J. apply OK. rewrite P. rewrite !in_app_iff. cbn [opt]. right; right; right; left.
      apply in_concat. eexists. split; [apply in_map_iff; exists e; split; [reflexivity|exact I]|exact J]. }
    destruct (mapM_plog r n l O (SM n O) F OKp) as [ls [data [M1 [M2 M3]]]].
    destruct l as [|[p a] l]; [contradiction|].
    assert (O1 := shift_order r n 1 O). change (inject_Z 1) with 1%Q in O1.
    assert (Fa : finite_arr a) by (inversion F; assumption).
    destruct (build_ok n n _ a Fa (fun x I => OKp (p, a) x (or_introl eq_refl) (or_intror I)) (SM n O) ltac:(lia) O1) as [[v [TV SV]] _].
    unfold main_line, auxiliary. rewrite T. eexists _, v, ls, data. split; [|split; [exact TV|split; [|split; [exact M2|]]]].
    + change (str_in "pressure-dependent-Arrhenius" ["Arrhenius"; "three-body-Arrhenius"]) with false.
      change (String.prefix "falloff-" "pressure-dependent-Arrhenius") with false.
      change (String.prefix "chemically-activated" "pressure-dependent-Arrhenius") with false.
      change (String.eqb "pressure-dependent-Arrhenius" "Chebyshev") with false.
      change (String.eqb "pressure-dependent-Arrhenius" "pressure-dependent-Arrhenius") with true. cbv iota.
      rewrite P. reflexivity.
    + change (String.prefix "falloff-" "pressure-dependent-Arrhenius") with false.
      change (String.prefix "chemically-activated" "pressure-dependent-Arrhenius") with false.
      change (String.eqb "pressure-dependent-Arrhenius" "pressure-dependent-Arrhenius") with true. cbv iota.
      rewrite P. cbn [attr bind]. unfold plog_text. rewrite M1. cbn [bind]. rewrite concat_lines. reflexivity.
    + exact (k_plog conv r n p a l v data T O P SV M3).
  - destruct (cheb_rows (ch_data c) F) as [ls [data [R1 [R2 R3]]]].
    destruct (REPR t0) as [Tt0 [vt0 [Rt0 Pt0]]]. destruct (REPR t1) as [Tt1 [vt1 [Rt1 Pt1]]].
    assert (OKc : forall x, In x (ch_P c) -> ok x) by (intros x I; apply OK; rewrite C; rewrite !in_app_iff; cbn [opt]; rewrite !in_app_iff; auto 10).
    rewrite HP in OKc.
    destruct (cv_atm _ _ _ _ CV p0 (OKc _ (or_introl eq_refl))) as [c0 [X0 C0]].
    destruct (cv_atm _ _ _ _ CV p1 (OKc _ (or_intror (or_introl eq_refl)))) as [c1 [X1 C1]].
    destruct (REPR c0) as [Tp0 [vp0 [Rp0 Pp0]]]. destruct (REPR c1) as [Tp1 [vp1 [Rp1 Pp1]]].
    destruct (read_str_nat (length (ch_data c))) as [vn [Rn Pn]]. destruct (read_str_nat cols) as [vc [Rc Pc]].
    unfold main_line, auxiliary. rewrite T.
    assert (TR : triple_of "1.0e0  0.0  0.0" [inject_Z (1 * 10) * Qpower 10 (0 - 1); inject_Z (1 * 0) * Qpower 10 (0 - 1); inject_Z (1 * 0) * Qpower 10 (0 - 1)]%Q).
    { apply (triple_text "1.0e0" "0.0" "0.0"); try reflexivity; (split; [discriminate|repeat split; reflexivity]). }
    exists "1.0e0  0.0  0.0". eexists.
    exists (("TCHEB" ++ " / " ++ (repr (Fin t0) ++ "  " ++ repr (Fin t1)) ++ " /")
            :: ("PCHEB" ++ " / " ++ (repr (Fin c0) ++ "  " ++ repr (Fin c1)) ++ " /")
            :: ("CHEB" ++ " / " ++ (str_int (Z.of_nat (length (ch_data c))) ++ "  " ++ str_int (Z.of_nat cols)) ++ " /")
            :: ls).
    exists (Data "TCHEB" [vt0; vt1] :: Data "PCHEB" [vp0; vp1] :: Data "CHEB" [vn; vc] :: data).
    split; [reflexivity|]. split; [exact TR|]. split; [|split].
    + change (String.prefix "falloff-" "Chebyshev") with false.
      change (String.prefix "chemically-activated" "Chebyshev") with false.
      change (String.eqb "Chebyshev" "pressure-dependent-Arrhenius") with false.
      change (String.eqb "Chebyshev" "Chebyshev") with true. cbv iota.
      rewrite C. cbn [attr bind]. unfold cheb_text. rewrite HT, HP. cbn [item nth_error bind]. cbv zeta.
      rewrite R1, concat_lines. rewrite X0, X1.
      assert (CC : match ch_data c with [] => 0%nat | r0 :: _ => length r0 end = cols).
      { destruct (ch_data c) as [|row rows]; [contradiction|]. apply R. left. reflexivity. }
      rewrite CC. f_equal. cbn [unlines fold_right]. fold (unlines ls "").
      change "TCHEB / " with ("TCHEB" ++ " / "). change "PCHEB / " with ("PCHEB" ++ " / "). change "CHEB / " with ("CHEB" ++ " / ").
      rewrite !app_assoc_s. reflexivity.
    + repeat (constructor; [apply data_line; [cbn; auto 10|apply two_bodies; try apply str_nat_token; assumption]|]). exact R2.
    + eapply (k_chebyshev conv r c t0 t1 p0 p1 cols _ _ [c0; c1]); eauto;
        repeat constructor; try assumption; try (symmetry; assumption).
Qed.

Lemma third_ok names t : Forall usable_name names ->
  (forall c, t = Some c -> Forall (fun e => finite (snd e)) (co_effs c)) ->
  exists el effs, efficiencies_text repr names t = unlines el "" /\ Forall2 aux_line el effs /\ third names t effs.
Proof.
  intros U H. destruct t as [c|]; [|exists nil, nil; repeat split; constructor].
  specialize (H c eq_refl). cbn [efficiencies_text third].
  assert (EQ : filter (fun e : string * xnum => str_in (fst e) names) (co_effs c) =
               filter (fun e => if in_dec string_dec (fst e) names then true else false) (co_effs c)).
  { apply filter_ext. intros e. unfold str_in. destruct (in_dec string_dec (fst e) names) as [I|I].
    - apply existsb_exists. exists (fst e). split; [exact I|apply String.eqb_refl].
    - destruct (existsb (String.eqb (fst e)) names) eqn:E; [|reflexivity]. exfalso. apply I.
      apply existsb_exists in E. destruct E as [y [Iy Ey]]. apply String.eqb_eq in Ey. rewrite Ey. exact Iy. }
  rewrite <- EQ. set (kept := filter _ (co_effs c)) in *.
  assert (K : Forall (fun e => usable_name (fst e) /\ finite (snd e)) kept).
  { apply Forall_forall. intros e I. apply filter_In in I. destruct I as [I1 I2]. rewrite Forall_forall in H, U. split; [|apply H; exact I1].
    apply U. unfold str_in in I2. apply existsb_exists in I2. destruct I2 as [y [Iy Ey]]. apply String.eqb_eq in Ey. rewrite Ey. exact Iy. }
  clearbody kept. clear H EQ.
  assert (L : exists f, Forall2 (fun e x => usable_name (fst e) /\ token (snd e) /\ fst e = fst x /\ read_num (snd e) = Some (snd x))
                         (map (fun e => (fst e, repr (snd e))) kept) f /\
                       Forall2 (fun e f => fst e = fst f /\ precise_x (snd e) (snd f)) kept f).
  { induction K as [|[a x] kept [Ha [q Hx]] K [f [F1 F2]]]; [exists nil; split; constructor|].
    cbn [fst snd] in *. subst x. destruct (REPR q) as [TQ [w [RQ PQ]]]. exists ((a, w) :: f). split; constructor; auto.
    split; [reflexivity|]. exists q. auto. }
  destruct L as [f [F1 F2]].
  assert (J : String.concat "  " (map (fun e => fst e ++ "/" ++ repr (snd e) ++ "/") kept) = effs_join (map (fun e => (fst e, repr (snd e))) kept)).
  { unfold effs_join. rewrite map_map. reflexivity. }
  rewrite J. destruct kept as [|e kept].
  - inversion F2; subst. exists nil, nil. repeat split; try constructor. exists nil. split; [constructor|reflexivity].
  - assert (NE : map (fun e => (fst e, repr (snd e))) (e :: kept) <> []) by discriminate.
    assert (AL := eff_line _ f NE F1). set (s := effs_join _) in *.
    destruct (String.eqb_spec s "") as [E|E].
    { exfalso. destruct AL as [_ [_ [A _]]]. rewrite E in A. discriminate. }
    exists [s], [Efficiencies f]. split; [reflexivity|]. split; [constructor; [exact AL|constructor]|].
    exists f. split; [exact F2|]. inversion F2; subst. reflexivity.
Qed.

Definition main_of (l : string) (e : entry) : Prop :=
  free is_newline l /\ l <> "END" /\ is_aux l = false /\ read_main l = Some (e_equation e, e_rate e).

Lemma reaction_ok names r : Forall usable_name names -> usable_reaction r -> in_scope ok small r ->
  exists main auxl e, reaction_text repr ar names r = Ok (unlines (main :: auxl) "") /\
    main_of main e /\ Forall2 aux_line auxl (e_aux e) /\ describes_by conv names r e.
Proof.
  intros U [E [X T]] SC.
  destruct (kinetics_ok r X SC) as [s [v [dl [data [K1 [K2 [K3 [K4 K5]]]]]]]].
  destruct (third_ok names (cr_third r) U T) as [el [effs [T1 [T2 T3]]]].
  set (du := if cr_duplicate r then ["DUPLICATE"] else @nil string).
  set (dd := if cr_duplicate r then [Duplicate] else @nil aux).
  exists (ljust 51 (cr_equation r) ++ s), (el ++ dl ++ du)%list, (mkEntry (squeeze (cr_equation r)) v (effs ++ data ++ dd)).
  split; [|split; [|split]].
  - unfold reaction_text. rewrite K1, K3, T1. cbn [bind]. f_equal.
    cbn [unlines fold_right]. fold (unlines (el ++ dl ++ du) ""). rewrite !unlines_app.
    rewrite (unlines_end el (unlines dl _)), (unlines_end dl (unlines du _)). rewrite !app_assoc_s. unfold du. destruct (cr_duplicate r); reflexivity.
  - exact (ljust_main _ s v E K2).
  - cbn [e_aux]. apply Forall2_app; [exact T2|]. apply Forall2_app; [exact K4|].
    unfold du, dd. destruct (cr_duplicate r); [constructor; [exact dup_line|]|]; constructor.
  - exists effs, data. repeat split; auto.
Qed.

Lemma group_aux l x rest es : Forall2 aux_line l x -> group rest = Some (nil, es) -> group (l ++ rest) = Some (x, es).
Proof.
  intros F G. induction F as [|s a l x [_ [_ [H1 H2]]] F IH]; [exact G|].
  cbn [app group]. rewrite IH, H1, H2. reflexivity.
Qed.

Lemma reactions_ok names l : Forall usable_name names -> Forall usable_reaction l -> Forall (in_scope ok small) l ->
  exists ls es, write_each (reaction_text repr ar names) l = (unlines ls "", Ok tt) /\
    Forall (free is_newline) ls /\ ~ In "END" ls /\ group ls = Some (nil, es) /\ Forall2 (describes_by conv names) l es.
Proof.
  intros U F SC. revert SC. induction F as [|r l Hr F IH]; intros SC.
  - exists nil, nil. split; [reflexivity|]. split; [constructor|]. split; [intros []|]. split; [reflexivity|constructor].
  - inversion_clear SC as [|? ? Sr Sl]. destruct (IH Sl) as [ls [es [I1 [I2 [I3 [I4 I5]]]]]].
    destruct (reaction_ok names r U Hr Sr) as [m [al [e [R1 [[M1 [M2 [M3 M4]]] [R3 R4]]]]]].
    exists ((m :: al) ++ ls)%list, (e :: es). split; [|split; [|split; [|split]]].
    + cbn [write_each]. rewrite R1, I1. rewrite unlines_app, (unlines_end (m :: al) (unlines ls "")). reflexivity.
    + apply Forall_app. split; [|exact I2]. constructor; [exact M1|]. clear - R3.
      induction R3 as [|? ? ? ? [H _] ? IH]; constructor; auto.
    + rewrite in_app_iff. cbn [In]. intros [[H|H]|H]; [congruence| |auto].
      clear - R3 H. induction R3 as [|? ? ? ? [_ [N _]] ? IH]; [exact H|]. destruct H; [congruence|auto].
    + cbn [app group]. rewrite (group_aux al (e_aux e) ls es R3 I4). rewrite M3, M4. destruct e; reflexivity.
    + constructor; assumption.
Qed.

(** ** The file *)
Lemma before_spec stop a b : ~ In stop a -> before stop (a ++ stop :: b) = a.
Proof.
  induction a as [|x a IH]; cbn [app before]; intros N.
  - rewrite String.eqb_refl. reflexivity.
  - destruct (String.eqb_spec x stop) as [->|]; [exfalso; apply N; left; reflexivity|].
    f_equal. apply IH. intros I. apply N. right. exact I.
Qed.
Lemma after_spec start a b : ~ In start a -> after start (a ++ start :: b) = b.
Proof.
  induction a as [|x a IH]; cbn [app after]; intros N.
  - rewrite String.eqb_refl. reflexivity.
  - destruct (String.eqb_spec x start) as [->|]; [exfalso; apply N; left; reflexivity|].
    apply IH. intros I. apply N. right. exact I.
Qed.

Definition keyword_free (k : string) (names : list string) : Prop := ~ In k names.
Lemma line_no_keyword k names ls : token k -> ~ In k names -> concat (map words ls) = names -> ~ In k ls.
Proof.
  intros T N E I. apply N. rewrite <- E. apply in_concat. exists (words k). split; [apply in_map; exact I|].
  rewrite (words_token k T). left. reflexivity.
Qed.
Lemma keyword_token k : In k section_keywords -> token k.
Proof. cbn. intros H. repeat destruct H as [<-|H]; try (split; [discriminate|repeat split]). contradiction. Qed.
Lemma usable_no_keyword l k : Forall usable_name l -> In k section_keywords -> ~ In k l.
Proof.
  intros F K I. rewrite Forall_forall in F. destruct (F k I) as [_ N]. apply N. apply in_or_app. left. exact K.
Qed.

Lemma model_reads s : usable_model s -> Forall (in_scope ok small) (so_reactions s) ->
  exists text es, model_text repr ar s = (text, Ok tt) /\
    names_in "ELEMENTS" text = so_elements s /\
    names_in "SPECIES" text = map cs_name (so_species s) /\
    Forall (fits 60) (section "SPECIES" text) /\
    read_reactions text = Some es /\ Forall2 (describes_by conv (map cs_name (so_species s))) (so_reactions s) es.
Proof.
  intros [UN UE US UR] SC. unfold model_text.
  destruct (reactions_ok (map cs_name (so_species s)) (so_reactions s) US UR SC) as [ls [es [W [LN [LE [G D]]]]]].
  rewrite W.
  set (names := map cs_name (so_species s)) in *.
  set (joined := String.concat "  " names) in *.
  assert (TN : Forall token names) by (eapply Forall_impl; [|exact US]; intros a [T _]; exact T).
  assert (TE : Forall token (so_elements s)) by (eapply Forall_impl; [|exact UE]; intros a [T _]; exact T).
  assert (WJ : words joined = names) by (apply (words_join 2); [lia|exact TN]).
  assert (FJ : free is_newline joined).
  { apply free_concat; [cbn; auto|]. eapply Forall_impl; [apply token_free_newline|exact TN]. }
  set (el := String.concat "  " (so_elements s)) in *.
  assert (WE : words el = so_elements s) by (apply (words_join 2); [lia|exact TE]).
  assert (FE : free is_newline el).
  { apply free_concat; [cbn; auto|]. eapply Forall_impl; [apply token_free_newline|exact TE]. }
  destruct (fill_lines 60 joined FJ) as [fl [_ [FL2 [FL3 FL4]]]].
  set (title := "!Chemkin file converted from solution object: " ++ so_name s).
  assert (TX : model_header s ++ unlines ls "" ++ "END" =
    unlines ([title; ""; "ELEMENTS"; el; "END"; ""; "SPECIES"] ++ fl ++ ["END"; ""; "REACTIONS"] ++ ls) "END").
  { unfold model_header. fold names joined el.
    rewrite !unlines_app. rewrite (unlines_end fl), <- FL2.
    rewrite (unlines_end ls "END"). unfold title. cbn [unlines fold_right]. rewrite !app_assoc_s. reflexivity. }
  exists (model_header s ++ unlines ls "" ++ "END"), es. split; [reflexivity|]. rewrite TX.
  unfold names_in, read_reactions, section. rewrite lines_unlines.
  2:{ repeat (apply Forall_app; split); auto.
      - repeat constructor; auto.
      - eapply Forall_impl; [|exact FL4]. intros a [_ H]. exact H.
      - repeat constructor. }
  change (lines "END") with ["END"].
  assert (KE : forall k, In k section_keywords -> k <> el).
  { intros k K E. apply (usable_no_keyword _ k UE K). rewrite <- WE, <- E. rewrite (words_token k (keyword_token k K)). left. reflexivity. }
  assert (KF : forall k, In k section_keywords -> ~ In k fl).
  { intros k K. apply (line_no_keyword k names); [apply keyword_token; exact K|apply (usable_no_keyword _ k US K)|].
    rewrite FL3. exact WJ. }
  assert (KT : forall k, In k section_keywords -> k <> title /\ k <> "").
  { cbn. intros k H. repeat destruct H as [<-|H]; try (split; discriminate). contradiction. }
  assert (S1 : before "END" (after "ELEMENTS" ((([title; ""; "ELEMENTS"; el; "END"; ""; "SPECIES"] ++ fl ++ ["END"; ""; "REACTIONS"] ++ ls) ++ ["END"])%list)) = [el]).
  { cbn [app after]. destruct (String.eqb_spec title "ELEMENTS") as [E|_]; [discriminate|].
    change (String.eqb "" "ELEMENTS") with false. cbv iota. rewrite String.eqb_refl. cbn [before].
    destruct (String.eqb_spec el "END") as [E|_]; [|reflexivity]. exfalso. apply (KE "END"); [cbn; auto|auto]. }
  assert (S2 : before "END" (after "SPECIES" ((([title; ""; "ELEMENTS"; el; "END"; ""; "SPECIES"] ++ fl ++ ["END"; ""; "REACTIONS"] ++ ls) ++ ["END"])%list)) = fl).
  { replace (([title; ""; "ELEMENTS"; el; "END"; ""; "SPECIES"] ++ fl ++ ["END"; ""; "REACTIONS"] ++ ls) ++ ["END"])%list
      with ([title; ""; "ELEMENTS"; el; "END"; ""] ++ "SPECIES" :: (fl ++ "END" :: [""; "REACTIONS"] ++ ls ++ ["END"]))%list
      by (cbn [app]; rewrite <- !app_assoc; reflexivity).
    rewrite after_spec.
    - apply before_spec. apply KF. cbn. auto.
    - cbn. intros H. repeat destruct H as [H|H]; try discriminate; try contradiction. symmetry in H. revert H. apply KE. cbn. auto. }
  assert (S3 : before "END" (after "REACTIONS" ((([title; ""; "ELEMENTS"; el; "END"; ""; "SPECIES"] ++ fl ++ ["END"; ""; "REACTIONS"] ++ ls) ++ ["END"])%list)) = ls).
  { replace (([title; ""; "ELEMENTS"; el; "END"; ""; "SPECIES"] ++ fl ++ ["END"; ""; "REACTIONS"] ++ ls) ++ ["END"])%list
      with (([title; ""; "ELEMENTS"; el; "END"; ""; "SPECIES"] ++ fl ++ ["END"; ""]) ++ "REACTIONS" :: (ls ++ "END" :: nil))%list
      by (cbn [app]; rewrite <- !app_assoc; reflexivity).
    rewrite after_spec; [apply before_spec; exact LE|].
    rewrite !in_app_iff. intros [H|[H|H]].
    - cbn in H. repeat destruct H as [H|H]; try discriminate; try contradiction. symmetry in H. revert H. apply KE. cbn. auto.
    - revert H. apply KF. cbn. auto.
    - cbn in H. repeat destruct H as [H|H]; try discriminate; try contradiction. }
  rewrite S1, S2, S3, G. cbn [map concat]. rewrite app_nil_r.
  split; [exact WE|]. split; [rewrite FL3; exact WJ|]. split; [|split; [reflexivity|exact D]].
  eapply Forall_impl; [|exact FL4]. intros a [H _]. exact H.
Qed.
End Export.
