(** What [write] and [convert] leave and return. *)
From Coq Require Import String Ascii List Bool Arith ZArith QArith Lia.
From Verif.Base Require Import Py Num XNum Paths Text.
From Verif.Model Require Import Chem Compare Chemkin.
From Verif.Spec Require Import TextSpec ChemkinSpec CardSpec ExportSpec.
From Verif.Proofs Require Import FormatFacts TextFacts WrapFacts ChemkinFacts CardFacts.
Import ListNotations.
Local Open Scope string_scope.

(** ** Names *)
Lemma list_app a b : list_ascii_of_string (a ++ b) = (list_ascii_of_string a ++ list_ascii_of_string b)%list.
Proof. induction a as [|c a IH]; cbn; [reflexivity|]. now rewrite IH. Qed.
Lemma rsplit_none c l : ~ In c l -> rsplit c l = None.
Proof.
  induction l as [|x l IH]; [reflexivity|]. cbn [rsplit In]. intros H. rewrite IH by tauto.
  destruct (Ascii.eqb_spec x c); [tauto|reflexivity].
Qed.
Lemma rsplit_last c a b : ~ In c b -> rsplit c (a ++ c :: b) = Some (a, c :: b).
Proof.
  intros H. induction a as [|x a IH]; cbn [app rsplit]; [|rewrite IH; reflexivity].
  rewrite (rsplit_none c b H). rewrite Ascii.eqb_refl. reflexivity.
Qed.
Lemma free_in p c s : p c = true -> free p s -> ~ In c (list_ascii_of_string s).
Proof.
  intros P. induction s as [|x s IH]; cbn; [tauto|]. intros [A B] [->|H]; [congruence|tauto].
Qed.
Lemma after_slash_app d b : ~ In slash b -> after_slash (d ++ slash :: b) = b.
Proof. intros H. unfold after_slash. rewrite (rsplit_last slash d b H). reflexivity. Qed.
Lemma after_slash_none b : ~ In slash b -> after_slash b = b.
Proof. intros H. unfold after_slash. now rewrite (rsplit_none slash b H). Qed.

Lemma inside_app d b e : inside d (b ++ e) = inside d b ++ e.
Proof. unfold inside. destruct (String.eqb d ""); [reflexivity|]. rewrite !app_assoc_s. reflexivity. Qed.
Lemma stem_dots b : stem b -> all_dots (list_ascii_of_string b) = false.
Proof.
  intros [N [_ D]]. destruct b as [|c b]; [congruence|]. cbn in D. destruct D as [D _].
  cbn [list_ascii_of_string all_dots forallb]. unfold is_dot in D.
  unfold dot. rewrite Ascii.eqb_sym, D. reflexivity.
Qed.
Lemma base_of d b e : stem b -> extension e ->
  after_slash (list_ascii_of_string (inside d b ++ e)) = (list_ascii_of_string b ++ list_ascii_of_string e)%list.
Proof.
  intros [N [S D]] [w [-> [SW DW]]].
  assert (NI : ~ In slash (list_ascii_of_string b ++ list_ascii_of_string ("." ++ w))%list).
  { rewrite in_app_iff. intros [H|H]; [revert H; apply (free_in is_slash); auto|].
    cbn [append list_ascii_of_string In] in H. destruct H as [H|H]; [discriminate|]. revert H. apply (free_in is_slash); auto. }
  unfold inside. destruct (String.eqb d "").
  - rewrite list_app. apply after_slash_none, NI.
  - rewrite !list_app. cbn [list_ascii_of_string]. rewrite <- !app_assoc. cbn [app]. apply after_slash_app, NI.
Qed.
Lemma string_list s : string_of_list_ascii (list_ascii_of_string s) = s.
Proof. apply string_of_list_ascii_of_string. Qed.
Lemma splitext_inside d b e : stem b -> extension e -> splitext (inside d b ++ e) = (inside d b, e).
Proof.
  intros SB E. unfold splitext. rewrite (base_of d b e SB E). assert (DT := stem_dots b SB).
  destruct E as [w [-> [SW DW]]]. cbn [append list_ascii_of_string].
  change "."%char with dot. rewrite rsplit_last by (apply (free_in is_dot); auto). rewrite DT.
  f_equal.
  - rewrite list_app, app_length. cbn [list_ascii_of_string length].
    replace (length (list_ascii_of_string (inside d b)) + S (length (list_ascii_of_string w)) - S (length (list_ascii_of_string w)))%nat
      with (length (list_ascii_of_string (inside d b)) + 0)%nat by lia.
    rewrite firstn_app_2. cbn [firstn]. rewrite app_nil_r. apply string_list.
  - cbn [string_of_list_ascii]. rewrite string_list. reflexivity.
Qed.
Lemma basename_inside d b e : stem b -> extension e -> basename (inside d b ++ e) = b ++ e.
Proof. intros S E. unfold basename. rewrite (base_of d b e S E), <- list_app. apply string_list. Qed.

Lemma last_char_snoc d c : last_char d = Some c -> exists t, d = t ++ String c "".
Proof.
  induction d as [|x d IH]; [discriminate|]. destruct d as [|y d].
  - cbn. intros E. injection E as <-. exists "". reflexivity.
  - intros E. destruct (IH E) as [t ->]. exists (String x t). reflexivity.
Qed.
Lemma last_char_none d : last_char d = None -> d = "".
Proof. induction d as [|x d IH]; [reflexivity|]. destruct d; [discriminate|]. intros E. specialize (IH E). discriminate. Qed.
Lemma join_inside d b e : directory d -> stem b -> path_join d (b ++ e) = inside d b ++ e.
Proof.
  intros D [N [S _]]. destruct b as [|c b]; [congruence|]. unfold path_join. cbn [append]. cbn in S. destruct S as [S _].
  unfold is_slash in S. unfold slash at 1. rewrite S. unfold inside.
  destruct (last_char d) as [l|] eqn:E.
  - destruct (last_char_snoc d l E) as [t T].
    destruct (Ascii.eqb_spec l slash) as [->|_]; [exfalso; exact (D t T)|].
    destruct (String.eqb_spec d "") as [->|_]; [destruct t; discriminate|]. rewrite !app_assoc_s. reflexivity.
  - rewrite (last_char_none d E). reflexivity.
Qed.
Lemma ext_inp : extension ".inp".
Proof. exists "inp". split; [reflexivity|]. split; cbn; auto 10. Qed.

(** ** Loops that write *)
Lemma write_each_app {A} (f : A -> res string) a b :
  write_each f (a ++ b) =
  match write_each f a with
  | (t, Ok _) => let '(u, r) := write_each f b in (t ++ u, r)
  | x => x
  end.
Proof.
  induction a as [|x a IH]; cbn [app write_each].
  - destruct (write_each f b). reflexivity.
  - destruct (f x) as [s|e|]; try reflexivity. rewrite IH. destruct (write_each f a) as [t [u|e|]]; try reflexivity.
    destruct (write_each f b). rewrite app_assoc_s. reflexivity.
Qed.
Lemma write_each_ok {A} (f : A -> res string) l :
  snd (write_each f l) = Ok tt <-> Forall (fun x => exists s, f x = Ok s) l.
Proof.
  induction l as [|x l IH]; cbn [write_each]; [split; [constructor|reflexivity]|].
  destruct (f x) as [s|e|] eqn:E.
  - destruct (write_each f l) as [u r]. cbn [snd] in *. rewrite IH. split; intros H.
    + constructor; [exists s; exact E|exact H].
    + exact (Forall_inv_tail H).
  - cbn [snd]. split; [discriminate|]. intros H. destruct (Forall_inv H) as [s H']. congruence.
  - cbn [snd]. split; [discriminate|]. intros H. destruct (Forall_inv H) as [s H']. congruence.
Qed.
Lemma write_each_unit {A} (f : A -> res string) l u : snd (write_each f l) = Ok u -> snd (write_each f l) = Ok tt.
Proof. destruct u. auto. Qed.

(** ** Success *)
Section Write.
Variable repr : xnum -> string.
Variable ar : arith.

Lemma starts_prefix p s : starts p s <-> String.prefix p s = true.
Proof.
  split.
  - intros [w ->]. apply prefix_app.
  - revert s. induction p as [|c p IH]; intros s H; [exists s; reflexivity|].
    destruct s as [|d s]; [discriminate|]. cbn in H. destruct (ascii_dec c d) as [->|]; [|discriminate].
    destruct (IH s H) as [w ->]. exists w. reflexivity.
Qed.
Lemma attr_ok {A} (o : option A) s (f : A -> res s) x : bind (attr o) f = Ok x -> exists a, o = Some a /\ f a = Ok x.
Proof. destruct o as [a|]; cbn; [|discriminate]. eauto. Qed.

Lemma item_some {A} (l : list A) i : (i < length l)%nat -> exists a, item l i = Ok a.
Proof.
  intros H. unfold item. destruct (nth_error l i) as [a|] eqn:E; [eauto|]. apply nth_error_None in E. lia.
Qed.
Lemma item_ok {A} (l : list A) i a : item l i = Ok a -> (i < length l)%nat.
Proof. unfold item. destruct (nth_error l i) eqn:E; [|discriminate]. intros _. apply nth_error_Some. congruence. Qed.
Lemma item_short {A} (l : list A) i : (length l <= i)%nat -> item l i = Raise IndexError.
Proof. intros H. unfold item. apply nth_error_None in H. rewrite H. reflexivity. Qed.
Lemma mapM_items {A} (c : list A) l : (forall i, In i l -> (i < length c)%nat) -> exists p, mapM (item c) l = Ok p.
Proof.
  induction l as [|i l IH]; intros H; [exists nil; reflexivity|].
  destruct (item_some c i) as [a Ha]; [apply H; left; reflexivity|].
  destruct IH as [p Hp]; [intros j J; apply H; right; exact J|].
  exists (a :: p). cbn [mapM]. rewrite Ha. cbn [bind]. rewrite Hp. reflexivity.
Qed.
Lemma mapM_items_inv {A} (c : list A) l p : mapM (item c) l = Ok p -> forall i, In i l -> (i < length c)%nat.
Proof.
  revert p. induction l as [|i l IH]; intros p H j J; [destruct J|]. cbn [mapM] in H.
  destruct (item c i) as [a| |] eqn:E; try discriminate. cbn [bind] in H.
  destruct (mapM (item c) l) as [q| |] eqn:M; try discriminate.
  destruct J as [<-|J]; [exact (item_ok _ _ _ E)|exact (IH q eq_refl j J)].
Qed.

Lemma broadening_iff k : (exists s, falloff_text repr k = Ok s) <-> enough_broadening k.
Proof.
  unfold falloff_text, enough_broadening. split.
  - intros [s H]. apply attr_ok in H. destruct H as [c [R H]]. exists c. split; [exact R|].
    destruct (Nat.ltb_spec 0 (length c)) as [L|L]; [|left; destruct c; [reflexivity|cbn in L; lia]].
    right. unfold build_falloff in H. destruct (String.eqb_spec (rt_sub k) "Troe") as [T|_].
    + left. split; [exact T|]. destruct (mapM (item c) [0; 1; 2; 3]%nat) as [p| |] eqn:M; try discriminate.
      assert (X := mapM_items_inv c _ p M 3%nat). cbn in X. lia.
    + destruct (String.eqb_spec (rt_sub k) "SRI") as [T|_]; [|discriminate].
      right. split; [exact T|]. destruct (mapM (item c) [0; 1; 2; 3; 4]%nat) as [p| |] eqn:M; try discriminate.
      assert (X := mapM_items_inv c _ p M 4%nat). cbn in X. lia.
  - intros [c [-> H]]. cbn [attr bind]. destruct (Nat.ltb_spec 0 (length c)) as [L|L]; [|eauto].
    destruct H as [->|[[-> H]|[-> H]]]; [cbn in L; lia| |]; unfold build_falloff; cbn [String.eqb Ascii.eqb Bool.eqb].
    + destruct (mapM_items c [0; 1; 2; 3]%nat) as [p ->]; [cbn; intros; lia|]. cbn [bind]. eauto.
    + destruct (mapM_items c [0; 1; 2; 3; 4]%nat) as [p ->]; [cbn; intros; lia|]. cbn [bind]. eauto.
Qed.

(** The type decides. *)
Lemma type_cases t :
  (t = "Arrhenius" \/ t = "three-body-Arrhenius") /\ str_in t ["Arrhenius"; "three-body-Arrhenius"] = true /\ String.prefix "falloff-" t = false /\ String.prefix "chemically-activated" t = false /\ t <> "pressure-dependent-Arrhenius" /\ t <> "Chebyshev" \/
  str_in t ["Arrhenius"; "three-body-Arrhenius"] = false /\ starts "falloff-" t /\ String.prefix "falloff-" t = true \/
  str_in t ["Arrhenius"; "three-body-Arrhenius"] = false /\ String.prefix "falloff-" t = false /\ starts "chemically-activated" t /\ String.prefix "chemically-activated" t = true \/
  t = "Chebyshev" \/ t = "pressure-dependent-Arrhenius" \/
  ~ known_type t /\ str_in t ["Arrhenius"; "three-body-Arrhenius"] = false /\ String.prefix "falloff-" t = false /\ String.prefix "chemically-activated" t = false /\ String.eqb t "Chebyshev" = false /\ String.eqb t "pressure-dependent-Arrhenius" = false.
Proof.
  destruct (string_dec t "Arrhenius") as [->|N1]; [left; repeat split; auto; discriminate|].
  destruct (string_dec t "three-body-Arrhenius") as [->|N2]; [left; repeat split; auto; discriminate|].
  assert (E : str_in t ["Arrhenius"; "three-body-Arrhenius"] = false).
  { cbn. apply String.eqb_neq in N1, N2. rewrite N1, N2. reflexivity. }
  right. destruct (String.prefix "falloff-" t) eqn:P1; [left; rewrite starts_prefix; auto|].
  right. destruct (String.prefix "chemically-activated" t) eqn:P2; [left; rewrite starts_prefix; auto|].
  right. destruct (string_dec t "Chebyshev") as [|N3]; [auto|].
  right. destruct (string_dec t "pressure-dependent-Arrhenius") as [|N4]; [auto|].
  right. split; [|apply String.eqb_neq in N3, N4; repeat split; auto].
  intros [H|[H|H]]; [cbn in H; intuition congruence| |]; apply starts_prefix in H; congruence.
Qed.

Lemma plog_builds a o : exists s, build_arrhenius ar a o "pressure-dependent-Arrhenius" = Ok s.
Proof. unfold build_arrhenius. cbn [str_in existsb String.eqb Ascii.eqb Bool.eqb orb]. eauto. Qed.
Lemma arr_builds a o t : t = "Arrhenius" \/ t = "three-body-Arrhenius" -> exists s, build_arrhenius ar a o t = Ok s.
Proof. intros [->| ->]; unfold build_arrhenius; cbn [str_in existsb String.eqb Ascii.eqb Bool.eqb orb]; eauto. Qed.
Lemma falloff_builds a o t b : String.prefix "falloff-" t = true \/ String.prefix "chemically-activated" t = true ->
  exists s, build_falloff_arrhenius ar a o t b = Ok s.
Proof.
  intros H. unfold build_falloff_arrhenius. destruct (String.prefix "falloff-" t); [eauto|].
  destruct H as [H|H]; [discriminate|]. rewrite H. eauto.
Qed.

Lemma mapM_total {A B} (f : A -> res B) l : (forall a, exists b, f a = Ok b) -> exists r, mapM f l = Ok r.
Proof.
  intros H. induction l as [|a l [r IH]]; [exists nil; reflexivity|]. destruct (H a) as [b E].
  exists (b :: r). cbn [mapM]. rewrite E. cbn [bind]. rewrite IH. reflexivity.
Qed.

Lemma cheb_iff c : (exists s, cheb_text repr ar c = Ok s) <-> (2 <= length (ch_T c))%nat /\ (2 <= length (ch_P c))%nat.
Proof.
  unfold cheb_text. split.
  - intros [s H]. destruct (item (ch_T c) 0); try discriminate. cbn [bind] in H.
    destruct (item (ch_T c) 1) eqn:T1; try discriminate. cbn [bind] in H.
    destruct (item (ch_P c) 0); try discriminate. cbn [bind] in H.
    destruct (item (ch_P c) 1) eqn:P1; try discriminate. apply item_ok in T1, P1. lia.
  - intros [HT HP]. destruct (item_some (ch_T c) 0) as [a ->]; [lia|]. destruct (item_some (ch_T c) 1) as [b ->]; [lia|].
    destruct (item_some (ch_P c) 0) as [p ->]; [lia|]. destruct (item_some (ch_P c) 1) as [q ->]; [lia|]. cbn [bind]. eauto.
Qed.

Lemma reaction_split names r : (exists s, reaction_text repr ar names r = Ok s) <->
  (exists a, main_line ar r = Ok a) /\ (exists x, auxiliary repr ar r = Ok x).
Proof.
  unfold reaction_text. split.
  - intros [s H]. destruct (main_line ar r) as [a| |]; try discriminate. cbn [bind] in H.
    destruct (auxiliary repr ar r) as [x| |]; try discriminate. eauto.
  - intros [[a ->] [x ->]]. cbn [bind]. eauto.
Qed.

Ltac type_in H := let X := fresh in intros X; rewrite ?X in H; cbn in H; try discriminate.

Lemma writable_iff names r : (exists s, reaction_text repr ar names r = Ok s) <-> writable r.
Proof.
  rewrite reaction_split. unfold main_line, auxiliary.
  destruct (type_cases (cr_type r)) as [[T [E [P1 [P2 [N1 N2]]]]]|[[E [S P]]|[[E [P1 [S P]]]|[T|[T|[K [E [P1 [P2 [N1 N2]]]]]]]]]].
  - rewrite E, P1, P2. apply String.eqb_neq in N1, N2. rewrite N1, N2. split.
    + intros [[a H] _]. apply attr_ok in H. destruct H as [b [H _]]. apply w_arrhenius; [exact T|congruence].
    + intros H. assert (R : rt_arr (cr_rate r) <> None).
      { destruct H as [_ H|[H|H]|e l H|c H]; try exact H; exfalso;
          [apply starts_prefix in H; congruence|apply starts_prefix in H; congruence|rewrite H in N1; discriminate|rewrite H in N2; discriminate]. }
      destruct (rt_arr (cr_rate r)) as [a|]; [|congruence]. cbn [attr bind]. split; [|eauto]. apply arr_builds, T.
  - rewrite E, P. split.
    + intros [[a H] [x X]]. apply attr_ok in H. destruct H as [hi [H _]]. apply attr_ok in X. destruct X as [lo [X Y]].
      destruct (build_falloff_arrhenius ar lo (order_of r) (cr_type r) true) as [s| |]; try discriminate. cbn [bind] in Y.
      destruct (falloff_text repr (cr_rate r)) as [f| |] eqn:F; try discriminate.
      apply w_falloff; [left; exact S|congruence|congruence|]. apply broadening_iff. eauto.
    + intros H. destruct H as [[H|H] _|_ L H B|e l H|c H].
      1,2: rewrite H in P; discriminate.
      2,3: rewrite H in P; discriminate.
      destruct (rt_low (cr_rate r)) as [lo|]; [|congruence]. destruct (rt_high (cr_rate r)) as [hi|]; [|congruence].
      cbn [attr bind]. split; [apply falloff_builds; auto|].
      destruct (falloff_builds lo (order_of r) (cr_type r) true) as [s ->]; [auto|]. cbn [bind].
      apply broadening_iff in B. destruct B as [f ->]. cbn [bind]. eauto.
  - rewrite E, P1, P. split.
    + intros [[a H] [x X]]. apply attr_ok in H. destruct H as [lo [H _]]. apply attr_ok in X. destruct X as [hi [X Y]].
      destruct (build_falloff_arrhenius ar hi (order_of r) (cr_type r) false) as [s| |]; try discriminate. cbn [bind] in Y.
      destruct (falloff_text repr (cr_rate r)) as [f| |] eqn:F; try discriminate.
      apply w_falloff; [right; exact S|congruence|congruence|]. apply broadening_iff. eauto.
    + intros H. destruct H as [[H|H] _|_ L H B|e l H|c H].
      1,2: rewrite H in P; discriminate.
      2,3: rewrite H in P; discriminate.
      destruct (rt_low (cr_rate r)) as [lo|]; [|congruence]. destruct (rt_high (cr_rate r)) as [hi|]; [|congruence].
      cbn [attr bind]. split; [apply falloff_builds; auto|].
      destruct (falloff_builds hi (order_of r) (cr_type r) false) as [s ->]; [auto|]. cbn [bind].
      apply broadening_iff in B. destruct B as [f ->]. cbn [bind]. eauto.
  - rewrite T. cbn [str_in existsb String.eqb Ascii.eqb Bool.eqb orb].
    change (String.prefix "falloff-" "Chebyshev") with false. change (String.prefix "chemically-activated" "Chebyshev") with false. cbv iota.
    split.
    + intros [_ [x X]]. apply attr_ok in X. destruct X as [c [R X]].
      destruct (proj1 (cheb_iff c) (ex_intro _ x X)) as [HT HP]. exact (w_chebyshev r c T R HT HP).
    + intros H. split; [eauto|]. destruct H as [[H|H] _|[[w H]|[w H]] _ _ _|e l H|c H R HT HP]; try (rewrite T in H; discriminate).
      rewrite R. cbn [attr bind]. apply cheb_iff. auto.
  - rewrite T. cbn [str_in existsb String.eqb Ascii.eqb Bool.eqb orb].
    change (String.prefix "falloff-" "pressure-dependent-Arrhenius") with false. change (String.prefix "chemically-activated" "pressure-dependent-Arrhenius") with false. cbv iota.
    split.
    + intros [[a H] _]. apply attr_ok in H. destruct H as [l [R H]]. destruct l as [|e l]; [discriminate|]. exact (w_plog r e l T R).
    + intros H. destruct H as [[H|H] _|[[w H]|[w H]] _ _ _|e l H R|c H]; try (rewrite T in H; discriminate).
      rewrite R. cbn [attr bind item nth_error]. split; [apply plog_builds|].
      unfold plog_text. destruct (mapM_total (fun e0 : Q * arr =>
          bind (build_arrhenius ar (snd e0) (order_of r) "pressure-dependent-Arrhenius") (fun s =>
          Ok ("PLOG / " ++ repr (over ar (Fin (fst e0)) (Fin one_atm)) ++ " " ++ s ++ " /" ++ newline))) (e :: l)) as [ls M].
      * intros x. destruct (plog_builds (snd x) (order_of r)) as [s ->]. cbn [bind]. eauto.
      * rewrite M. cbn [bind]. eauto.
  - rewrite E, P1, P2, N1, N2. split; [intros [[a H] _]; discriminate|].
    intros H. exfalso. apply K. unfold known_type. cbn [In].
    destruct H as [[H|H] _|[H|H] _ _ _|e l H|c H]; try symmetry in H; auto 12.
Qed.

Lemma unknown_raises names r : ~ known_type (cr_type r) -> reaction_text repr ar names r = Raise NotImplementedErr.
Proof.
  intros K. unfold reaction_text, main_line.
  destruct (type_cases (cr_type r)) as [[[T|T] _]|[[_ [S _]]|[[_ [_ [S _]]]|[T|[T|[_ [E [P1 [P2 [N1 N2]]]]]]]]]];
    try (exfalso; apply K; unfold known_type; cbn [In]; try symmetry in T; auto 12; fail).
  rewrite E, P1, P2, N1, N2. reflexivity.
Qed.
Lemma unknown_not_writable r : ~ known_type (cr_type r) -> ~ writable r.
Proof. intros K W. apply (writable_iff nil) in W. destruct W as [s W]. rewrite (unknown_raises nil r K) in W. discriminate. Qed.

Lemma broadening_short k c n f : (rt_sub k = "Troe" /\ f = 4%nat \/ rt_sub k = "SRI" /\ f = 5%nat) ->
  rt_falloff k = Some c -> length c = S n -> (S n < f)%nat -> falloff_text repr k = Raise IndexError.
Proof.
  intros S R L M. unfold falloff_text. rewrite R. cbn [attr bind]. rewrite L. cbn [Nat.ltb Nat.leb].
  unfold build_falloff.
  destruct c as [|c0 c]; [discriminate|]. injection L as L.
  destruct S as [[-> ->]|[-> ->]]; cbn [String.eqb Ascii.eqb Bool.eqb].
  - destruct c as [|c1 [|c2 [|c3 c]]]; try reflexivity. cbn in L. lia.
  - destruct c as [|c1 [|c2 [|c3 [|c4 c]]]]; try reflexivity. cbn in L. lia.
Qed.
Lemma short_raises names r low high c n f :
  starts "falloff-" (cr_type r) \/ starts "chemically-activated" (cr_type r) ->
  rt_low (cr_rate r) = Some low -> rt_high (cr_rate r) = Some high ->
  (rt_sub (cr_rate r) = "Troe" /\ f = 4%nat \/ rt_sub (cr_rate r) = "SRI" /\ f = 5%nat) ->
  rt_falloff (cr_rate r) = Some c -> length c = S n -> (S n < f)%nat ->
  reaction_text repr ar names r = Raise IndexError.
Proof.
  intros T L H S F N M. assert (B := broadening_short (cr_rate r) c n f S F N M).
  unfold reaction_text, main_line, auxiliary.
  destruct (type_cases (cr_type r)) as [[X [E [P1 [P2 _]]]]|[[E [_ P]]|[[E [P1 [_ P]]]|[X|[X|[K _]]]]]].
  - exfalso. destruct T as [T|T]; apply starts_prefix in T; congruence.
  - rewrite E, P, L, H. cbn [attr bind].
    destruct (falloff_builds high (order_of r) (cr_type r) false) as [s1 ->]; [auto|].
    destruct (falloff_builds low (order_of r) (cr_type r) true) as [s2 ->]; [auto|]. cbn [bind]. rewrite B. reflexivity.
  - rewrite E, P, P1, L, H. cbn [attr bind].
    destruct (falloff_builds high (order_of r) (cr_type r) false) as [s1 ->]; [auto|].
    destruct (falloff_builds low (order_of r) (cr_type r) true) as [s2 ->]; [auto|]. cbn [bind]. rewrite B. reflexivity.
  - exfalso. rewrite X in T. destruct T as [[w T]|[w T]]; discriminate.
  - exfalso. rewrite X in T. destruct T as [[w T]|[w T]]; discriminate.
  - exfalso. apply K. unfold known_type. auto.
Qed.

(** The texts never run out of fuel. *)
Lemma bind_fuel {A B} (x : res A) (f : A -> res B) : x <> NoFuel -> (forall a, f a <> NoFuel) -> bind x f <> NoFuel.
Proof. intros X F. destruct x; cbn [bind]; auto; discriminate. Qed.
Lemma attr_fuel {A} (o : option A) : attr o <> NoFuel.
Proof. destruct o; discriminate. Qed.
Lemma item_fuel {A} (l : list A) i : item l i <> NoFuel.
Proof. unfold item. destruct (nth_error l i); discriminate. Qed.
Lemma mapM_fuel {A B} (f : A -> res B) l : (forall a, f a <> NoFuel) -> mapM f l <> NoFuel.
Proof.
  intros H. induction l as [|a l IH]; cbn [mapM]; [discriminate|].
  apply bind_fuel; [apply H|]. intros b. apply bind_fuel; [exact IH|]. discriminate.
Qed.
Lemma build_fuel a o t : build_arrhenius ar a o t <> NoFuel.
Proof. unfold build_arrhenius. destruct (str_in t _); [discriminate|]. destruct (String.eqb t _); [discriminate|]. destruct (_ || _); discriminate. Qed.
Lemma build_falloff_fuel a o t b : build_falloff_arrhenius ar a o t b <> NoFuel.
Proof. unfold build_falloff_arrhenius. destruct (String.prefix _ t); [discriminate|]. destruct (String.prefix _ t); discriminate. Qed.
Lemma broadening_fuel k : falloff_text repr k <> NoFuel.
Proof.
  unfold falloff_text. apply bind_fuel; [apply attr_fuel|]. intros c. destruct (Nat.ltb 0 (length c)); [|discriminate].
  unfold build_falloff. destruct (String.eqb _ "Troe"); [|destruct (String.eqb _ "SRI"); [|discriminate]];
    (apply bind_fuel; [apply mapM_fuel; intros i; apply item_fuel|discriminate]).
Qed.
Lemma reaction_fuel names r : reaction_text repr ar names r <> NoFuel.
Proof.
  unfold reaction_text. apply bind_fuel; [|intros a; apply bind_fuel; [|discriminate]].
  - unfold main_line. destruct (str_in _ _); [apply bind_fuel; [apply attr_fuel|intros; apply build_fuel]|].
    destruct (String.prefix "falloff-" _); [apply bind_fuel; [apply attr_fuel|intros; apply build_falloff_fuel]|].
    destruct (String.prefix "chemically-activated" _); [apply bind_fuel; [apply attr_fuel|intros; apply build_falloff_fuel]|].
    destruct (String.eqb _ "Chebyshev"); [discriminate|].
    destruct (String.eqb _ _); [|discriminate]. apply bind_fuel; [apply attr_fuel|]. intros l.
    apply bind_fuel; [apply item_fuel|]. intros e. apply build_fuel.
  - unfold auxiliary.
    destruct (String.prefix "falloff-" _).
    { apply bind_fuel; [apply attr_fuel|]. intros x. apply bind_fuel; [apply build_falloff_fuel|]. intros s.
      apply bind_fuel; [apply broadening_fuel|discriminate]. }
    destruct (String.prefix "chemically-activated" _).
    { apply bind_fuel; [apply attr_fuel|]. intros x. apply bind_fuel; [apply build_falloff_fuel|]. intros s.
      apply bind_fuel; [apply broadening_fuel|discriminate]. }
    destruct (String.eqb _ "pressure-dependent-Arrhenius").
    { apply bind_fuel; [apply attr_fuel|]. intros l. unfold plog_text. apply bind_fuel; [|discriminate].
      apply mapM_fuel. intros e. apply bind_fuel; [apply build_fuel|discriminate]. }
    destruct (String.eqb _ "Chebyshev"); [|discriminate].
    apply bind_fuel; [apply attr_fuel|]. intros c. unfold cheb_text.
    repeat (apply bind_fuel; [apply item_fuel|intros ?]). discriminate.
Qed.
Lemma not_writable_raises names r : ~ writable r -> exists e, reaction_text repr ar names r = Raise e.
Proof.
  intros W. destruct (reaction_text repr ar names r) as [s|e|] eqn:E; [|eauto|].
  - exfalso. apply W. apply (writable_iff names). eauto.
  - exfalso. exact (reaction_fuel names r E).
Qed.
End Write.
