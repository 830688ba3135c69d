(** The command line: what is parsed is what the grammar says. *)
From Coq Require Import String Ascii List ZArith Bool Arith Lia.
From Verif.Model Require Import Cli.
From Verif.Spec Require Import CliSpec.
Import ListNotations.
Local Open Scope string_scope.

Lemma starts_prefix : forall p s, starts p s = true <-> prefix p s.
Proof.
  induction p as [|a p IH]; intros s.
  - split; [intros _; exists s; reflexivity|reflexivity].
  - destruct s as [|b s]; cbn [starts].
    + split; [discriminate|intros (r & E); discriminate].
    + rewrite andb_true_iff, Ascii.eqb_eq, IH. split.
      * intros (<- & r & ->). exists r. reflexivity.
      * intros (r & E). cbn in E. injection E as <- ->. split; [reflexivity|exists r; reflexivity].
Qed.

Lemma app_nil s : s ++ "" = s.
Proof. induction s as [|c s IH]; [reflexivity|]. cbn. now rewrite IH. Qed.
Lemma app_assoc_s a b c : (a ++ b) ++ c = a ++ b ++ c.
Proof. induction a as [|x a IH]; [reflexivity|]. cbn. now rewrite IH. Qed.

Definition name_of (o : opt) : string :=
  match o with
  | OHelp => "--help" | OInput => "--input" | OPath => "--path" | OThreads => "--num_threads" | OConvert => "--convert"
  | OModel => "--model" | OThermo => "--thermo" | OTransport => "--transport" | OVersion => "--version"
  end.
Lemma name_inj o o' : name_of o = name_of o' -> o = o'.
Proof. destruct o, o'; intros E; try reflexivity; discriminate E. Qed.
Lemma name_long o : In (name_of o) long_names.
Proof. destruct o; cbn; tauto. Qed.
Lemma long_name full : In full long_names -> exists o, name_of o = full.
Proof.
  cbn. intros H. repeat (destruct H as [H|H]; [symmetry in H|]); try contradiction H; subst full.
  - exists OHelp; reflexivity. - exists OInput; reflexivity. - exists OPath; reflexivity.
  - exists OThreads; reflexivity. - exists OConvert; reflexivity. - exists OModel; reflexivity.
  - exists OThermo; reflexivity. - exists OTransport; reflexivity. - exists OVersion; reflexivity.
Qed.

Definition longs : list (string * opt) := map (fun o => (name_of o, o)) [OHelp; OInput; OPath; OThreads; OConvert; OModel; OThermo; OTransport; OVersion].

Lemma filter_longs s : filter (fun x => starts ("--" ++ s) (fst x)) option_strings = filter (fun x => starts ("--" ++ s) (fst x)) longs.
Proof. destruct s; reflexivity. Qed.

Lemma abbreviates_filter s o :
  abbreviates ("--" ++ s) (name_of o) <-> filter (fun x => starts ("--" ++ s) (fst x)) longs = [(name_of o, o)].
Proof.
  assert (forall x, In x longs <-> exists o, x = (name_of o, o)) as L.
  { intros x. unfold longs. rewrite in_map_iff. split; [intros (y & <- & _); eauto|intros (y & ->)].
    exists y. split; [reflexivity|]. destruct y; cbn; tauto. }
  split.
  - intros (_ & P & U).
    assert (forall l, NoDup l -> (forall x, In x l -> starts ("--" ++ s) (fst x) = true -> x = (name_of o, o)) ->
              In (name_of o, o) l -> filter (fun x => starts ("--" ++ s) (fst x)) l = [(name_of o, o)]) as G.
    { clear - P. induction l as [|a l IH]; intros ND A I; [contradiction|]. inversion ND as [|? ? NI ND']; subst. cbn [filter].
      destruct I as [->|I].
      - cbn [fst]. rewrite (proj2 (starts_prefix _ _) P). f_equal.
        assert (forall x, In x l -> starts ("--" ++ s) (fst x) = false) as F.
        { intros x Ix. destruct (starts ("--" ++ s) (fst x)) eqn:E; [|reflexivity]. rewrite (A x (or_intror Ix) E) in Ix. contradiction. }
        clear - F. induction l as [|b l IH]; [reflexivity|]. cbn [filter]. rewrite (F b (or_introl eq_refl)).
        apply IH. intros x I. apply F. now right.
      - destruct (starts ("--" ++ s) (fst a)) eqn:E.
        + rewrite (A a (or_introl eq_refl) E) in NI. contradiction.
        + apply IH; auto. intros x Ix. apply A. now right. }
    apply G.
    + unfold longs. cbn. repeat (constructor; [cbn; intuition discriminate|]). constructor.
    + intros x I S. apply L in I. destruct I as (o' & ->). cbn [fst] in S. apply starts_prefix in S.
      specialize (U _ (name_long o') S). apply name_inj in U. now subst.
    + apply L. eauto.
  - intros F. assert (In (name_of o, o) (filter (fun x => starts ("--" ++ s) (fst x)) longs)) as I by (rewrite F; now left).
    apply filter_In in I. destruct I as (_ & S). apply starts_prefix in S. split; [apply name_long|]. split; [exact S|].
    intros other I P. destruct (long_name _ I) as (o' & <-). apply starts_prefix in P.
    assert (In (name_of o', o') (filter (fun x => starts ("--" ++ s) (fst x)) longs)) as I'.
    { apply filter_In. split; [apply L; eauto|exact P]. }
    rewrite F in I'. destruct I' as [I'|[]]. congruence.
Qed.

Lemma look_up_in s o : look_up s option_strings = Some o ->
  s = name_of o \/ exists c, s = String "-" (String c "") /\ In (c, name_of o) letters.
Proof.
  unfold option_strings. cbn [look_up].
  repeat match goal with
  | |- (if String.eqb s ?k then _ else _) = _ -> _ =>
      destruct (String.eqb_spec s k); [intros E; injection E as <-; subst s;
        first [left; reflexivity|right; eexists; split; [reflexivity|cbn; tauto]]|]
  end. discriminate.
Qed.
Lemma look_up_name o : look_up (name_of o) option_strings = Some o.
Proof. destruct o; reflexivity. Qed.
Lemma look_up_letter c o : In (c, name_of o) letters -> look_up (String "-" (String c "")) option_strings = Some o.
Proof.
  intros H. cbn in H. repeat (destruct H as [H|H]; [injection H as <- H|]); try contradiction H; destruct o; try discriminate H; reflexivity.
Qed.
Lemma letter_of c o : look_up (String "-" (String c "")) option_strings = Some o -> In (c, name_of o) letters.
Proof.
  intros H. apply look_up_in in H. destruct H as [H|(d & E & I)]; [destruct o; discriminate H|]. injection E as ->. exact I.
Qed.
Lemma letter_char c full : In (c, full) letters -> c <> "-"%char /\ c <> "="%char.
Proof. intros H. cbn in H. repeat (destruct H as [H|H]; [injection H as <- _; split; discriminate|]). contradiction. Qed.
Lemma look_up_long_short d s c : look_up (String "-" (String c (String d s))) option_strings = None \/ c = "-"%char.
Proof.
  destruct (Ascii.eqb_spec c "-"); [now right|left].
  destruct (look_up (String "-" (String c (String d s))) option_strings) as [o|] eqn:E; [|reflexivity].
  apply look_up_in in E. destruct E as [E|(d' & E & _)]; [|discriminate]. destruct o; cbn in E; congruence.
Qed.

(** The exact names abbreviate themselves. *)
Lemma self_abbreviates o : abbreviates (name_of o) (name_of o).
Proof.
  destruct o; match goal with |- abbreviates ?n _ => change n with ("--" ++ (match n with String _ (String _ r) => r | _ => "" end)) at 1 end;
    apply abbreviates_filter; reflexivity.
Qed.

Lemma no_eq_name : forall o w r, name_of o = w ++ r -> ~ contains "=" w.
Proof.
  intros o. assert (~ contains "=" (name_of o)) as N.
  { destruct o; cbn; intros H; repeat (destruct H as [H|H]; [discriminate H|]); exact H. }
  intros w r E H. apply N. rewrite E. clear - H. induction w as [|c w IH]; [contradiction|]. cbn in *. tauto.
Qed.
Lemma partition_none : forall s, ~ contains "=" s -> partition_eq s = (s, None).
Proof.
  induction s as [|c s IH]; intros H; [reflexivity|]. cbn [partition_eq]. destruct (Ascii.eqb_spec c "=") as [->|].
  - exfalso. apply H. cbn. now left.
  - rewrite IH; [reflexivity|]. intros C. apply H. cbn. now right.
Qed.
Lemma partition_some : forall s t, ~ contains "=" s -> partition_eq (s ++ "=" ++ t) = (s, Some t).
Proof.
  induction s as [|c s IH]; intros t H; [reflexivity|]. cbn [partition_eq append]. destruct (Ascii.eqb_spec c "=") as [->|].
  - exfalso. apply H. cbn. now left.
  - specialize (IH t). cbn [append] in IH. rewrite IH; [reflexivity|]. intros C. apply H. cbn. now right.
Qed.
Lemma partition_inv : forall s a b, partition_eq s = (a, b) ->
  ~ contains "=" a /\ match b with None => s = a | Some t => s = a ++ "=" ++ t end.
Proof.
  induction s as [|c s IH]; intros a b E; cbn [partition_eq] in E.
  - injection E as <- <-. split; [intros []|reflexivity].
  - destruct (Ascii.eqb_spec c "=") as [->|N].
    + injection E as <- <-. split; [intros []|reflexivity].
    + destruct (partition_eq s) as [a' b'] eqn:P. injection E as <- <-. destruct (IH _ _ eq_refl) as (H & X).
      split; [intros [C|C]; [congruence|contradiction]|]. destruct b'; subst s; reflexivity.
Qed.

(** What an abbreviation looks like. *)
Lemma abbreviates_form w full : abbreviates w full -> exists s o, w = "--" ++ s /\ full = name_of o /\ s <> "".
Proof.
  intros (I & (r & E) & U). destruct (long_name _ I) as (o & <-).
  destruct w as [|a w].
  { exfalso. pose proof (U "--help" (name_long OHelp) (ex_intro _ _ eq_refl)). pose proof (U "--input" (name_long OInput) (ex_intro _ _ eq_refl)). congruence. }
  destruct w as [|b w].
  { exfalso. assert (a = "-"%char) as -> by (destruct o; cbn in E; congruence).
    pose proof (U "--help" (name_long OHelp) (ex_intro _ _ eq_refl)). pose proof (U "--input" (name_long OInput) (ex_intro _ _ eq_refl)). congruence. }
  assert (a = "-"%char /\ b = "-"%char) as (-> & ->) by (destruct o; cbn in E; split; congruence).
  exists w, o. split; [reflexivity|]. split; [reflexivity|]. intros ->.
  pose proof (U "--help" (name_long OHelp) (ex_intro _ _ eq_refl)). pose proof (U "--input" (name_long OInput) (ex_intro _ _ eq_refl)). congruence.
Qed.

Lemma look_up_abbreviation w o o' : abbreviates w (name_of o) -> look_up w option_strings = Some o' -> o' = o.
Proof.
  intros A H. destruct (abbreviates_form _ _ A) as (s & _ & -> & _ & _). apply look_up_in in H.
  destruct H as [H|(c & H & L)].
  - destruct A as (_ & _ & U). apply name_inj. apply U; [apply name_long|]. exists "". rewrite H. now rewrite app_nil.
  - injection H as <- _. now destruct (letter_char _ _ L).
Qed.

Lemma classify_long w o : abbreviates w (name_of o) ->
  classify w = Some (TOpt o false false None) /\
  forall v, classify (w ++ "=" ++ v) = Some (TOpt o false true (Some v)).
Proof.
  intros A. pose proof (abbreviates_form _ _ A) as (s & _ & E & _ & _). subst w.
  pose proof (proj1 (abbreviates_filter s o) A) as F. rewrite <- filter_longs in F.
  pose proof A as (_ & (r & P) & _). pose proof (no_eq_name o _ _ P) as N. split.
  - change ("--" ++ s) with (String "-" (String "-" s)) in *. cbn [classify]. change (negb (Ascii.eqb "-" "-")) with false.
    destruct (look_up _ option_strings) as [o'|] eqn:L.
    + now rewrite (look_up_abbreviation _ _ _ A L).
    + rewrite (partition_none _ N). cbn [map]. rewrite F. reflexivity.
  - intros v. assert (look_up (("--" ++ s) ++ "=" ++ v) option_strings = None) as L0.
    { destruct (look_up _ option_strings) as [o'|] eqn:L; [|reflexivity]. apply look_up_in in L. destruct L as [L|(c & L & I)].
      - exfalso. eapply (no_eq_name o' _ ""); [rewrite <- L; symmetry; apply app_nil|].
        clear. change (("--" ++ s) ++ "=" ++ v) with (String "-" (String "-" (s ++ String "=" v))). cbn [contains]. right; right.
          induction s; cbn; tauto.
      - exfalso. injection L as <- _. now destruct (letter_char _ _ I). }
    pose proof (partition_some ("--" ++ s) v N) as PS.
    change (("--" ++ s) ++ "=" ++ v) with (String "-" (String "-" (s ++ "=" ++ v))) in *.
    cbn [classify]. rewrite L0, PS. change (negb (Ascii.eqb "-" "-")) with false.
    destruct (look_up ("--" ++ s) option_strings) as [o'|] eqn:L.
    + now rewrite (look_up_abbreviation _ _ _ A L).
    + cbn [map]. rewrite F. reflexivity.
Qed.

(** The bundle of a letter and what follows it in the same argument. *)
Definition bundle_of (o : opt) (r : string) : bundle :=
  match r with
  | EmptyString => BNext [] o
  | String d v => if Ascii.eqb d "=" then unbundle v o true true else unbundle r o true false
  end.
Definition token_bundle (t : token) : option bundle :=
  match t with
  | TOpt o single eq (Some v) => Some (unbundle v o single eq)
  | TOpt o _ _ None => Some (BNext [] o)
  | _ => None
  end.

Lemma classify_letter c o r : In (c, name_of o) letters ->
  exists t, classify (String "-" (String c r)) = Some t /\ token_bundle t = Some (bundle_of o r).
Proof.
  intros I. pose proof (look_up_letter _ _ I) as L. pose proof (letter_char _ _ I) as (N1 & N2). cbn [classify].
  assert (negb (Ascii.eqb c "-") = true) as -> by (destruct (Ascii.eqb_spec c "-"); [contradiction|reflexivity]).
  destruct r as [|d v].
  - rewrite L. eexists. split; reflexivity.
  - destruct (look_up_long_short d v c) as [->|]; [|contradiction]. cbn [partition_eq].
    change (Ascii.eqb "-" "=") with false. cbv iota. destruct (Ascii.eqb_spec c "="); [contradiction|].
    destruct (Ascii.eqb_spec d "=") as [->|Nd].
    + rewrite L. eexists. split; reflexivity.
    + destruct (partition_eq v) as [a b]. destruct (look_up_long_short d a c) as [X|]; [|contradiction]. rewrite X.
      rewrite L. destruct b; (eexists; split; [reflexivity|]); cbn [token_bundle bundle_of];
        (destruct (Ascii.eqb_spec d "="); [contradiction|reflexivity]).
Qed.

Lemma digit_char c : (exists d, digit_of c = Some d) <-> In c ["0"; "1"; "2"; "3"; "4"; "5"; "6"; "7"; "8"; "9"]%char.
Proof.
  split.
  - destruct c as [[] [] [] [] [] [] [] []]; intros (d & E); try discriminate E; cbn; tauto.
  - cbn. intros H. repeat (destruct H as [<-|H]; [eexists; reflexivity|]). contradiction.
Qed.
Lemma all_digits_iff : forall s, all_digits s = true <-> digits s.
Proof.
  induction s as [|c s IH]; [cbn; tauto|]. cbn [all_digits digits]. rewrite <- digit_char.
  destruct (digit_of c) as [d|] eqn:E; [rewrite IH; split; [intros H; split; [eauto|exact H]|tauto]|].
  split; [discriminate|]. intros ((d & D) & _). discriminate.
Qed.
Lemma decimal_iff : forall s, decimal s = true <-> exists a b, s = a ++ "." ++ b /\ digits a /\ digits b /\ b <> "".
Proof.
  induction s as [|c s IH]; cbn [decimal].
  - split; [discriminate|]. intros ([|? a] & b & E & _); discriminate.
  - destruct (Ascii.eqb_spec c ".") as [->|N].
    + rewrite andb_true_iff, negb_true_iff, String.eqb_neq, all_digits_iff. split.
      * intros (A & B). exists "", s. repeat split; auto.
      * intros ([|x a] & b & E & Da & Db & Nb); cbn in E; [injection E as ->; auto|]. injection E as E1 E2.
        subst x. exfalso. cbn in Da. destruct Da as (H & _). repeat (destruct H as [H|H]; [discriminate H|]). exact H.
    + destruct (digit_of c) as [d|] eqn:E.
      * rewrite IH. split.
        { intros (a & b & -> & Da & Db & Nb). exists (String c a), b. repeat split; auto. apply digit_char. eauto. }
        { intros ([|x a] & b & E' & Da & Db & Nb); cbn in E'; injection E' as E1 E2; [congruence|]. subst. exists a, b. cbn in Da. tauto. }
      * split; [discriminate|]. intros ([|x a] & b & E' & Da & Db & Nb); cbn in E'; injection E' as E1 E2; [congruence|].
        subst. destruct Da as (D & _). apply digit_char in D. destruct D; congruence.
Qed.
Lemma has_space_iff : forall s, has_space s = true <-> contains " " s.
Proof.
  induction s as [|c s IH]; [cbn; split; [discriminate|tauto]|]. cbn [has_space contains]. rewrite orb_true_iff, IH, Ascii.eqb_eq.
  intuition congruence.
Qed.

Definition long_token (value : option string) (x : string * opt) : token :=
  TOpt (snd x) false (match value with Some _ => true | None => false end) value.
Lemma classify_unfold c rest : let s := String "-" (String c rest) in
  look_up s option_strings = None ->
  classify s =
  let (name, value) := partition_eq s in
  match value, look_up name option_strings with
  | Some v, Some o => Some (TOpt o (negb (Ascii.eqb c "-")) true (Some v))
  | _, _ =>
      match (if negb (Ascii.eqb c "-") then
               match look_up (String "-" (String c "")) option_strings with
               | Some o => [TOpt o true false (Some rest)] | None => [] end
             else map (long_token value) (filter (fun x => starts name (fst x)) option_strings)) with
      | [t] => Some t
      | _ :: _ :: _ => None
      | [] => if negative_number s || has_space s then Some (TArg s) else Some TUnknown
      end
  end.
Proof. intros s H. unfold s in *. cbn [classify]. rewrite H. reflexivity. Qed.

(** An option that is not abbreviated in any way. *)
Lemma no_prefix s : (forall full, In full long_names -> ~ prefix ("--" ++ s) full) <->
  filter (fun x => starts ("--" ++ s) (fst x)) option_strings = [].
Proof.
  rewrite filter_longs. split.
  - intros H. destruct (filter _ longs) as [|x t] eqn:E; [reflexivity|]. exfalso.
    assert (In x (filter (fun x => starts ("--" ++ s) (fst x)) longs)) as I by (rewrite E; now left).
    apply filter_In in I. destruct I as (I & S). apply starts_prefix in S. unfold longs in I. apply in_map_iff in I.
    destruct I as (o & <- & _). exact (H _ (name_long o) S).
  - intros E full I P. destruct (long_name _ I) as (o & <-).
    assert (In (name_of o, o) (filter (fun x => starts ("--" ++ s) (fst x)) longs)) as J.
    { apply filter_In. split; [|apply starts_prefix; exact P]. unfold longs. apply in_map_iff. exists o. split; [reflexivity|].
      destruct o; cbn; tauto. }
    rewrite E in J. contradiction.
Qed.

Lemma no_letter c : (forall full, ~ In (c, full) letters) <-> look_up (String "-" (String c "")) option_strings = None \/ c = "-"%char.
Proof.
  split.
  - intros H. left. destruct (look_up _ option_strings) as [o|] eqn:E; [|reflexivity]. apply letter_of in E. now apply H in E.
  - intros [H| ->] full I.
    + cbn in I. repeat (destruct I as [I|I]; [injection I as <- _; discriminate H|]). contradiction.
    + now destruct (letter_char _ _ I).
Qed.

Lemma split_at_eq name value : forall s, partition_eq s = (name, value) -> s = match value with Some t => name ++ "=" ++ t | None => name end.
Proof. intros s E. apply partition_inv in E. destruct E as (_ & E). now destruct value. Qed.

Lemma negative_digit c r : negative_number (String "-" (String c r)) = true -> c <> "-"%char.
Proof. intros H ->. cbn in H. discriminate. Qed.
Lemma negative_first c r : negative_number (String "-" (String c r)) = true -> (exists d, digit_of c = Some d) \/ c = "."%char.
Proof.
  unfold negative_number. intros H. apply orb_true_iff in H. destruct H as [H|H].
  - apply andb_true_iff in H. destruct H as (_ & H). cbn in H. destruct (digit_of c); [eauto|discriminate].
  - cbn in H. destruct (Ascii.eqb_spec c "."); [auto|]. destruct (digit_of c); [eauto|discriminate].
Qed.
Lemma negative_no_letter c r full : negative_number (String "-" (String c r)) = true -> ~ In (c, full) letters.
Proof.
  intros H I. apply negative_first in H. cbn in I.
  repeat (destruct I as [I|I]; [injection I as <- _; destruct H as [(d & H)|H]; discriminate H|]). contradiction.
Qed.
Lemma negative_plain s : negative_number s = true -> plain s.
Proof.
  destruct s as [|a s]; [discriminate|]. unfold negative_number. destruct (ascii_dec a "-") as [->|N].
  - intros H. apply orb_true_iff in H. destruct H as [H|H].
    + apply andb_true_iff in H. destruct H as (A & B). rewrite negb_true_iff, String.eqb_neq in A.
      apply (plain_whole s); [now apply all_digits_iff|exact A].
    + apply decimal_iff in H. destruct H as (x & y & -> & Dx & Dy & Ny). now apply (plain_decimal x y).
  - intros _. now apply plain_text.
Qed.

Lemma plain_is_arg s : plain s -> classify s = Some (TArg s).
Proof.
  assert (forall c r, c <> "-"%char -> (forall full, ~ In (c, full) letters) ->
            negative_number (String "-" (String c r)) = true \/ has_space (String "-" (String c r)) = true ->
            classify (String "-" (String c r)) = Some (TArg (String "-" (String c r)))) as G.
  { intros c r Nc NL H. pose proof (proj1 (no_letter c) NL) as [L|]; [|contradiction].
    assert (forall x, look_up (String "-" (String c x)) option_strings = None) as LL.
    { intros [|d x]; [exact L|]. destruct (look_up_long_short d x c); [assumption|contradiction]. }
    rewrite (classify_unfold c r (LL r)). destruct (partition_eq (String "-" (String c r))) as [name value] eqn:P.
    assert (look_up name option_strings = None) as LN.
    { pose proof (partition_inv _ _ _ P) as (_ & X). cbn [partition_eq] in P. change (Ascii.eqb "-" "=") with false in P. cbv iota in P.
      destruct (Ascii.eqb_spec c "=") as [->|].
      - cbn in P. injection P as <- _. reflexivity.
      - destruct (partition_eq r) as [a b]. cbn in P. injection P as <- _. apply LL. }
    rewrite LN. destruct (Ascii.eqb_spec c "-"); [contradiction|]. cbn [negb]. rewrite L.
    assert (negative_number (String "-" (String c r)) || has_space (String "-" (String c r)) = true) as -> by (apply orb_true_iff; exact H).
    destruct value; reflexivity. }
  assert (forall n, n <> "" -> negative_number (String "-" n) = true -> classify (String "-" n) = Some (TArg (String "-" n))) as GN.
  { intros [|c r] N H; [congruence|]. apply G; [now apply (negative_digit c r)|intros full; now apply (negative_no_letter c r)|now left]. }
  intros H. destruct H as [|c s N| |n D N|a b Da Db Nb|c s C N NL|s C NE NP|s t C NE NP].
  - reflexivity.
  - destruct c as [[] [] [] [] [] [] [] []]; try reflexivity. congruence.
  - reflexivity.
  - apply GN; [exact N|]. cbn [negative_number]. apply orb_true_iff. left. apply andb_true_iff. split.
    + now apply negb_true_iff, String.eqb_neq. + now apply all_digits_iff.
  - apply GN; [destruct a; discriminate|]. cbn [negative_number]. apply orb_true_iff. right. apply decimal_iff. exists a, b. auto.
  - apply G; [exact N|exact NL|right]. apply has_space_iff. cbn [contains]. now right.
  - change ("--" ++ s) with (String "-" (String "-" s)) in *. apply no_prefix in NP.
    assert (~ contains "=" (String "-" (String "-" s))) as NE' by (intros [X|[X|X]]; try discriminate X; contradiction).
    assert (forall x, look_up (String "-" (String "-" x)) option_strings <> None -> exists o, String "-" (String "-" x) = name_of o) as LK.
    { intros x Hx. destruct (look_up _ option_strings) as [o|] eqn:E; [|congruence]. apply look_up_in in E. destruct E as [E|(c & E & I)]; [eauto|].
      injection E as <- _. now destruct (letter_char _ _ I). }
    assert (look_up (String "-" (String "-" s)) option_strings = None) as L.
    { destruct (look_up _ option_strings) eqn:E; [|reflexivity]. exfalso. destruct (LK s) as (o' & E'); [congruence|].
      change (String "-" (String "-" s)) with ("--" ++ s) in E'. apply no_prefix with (full := name_of o') in NP; [|apply name_long].
      apply NP. exists "". rewrite E'. now rewrite app_nil. }
    rewrite (classify_unfold "-" s L), (partition_none _ NE'). change (negb (Ascii.eqb "-" "-")) with false. cbv iota.
    change (String "-" (String "-" s)) with ("--" ++ s) in NP |- *. rewrite NP. cbn [map].
    assert (has_space ("--" ++ s) = true) as -> by (apply has_space_iff; cbn [contains append]; tauto). now rewrite orb_true_r.
  - apply no_prefix in NP.
    assert (~ contains "=" ("--" ++ s)) as NE' by (intros [X|[X|X]]; try discriminate X; contradiction).
    assert (forall x, look_up ("--" ++ x) option_strings <> None -> exists o, "--" ++ x = name_of o) as LK.
    { intros x Hx. destruct (look_up _ option_strings) as [o|] eqn:E; [|congruence]. apply look_up_in in E. destruct E as [E|(c & E & I)]; [eauto|].
      injection E as <- _. now destruct (letter_char _ _ I). }
    assert (look_up ("--" ++ s) option_strings = None) as L1.
    { destruct (look_up _ option_strings) eqn:E; [|reflexivity]. exfalso. destruct (LK s) as (o' & E'); [congruence|].
      apply no_prefix with (full := name_of o') in NP; [|apply name_long].
      apply NP. exists "". rewrite E'. now rewrite app_nil. }
    assert (look_up ("--" ++ s ++ "=" ++ t) option_strings = None) as L.
    { clear L1. destruct (look_up _ option_strings) eqn:E; [|reflexivity]. exfalso. destruct (LK (s ++ "=" ++ t)) as (o' & E'); [congruence|].
      apply no_prefix with (full := name_of o') in NP; [|apply name_long]. apply NP. exists ("=" ++ t). rewrite <- E'. now rewrite app_assoc_s. }
    change ("--" ++ s ++ "=" ++ t) with (String "-" (String "-" (s ++ "=" ++ t))) in *.
    rewrite (classify_unfold "-" _ L).
    change (String "-" (String "-" (s ++ "=" ++ t))) with (("--" ++ s) ++ "=" ++ t). rewrite (partition_some _ t NE'), L1.
    change (negb (Ascii.eqb "-" "-")) with false. cbv iota. rewrite NP. cbn [map].
    assert (has_space (("--" ++ s) ++ "=" ++ t) = true) as ->.
    { apply has_space_iff. change (("--" ++ s) ++ "=" ++ t) with (String "-" (String "-" (s ++ "=" ++ t))). cbn [contains]. tauto. }
    now rewrite orb_true_r.
Qed.
