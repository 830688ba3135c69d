(** The command line: the parser accepts exactly what the grammar describes. *)
From Coq Require Import String Ascii List ZArith Bool Arith Lia.
From Verif.Model Require Import Cli.
From Verif.Spec Require Import CliSpec.
From Verif.Proofs Require Import CliFacts CliInt.
Import ListNotations.
Local Open Scope string_scope.

Lemma classify_inv s t : classify s = Some t ->
  match t with
  | TArg v => v = s /\ plain s
  | TUnknown => True
  | TOpt o _ _ _ =>
      (token_bundle t = Some (BNext [] o) /\ abbreviates s (name_of o)) \/
      (exists w v, token_bundle t = Some (unbundle v o false true) /\ s = w ++ "=" ++ v /\ abbreviates w (name_of o)) \/
      (exists c o' r, s = String "-" (String c r) /\ In (c, name_of o') letters /\ token_bundle t = Some (bundle_of o' r))
  end.
Proof.
  destruct s as [|a s].
  { intros E. injection E as <-. split; [reflexivity|constructor]. }
  destruct (ascii_dec a "-") as [->|Na].
  2: { intros E. assert (t = TArg (String a s)) as ->.
       { destruct a as [[] [] [] [] [] [] [] []]; try (injection E as <-; reflexivity). congruence. }
       split; [reflexivity|]. now constructor. }
  destruct s as [|c rest].
  { intros E. injection E as <-. split; [reflexivity|apply plain_dash]. }
  intros E. destruct (ascii_dec c "-") as [->|Nc].
  - destruct (look_up (String "-" (String "-" rest)) option_strings) as [o|] eqn:L.
    + cbn [classify] in E. rewrite L in E. injection E as <-. left. split; [reflexivity|].
      apply look_up_in in L. destruct L as [->|(c & L & I)]; [apply self_abbreviates|].
      injection L as <- _. now destruct (letter_char _ _ I).
    + rewrite (classify_unfold "-" rest L) in E. destruct (partition_eq (String "-" (String "-" rest))) as [name value] eqn:P.
      pose proof (partition_inv _ _ _ P) as (NE & SP).
      assert (exists x, name = "--" ++ x) as (x & ->).
      { cbn [partition_eq] in P. change (Ascii.eqb "-" "=") with false in P. cbv iota in P. destruct (partition_eq rest) as [x b].
        injection P as <- _. exists x. reflexivity. }
      change (negb (Ascii.eqb "-" "-")) with false in E. cbv iota in E.
      destruct (match value with Some v => match look_up ("--" ++ x) option_strings with Some o => Some (o, v) | None => None end | None => None end)
        as [[o v]|] eqn:X.
      * destruct value as [v'|]; [|discriminate]. destruct (look_up ("--" ++ x) option_strings) as [o'|] eqn:L2; [|discriminate].
        injection X as -> ->. injection E as <-. right. left. exists ("--" ++ x), v. split; [reflexivity|]. split; [exact SP|].
        apply look_up_in in L2. destruct L2 as [->|(c & L2 & I)]; [apply self_abbreviates|].
        injection L2 as <- _. now destruct (letter_char _ _ I).
      * assert (match map (long_token value) (filter (fun x0 => starts ("--" ++ x) (fst x0)) option_strings) with
                | [] => if negative_number (String "-" (String "-" rest)) || has_space (String "-" (String "-" rest))
                        then Some (TArg (String "-" (String "-" rest))) else Some TUnknown
                | [t] => Some t
                | t :: _ :: _ => None
                end = Some t) as E'.
        { destruct value as [v|]; [|exact E]. destruct (look_up ("--" ++ x) option_strings); [discriminate|exact E]. }
        clear E X. destruct (filter _ option_strings) as [|y [|z l]] eqn:F; [|cbn [map] in E'|cbn [map] in E'; discriminate].
        { cbn [map] in E'. destruct (has_space (String "-" (String "-" rest))) eqn:HS.
          - rewrite orb_true_r in E'. injection E' as <-. split; [reflexivity|].
            assert (forall full, In full long_names -> ~ prefix ("--" ++ x) full) as NP by (apply no_prefix; exact F).
            assert (~ contains "=" x) as NX by (intros C; apply NE; cbn [contains append]; tauto).
            apply has_space_iff in HS. destruct value as [v|].
            + rewrite SP in HS |- *. rewrite app_assoc_s. apply plain_spaced_eq; auto.
              change (("--" ++ x) ++ "=" ++ v) with (String "-" (String "-" (x ++ "=" ++ v))) in HS. cbn [contains] in HS.
              destruct HS as [HS|[HS|HS]]; try discriminate HS. exact HS.
            + rewrite SP in HS |- *. apply plain_spaced_long; auto. destruct HS as [HS|[HS|HS]]; try discriminate HS. exact HS.
          - rewrite orb_false_r in E'. change (negative_number (String "-" (String "-" rest))) with false in E'.
            injection E' as <-. exact I. }
        { injection E' as <-. unfold long_token.
          assert (abbreviates ("--" ++ x) (name_of (snd y))) as A.
          { apply abbreviates_filter. rewrite filter_longs in F.
            assert (In y longs) as I by (apply (filter_In (fun x0 => starts ("--" ++ x) (fst x0))); rewrite F; now left).
            unfold longs in I. apply in_map_iff in I. destruct I as (o & <- & _). exact F. }
          destruct value as [v|].
          - right. left. exists ("--" ++ x), v. split; [reflexivity|]. split; [exact SP|exact A].
          - left. split; [reflexivity|]. rewrite SP. exact A. }
  - destruct (look_up (String "-" (String c "")) option_strings) as [o|] eqn:L.
    + pose proof (letter_of _ _ L) as I. destruct (classify_letter c o rest I) as (t' & C & B). rewrite C in E. injection E as <-.
      destruct t'; try discriminate B. right. right. exists c, o, rest. auto.
    + assert (forall x, look_up (String "-" (String c x)) option_strings = None) as LL.
      { intros [|d x]; [exact L|]. destruct (look_up_long_short d x c); [assumption|contradiction]. }
      rewrite (classify_unfold c rest (LL rest)) in E. destruct (partition_eq (String "-" (String c rest))) as [name value] eqn:P.
      assert (look_up name option_strings = None) as LN.
      { cbn [partition_eq] in P. change (Ascii.eqb "-" "=") with false in P. cbv iota in P.
        destruct (Ascii.eqb_spec c "=") as [->|].
        - cbn in P. injection P as <- _. reflexivity.
        - destruct (partition_eq rest) as [x b]. cbn in P. injection P as <- _. apply LL. }
      rewrite LN in E. destruct (Ascii.eqb_spec c "-"); [contradiction|]. cbn [negb] in E. rewrite L in E.
      assert ((if negative_number (String "-" (String c rest)) || has_space (String "-" (String c rest))
               then Some (TArg (String "-" (String c rest))) else Some TUnknown) = Some t) as E' by (destruct value; exact E).
      clear E. destruct (negative_number (String "-" (String c rest))) eqn:NN.
      * injection E' as <-. split; [reflexivity|]. now apply negative_plain.
      * cbn [orb] in E'. destruct (has_space _) eqn:HS; injection E' as <-; [|exact I]. split; [reflexivity|].
        apply has_space_iff in HS. cbn [contains] in HS. destruct HS as [HS|HS]; [discriminate HS|].
        apply (plain_spaced c rest); [exact HS|exact Nc|]. apply no_letter. now left.
Qed.

(** One setting, on a namespace. *)
Definition apply (s : setting) (n : settings) : settings :=
  let '(mkSettings i p t c m th tr ve) := n in
  match s with
  | SetInput v => mkSettings (Some v) p t c m th tr ve
  | SetPath v => mkSettings i v t c m th tr ve
  | SetThreads z => mkSettings i p z c m th tr ve
  | SetConvert => mkSettings i p t true m th tr ve
  | SetModel v => mkSettings i p t c (Some v) th tr ve
  | SetThermo v => mkSettings i p t c m (Some v) tr ve
  | SetTransport v => mkSettings i p t c m th (Some v) ve
  | SetVersion => mkSettings i p t c m th tr true
  end.
Fixpoint applies (ss : list setting) (n : settings) : settings :=
  match ss with [] => n | s :: t => applies t (apply s n) end.

Definition or_else {A} (a b : option A) : option A := match a with Some _ => a | None => b end.
Lemma applies_eq : forall ss n, applies ss n =
  mkSettings (or_else (last_of input_of ss) (n_input n))
    (match last_of path_of ss with Some p => p | None => n_path n end)
    (match last_of threads_of ss with Some z => z | None => n_threads n end)
    (existsb (fun s => match s with SetConvert => true | _ => false end) ss || n_convert n)
    (or_else (last_of model_of ss) (n_model n)) (or_else (last_of thermo_of ss) (n_thermo n))
    (or_else (last_of transport_of ss) (n_transport n))
    (existsb (fun s => match s with SetVersion => true | _ => false end) ss || n_version n).
Proof.
  induction ss as [|s ss IH]; intros [i p t c m th tr ve]; [reflexivity|]. cbn [applies]. rewrite IH.
  cbn [last_of existsb]. unfold or_else.
  destruct s; cbn [apply n_input n_path n_threads n_convert n_model n_thermo n_transport n_version input_of path_of threads_of model_of thermo_of transport_of orb];
    f_equal; rewrite ?orb_true_r; try reflexivity;
    repeat match goal with |- context [match last_of ?f ss with _ => _ end] => destruct (last_of f ss) end; reflexivity.
Qed.
Lemma applies_defaults ss : applies ss defaults = meaning ss.
Proof.
  rewrite applies_eq. unfold meaning, or_else, defaults. cbn [n_input n_path n_threads n_convert n_model n_thermo n_transport n_version].
  rewrite !orb_false_r. f_equal; match goal with |- context [last_of ?f ss] => destruct (last_of f ss) | _ => idtac end; reflexivity.
Qed.

Lemma store_with_value o v s : with_value (name_of o) v s -> takes_of o <> TakesNone /\ forall n, store o v n = Goes (apply s n).
Proof.
  intros H. destruct o; inversion H; subst; (split; [discriminate|]); intros [i p t c m th tr ve]; cbn; try reflexivity.
  match goal with E : integer v _ |- _ => apply int_of_integer in E; now rewrite E end.
Qed.
Lemma flag_without_value o s : without_value (name_of o) s -> takes_of o <> TakesOne /\ forall n, flag o n = Goes (apply s n).
Proof. intros H. destruct o; inversion H; subst; (split; [discriminate|]); intros [i p t c m th tr ve]; reflexivity. Qed.
Lemma store_inv o v n n' : takes_of o <> TakesNone -> store o v n = Goes n' -> exists s, with_value (name_of o) v s /\ n' = apply s n.
Proof.
  destruct n as [i p t c m th tr ve]. intros T E. destruct o; cbn in T; try congruence; cbn in E;
    try (injection E as <-; eexists; split; [constructor|reflexivity]).
  destruct (int_of v) as [z|] eqn:I; [|discriminate]. injection E as <-. eexists. split; [constructor; apply int_of_integer; exact I|reflexivity].
Qed.
Lemma flag_inv o n n' : takes_of o <> TakesOne -> flag o n = Goes n' -> exists s, without_value (name_of o) s /\ n' = apply s n.
Proof.
  destruct n as [i p t c m th tr ve]. intros T E. destruct o; cbn in T; try congruence; cbn in E; try discriminate E;
    injection E as <-; eexists; (split; [constructor|reflexivity]).
Qed.

(** What [consume] does with a bundle. *)
Definition act (b : bundle) (t : list token) (n : settings) (extra : bool) : outcome settings :=
  match b with
  | BError => Exits 2
  | BUnknown os => obind (flags os n) (fun n => consume t n true)
  | BValue os o v => obind (flags os n) (fun n => obind (store o v n) (fun n => consume t n extra))
  | BNext os o =>
      match takes_of o, t with
      | TakesNone, _ => obind (flags os n) (fun n => obind (flag o n) (fun n => consume t n extra))
      | _, TArg v :: t' => obind (flags os n) (fun n => obind (store o v n) (fun n => consume t' n extra))
      | TakesMaybe, _ => obind (flags os n) (fun n => obind (flag o n) (fun n => consume t n extra))
      | TakesOne, _ => Exits 2
      end
  end.
Lemma consume_token t b ts n extra : token_bundle t = Some b -> consume (t :: ts) n extra = act b ts n extra.
Proof. destruct t as [o single eq [v|]| |v]; intros E; try discriminate E; injection E as <-; reflexivity. Qed.

Lemma act_version b ts n extra : act (before OVersion b) ts n extra = act b ts (apply SetVersion n) extra \/ b = BError.
Proof.
  destruct n as [i p t c m th tr ve]. destruct b as [|os|os o v|os o]; [now right|left; reflexivity|left; reflexivity|left].
  cbn [before act]. destruct (takes_of o), ts as [|[| |] ?]; reflexivity.
Qed.

Lemma unbundle_version c r o : In (c, name_of o) letters -> unbundle (String c r) OVersion true false = before OVersion (bundle_of o r).
Proof.
  intros I. pose proof (letter_char _ _ I) as (N1 & N2). cbn [unbundle takes_of negb orb].
  destruct (Ascii.eqb_spec c "-"); [contradiction|]. rewrite (look_up_letter _ _ I). destruct r as [|d r]; [reflexivity|].
  cbn [bundle_of]. reflexivity.
Qed.

Lemma no_dashes s t : classify s = Some t -> String.eqb s "--" = false.
Proof. intros E. destruct (String.eqb_spec s "--") as [->|]; [discriminate E|reflexivity]. Qed.
Lemma classify_cons s t l ts : classify s = Some t -> classify_all l = Some ts -> classify_all (s :: l) = Some (t :: ts).
Proof. intros E F. cbn [classify_all]. now rewrite (no_dashes _ _ E), E, F. Qed.

Definition no_arg (ts : list token) : Prop := match ts with TArg _ :: _ => False | _ => True end.
Lemma act_flag o ts n extra : takes_of o <> TakesOne -> no_arg ts ->
  act (BNext [] o) ts n extra = obind (flag o n) (fun n => consume ts n extra).
Proof. intros T N. cbn [act flags obind]. destruct (takes_of o), ts as [|[| |] ?]; try congruence; try contradiction; reflexivity. Qed.
Lemma act_arg o v ts n extra : takes_of o <> TakesNone ->
  act (BNext [] o) (TArg v :: ts) n extra = obind (store o v n) (fun n => consume ts n extra).
Proof. intros T. cbn [act flags obind]. destruct (takes_of o); try congruence; reflexivity. Qed.

Definition accepted (l : list string) (ss : list setting) : Prop :=
  forall rest tr, classify_all rest = Some tr -> no_arg tr ->
  exists ts, classify_all (l ++ rest)%list = Some ts /\ no_arg ts /\ forall n, consume ts n false = consume tr (applies ss n) false.
Definition accepted_letters (r : string) (l : list string) (ss : list setting) : Prop :=
  exists c r' o, r = String c r' /\ In (c, name_of o) letters /\
  forall rest tr, classify_all rest = Some tr -> no_arg tr ->
  exists ts, classify_all (l ++ rest)%list = Some ts /\ forall n, act (bundle_of o r') ts n false = consume tr (applies ss n) false.

Lemma letters_accepted r l ss : accepted_letters r l ss -> accepted (("-" ++ r) :: l) ss.
Proof.
  intros (c & r' & o & -> & I & K) rest tr C0 N0. destruct (K rest tr C0 N0) as (ts & C & A). destruct (classify_letter c o r' I) as (t & E & B).
  exists (t :: ts). split; [exact (classify_cons _ _ _ _ E C)|]. split; [destruct t; try exact Logic.I; discriminate B|].
  intros n. rewrite (consume_token _ _ _ _ _ B). apply A.
Qed.

Lemma bundle_value o r v : takes_of o <> TakesNone ->
  (match r with String d _ => d <> "="%char /\ v = r | _ => False end) \/ r = "=" ++ v -> bundle_of o r = BValue [] o v.
Proof.
  intros T [H| ->].
  - destruct r as [|d r]; [contradiction|]. destruct H as (N & ->). cbn [bundle_of]. destruct (Ascii.eqb_spec d "="); [contradiction|].
    destruct o; cbn in T; try congruence; reflexivity.
  - cbn [bundle_of append]. change (Ascii.eqb "=" "=") with true. cbv iota. destruct v, o; cbn in T; try congruence; reflexivity.
Qed.

Lemma letter_name c full : In (c, full) letters -> exists o, name_of o = full.
Proof. intros I. cbn in I. repeat (destruct I as [I|I]; [injection I as _ <-; apply long_name; cbn; tauto|]). contradiction. Qed.

Lemma spelled_accepted : (forall l ss, spelled l ss -> accepted l ss) /\ (forall r l ss, in_letters r l ss -> accepted_letters r l ss).
Proof.
  apply spelled_both.
  - intros rest tr C0 N0. exists tr. auto.
  - intros w full v s l ss A W P _ K rest tr C0 N0. destruct (K rest tr C0 N0) as (ts & C & _ & R). destruct (long_name _ (proj1 A)) as (o & <-).
    destruct (classify_long _ _ A) as (E & _). destruct (store_with_value _ _ _ W) as (T & S).
    exists (TOpt o false false None :: TArg v :: ts). split; [|split; [exact I|]].
    + apply (classify_cons w); [exact E|]. apply (classify_cons v); [now apply plain_is_arg|exact C].
    + intros n. rewrite (consume_token (TOpt o false false None) (BNext [] o) _ _ _ eq_refl), act_arg by exact T. rewrite S. cbn [obind]. apply R.
  - intros w full v s l ss A W _ K rest tr C0 N0. destruct (K rest tr C0 N0) as (ts & C & _ & R). destruct (long_name _ (proj1 A)) as (o & <-).
    destruct (classify_long _ _ A) as (_ & E). destruct (store_with_value _ _ _ W) as (T & S).
    exists (TOpt o false true (Some v) :: ts). split; [|split; [exact I|]].
    + apply (classify_cons (w ++ "=" ++ v)); [exact (E v)|exact C].
    + intros n. rewrite (consume_token (TOpt o false true (Some v)) (unbundle v o false true) _ _ _ eq_refl).
      assert (unbundle v o false true = BValue [] o v) as -> by (destruct v, o; cbn in T; try congruence; reflexivity).
      cbn [act flags obind]. rewrite S. cbn [obind]. apply R.
  - intros w full s l ss A W _ K rest tr C0 N0. destruct (K rest tr C0 N0) as (ts & C & NA & R). destruct (long_name _ (proj1 A)) as (o & <-).
    destruct (classify_long _ _ A) as (E & _). destruct (flag_without_value _ _ W) as (T & S).
    exists (TOpt o false false None :: ts). split; [|split; [exact I|]].
    + apply (classify_cons w); [exact E|exact C].
    + intros n. rewrite (consume_token (TOpt o false false None) (BNext [] o) _ _ _ eq_refl), act_flag by assumption. rewrite S. cbn [obind]. apply R.
  - intros r l ss _ A. now apply letters_accepted.
  - intros c full v s l ss I W P _ K. destruct (letter_name _ _ I) as (o & <-).
    destruct (store_with_value _ _ _ W) as (T & S). exists c, "", o. split; [reflexivity|]. split; [exact I|].
    intros rest tr C0 N0. destruct (K rest tr C0 N0) as (ts & C & _ & R). exists (TArg v :: ts). split.
    + apply (classify_cons v); [now apply plain_is_arg|exact C].
    + intros n. cbn [bundle_of]. rewrite act_arg by exact T. rewrite S. cbn [obind]. apply R.
  - intros c full d v s l ss I W N _ K. destruct (letter_name _ _ I) as (o & <-).
    destruct (store_with_value _ _ _ W) as (T & S). exists c, (String d v), o. split; [reflexivity|]. split; [exact I|].
    intros rest tr C0 N0. destruct (K rest tr C0 N0) as (ts & C & _ & R). exists ts. split; [exact C|].
    intros n. rewrite (bundle_value o (String d v) (String d v) T) by (left; auto). cbn [act flags obind]. rewrite S. cbn [obind]. apply R.
  - intros c full v s l ss I W _ K. destruct (letter_name _ _ I) as (o & <-).
    destruct (store_with_value _ _ _ W) as (T & S). exists c, ("=" ++ v), o. split; [reflexivity|]. split; [exact I|].
    intros rest tr C0 N0. destruct (K rest tr C0 N0) as (ts & C & _ & R). exists ts. split; [exact C|].
    intros n. rewrite (bundle_value o ("=" ++ v) v T) by now right. cbn [act flags obind]. rewrite S. cbn [obind]. apply R.
  - intros l ss _ K. exists "V"%char, "", OVersion. split; [reflexivity|]. split; [cbn; tauto|].
    intros rest tr C0 N0. destruct (K rest tr C0 N0) as (ts & C & NA & R). exists ts. split; [exact C|].
    intros n. cbn [bundle_of]. rewrite act_flag by (auto; discriminate). destruct n as [i p t c m th trs ve]. cbn [flag obind]. apply R.
  - intros r l ss _ (c & r' & o & -> & I & K). exists "V"%char, (String c r'), OVersion.
    split; [reflexivity|]. split; [cbn; tauto|].
    intros rest tr C0 N0. destruct (K rest tr C0 N0) as (ts & C & R). exists ts. split; [exact C|].
    intros n. pose proof (letter_char _ _ I) as (_ & N).
    assert (bundle_of OVersion (String c r') = before OVersion (bundle_of o r')) as ->.
    { rewrite <- (unbundle_version c r' o I). unfold bundle_of at 1. destruct (Ascii.eqb_spec c "="); [contradiction|reflexivity]. }
    destruct (act_version (bundle_of o r') ts n false) as [X|X].
    + rewrite X. apply R.
    + rewrite X. cbn [before act applies]. specialize (R (apply SetVersion n)). rewrite X in R. exact R.
Qed.

(** The other direction. *)
Lemma consume_extra : forall k ts n n', (length ts <= k)%nat -> consume ts n true <> Goes n'.
Proof.
  assert (forall {A} (r : outcome A) (f : A -> outcome settings) n', (forall a, f a <> Goes n') -> obind r f <> Goes n') as B.
  { intros A [c|a] f n' H; cbn; [discriminate|apply H]. }
  induction k as [|k IH]; intros [|t ts] n n' L; cbn [length] in L; try lia; try discriminate.
  assert (forall m, consume ts m true <> Goes n') as G by (intros m; apply IH; lia).
  destruct t as [o single eq g| |v]; cbn [consume]; [|apply G|apply G].
  destruct (match g with Some v => unbundle v o single eq | None => BNext [] o end) as [|os|os o' v|os o']; [discriminate|..].
  - apply B. intros m. apply G.
  - apply B. intros m. apply B. exact G.
  - destruct (takes_of o').
    + apply B. intros m. apply B. exact G.
    + destruct ts as [|[| |v] ts']; apply B; intros m; apply B; exact G.
    + destruct ts as [|[| |v] ts']; try discriminate. apply B; intros m; apply B. intros m'. apply IH. cbn [length] in L. lia.
Qed.

Lemma goes_inv {A B} (r : outcome A) (k : A -> outcome B) b : obind r k = Goes b -> exists a, r = Goes a /\ k a = Goes b.
Proof. destruct r; cbn; [discriminate|eauto]. Qed.

(** Arguments and tokens. *)
Lemma classify_all_inv l ts : classify_all l = Some ts ->
  match l with
  | [] => ts = []
  | s :: l' => (exists ts', ts = TUnknown :: ts') \/
               exists t ts', ts = t :: ts' /\ classify s = Some t /\ classify_all l' = Some ts'
  end.
Proof.
  destruct l as [|s l]; cbn [classify_all]; [intros E; injection E as <-; reflexivity|].
  destruct (String.eqb s "--"); [intros E; injection E as <-; eauto|].
  destruct (classify s) as [t|]; [|discriminate]. destruct (classify_all l) as [ts'|]; [|discriminate].
  intros E. injection E as <-. right. eauto 6.
Qed.

Definition rest_spelled (k : nat) : Prop :=
  forall l ts n n', (length l <= k)%nat -> classify_all l = Some ts -> consume ts n false = Goes n' ->
    exists ss, spelled l ss /\ n' = applies ss n.

Lemma next_inv k l ts n n' o : rest_spelled k -> (length l <= k)%nat -> classify_all l = Some ts ->
  act (BNext [] o) ts n false = Goes n' ->
  (exists s ss, without_value (name_of o) s /\ spelled l ss /\ n' = applies (s :: ss) n) \/
  (exists v l' s ss, l = v :: l' /\ plain v /\ with_value (name_of o) v s /\ spelled l' ss /\ n' = applies (s :: ss) n).
Proof.
  intros IH L C A.
  assert (takes_of o <> TakesOne -> obind (flag o n) (fun n => consume ts n false) = Goes n' ->
          exists s ss, without_value (name_of o) s /\ spelled l ss /\ n' = applies (s :: ss) n) as F.
  { intros T E. apply goes_inv in E. destruct E as (m & E & R). destruct (flag_inv _ _ _ T E) as (s & W & ->).
    destruct (IH _ _ _ _ L C R) as (ss & S & ->). eauto. }
  assert (forall v ts', ts = TArg v :: ts' -> takes_of o <> TakesNone ->
          obind (store o v n) (fun n => consume ts' n false) = Goes n' ->
          exists v l' s ss, l = v :: l' /\ plain v /\ with_value (name_of o) v s /\ spelled l' ss /\ n' = applies (s :: ss) n) as V.
  { intros v ts' -> T E. destruct l as [|v' l']; [discriminate C|].
    pose proof (classify_all_inv _ _ C) as [(x & X)|(t & x & X & Cv & Cl)]; [discriminate X|]. injection X as <- <-.
    pose proof (classify_inv _ _ Cv) as (-> & P). apply goes_inv in E. destruct E as (m & E & R).
    destruct (store_inv _ _ _ _ T E) as (s & W & ->). cbn [length] in L.
    destruct (IH l' ts' _ _ ltac:(lia) Cl R) as (ss & S & ->). exists v', l', s, ss. auto. }
  cbn [act flags obind] in A. destruct (takes_of o) eqn:T.
  - left. apply F; [discriminate|exact A].
  - destruct ts as [|[| |v] ts']; try (left; apply F; [discriminate|exact A]). right. now apply (V v ts').
  - destruct ts as [|[| |v] ts']; try discriminate A. right. now apply (V v ts').
Qed.

Lemma letters_inv k l ts : rest_spelled k -> (length l <= k)%nat -> classify_all l = Some ts ->
  forall r c o n n', In (c, name_of o) letters -> act (bundle_of o r) ts n false = Goes n' ->
  exists ss, in_letters (String c r) l ss /\ n' = applies ss n.
Proof.
  intros IH L C. induction r as [|d r IHr]; intros c o n n' I A.
  - cbn [bundle_of] in A. destruct (next_inv k l ts n n' o IH L C A) as [(s & ss & W & S & ->)|(v & l' & s & ss & -> & P & W & S & ->)].
    + exists (s :: ss). split; [|reflexivity]. cbn in I.
      repeat (destruct I as [I|I]; [injection I as <- E; destruct o; try discriminate E; inversion W; subst; try (now constructor)|]). contradiction.
    + exists (s :: ss). split; [|reflexivity]. eapply le_value; eauto.
  - assert (forall v, takes_of o <> TakesNone -> bundle_of o (String d r) = BValue [] o v ->
              (d = "="%char /\ r = v) \/ (d <> "="%char /\ String d r = v) ->
              exists ss, in_letters (String c (String d r)) l ss /\ n' = applies ss n) as V.
    { intros v T E D. rewrite E in A. cbn [act flags obind] in A. apply goes_inv in A. destruct A as (m & A & R).
      destruct (store_inv _ _ _ _ T A) as (s & W & ->). destruct (IH _ _ _ _ L C R) as (ss & S & ->). exists (s :: ss). split; [|reflexivity].
      destruct D as [(-> & ->)|(N & <-)]; [eapply (le_equals c (name_of o) v)|eapply le_glued]; eauto. }
    assert (takes_of o <> TakesNone -> exists ss, in_letters (String c (String d r)) l ss /\ n' = applies ss n) as VV.
    { intros T. destruct (ascii_dec d "=") as [->|N].
      - apply (V r T); [|now left]. apply bundle_value; [exact T|now right].
      - apply (V (String d r) T); [|now right]. apply bundle_value; [exact T|now left]. }
    cbn in I. destruct I as [I|[I|[I|[I|[]]]]]; injection I as <- E; destruct o; try discriminate E; try (apply VV; discriminate).
    + exfalso. clear - A.
      assert (forall b, act (before OHelp b) ts n false <> Goes n') as H.
      { intros [|os|os o v|os o]; cbn [before act]; try discriminate; destruct n as [i p t c m th tr ve]; cbn [flags flag obind]; try discriminate.
        destruct (takes_of o), ts as [|[| |] ?]; discriminate. }
      cbn [bundle_of] in A. destruct (Ascii.eqb d "=").
      * destruct r; cbn in A; discriminate A.
      * cbn [unbundle takes_of negb orb] in A. destruct (Ascii.eqb d "-"); [discriminate A|].
        destruct (look_up _ option_strings) as [o'|]; [|destruct n as [i p t c m th tr ve]; discriminate A].
        destruct r as [|e r']; [exact (H (BNext [] o') A)|exact (H _ A)].
    + cbn [bundle_of] in A. destruct (Ascii.eqb_spec d "=") as [->|Nd].
      * destruct r; cbn in A; discriminate A.
      * destruct (look_up (String "-" (String d "")) option_strings) as [o'|] eqn:LK.
        { pose proof (letter_of _ _ LK) as I'. rewrite (unbundle_version d r o' I') in A.
          destruct (act_version (bundle_of o' r) ts n false) as [X|X]; [|rewrite X in A; discriminate A].
          rewrite X in A. destruct (IHr d o' _ _ I' A) as (ss & S & ->). exists (SetVersion :: ss). split; [|reflexivity]. now apply (le_more (String d r)). }
        { exfalso. cbn [unbundle takes_of negb orb] in A. destruct (Ascii.eqb d "-"); [discriminate A|]. rewrite LK in A.
          destruct n as [i p t c m th tr ve]. cbn [act flags flag obind] in A. exact (consume_extra _ _ _ _ (le_n _) A). }
Qed.

Lemma all_spelled : forall k, rest_spelled k.
Proof.
  induction k as [|k IH]; intros l ts n n' L C A.
  - destruct l; [|cbn in L; lia]. apply classify_all_inv in C. subst ts. injection A as <-. exists []. split; [constructor|reflexivity].
  - destruct l as [|s l].
    { apply classify_all_inv in C. subst ts. injection A as <-. exists []. split; [constructor|reflexivity]. }
    cbn [length] in L. pose proof (classify_all_inv _ _ C) as [(ts' & ->)|(t & ts' & -> & Cs & Cl)].
    { exfalso. exact (consume_extra _ _ _ _ (le_n _) A). }
    assert (length l <= k)%nat as L' by lia.
    pose proof (classify_inv _ _ Cs) as X. destruct t as [o single eq g| |v].
    2, 3: exfalso; exact (consume_extra _ _ _ _ (le_n _) A).
    destruct X as [(B & X)|[(w & v & B & -> & X)|(c & o' & r & -> & I & B)]]; rewrite (consume_token _ _ _ _ _ B) in A.
    + destruct (next_inv k l ts' n n' o IH L' Cl A) as [(s' & ss & W & S & ->)|(v & l' & s' & ss & -> & P & W & S & ->)].
      * exists (s' :: ss). split; [eapply sp_flag; eauto|reflexivity].
      * exists (s' :: ss). split; [eapply sp_value; eauto|reflexivity].
    + destruct (takes_of o) eqn:T.
      * exfalso. destruct v; cbn in A; rewrite T in A; discriminate A.
      * assert (unbundle v o false true = BValue [] o v) as E by (destruct v; cbn; now rewrite T). rewrite E in A.
        cbn [act flags obind] in A. apply goes_inv in A. destruct A as (m & A & R). destruct (store_inv o v n m ltac:(congruence) A) as (s' & W & ->).
        destruct (IH _ _ _ _ L' Cl R) as (ss & S & ->). exists (s' :: ss). split; [eapply sp_equals; eauto|reflexivity].
      * assert (unbundle v o false true = BValue [] o v) as E by (destruct v; cbn; now rewrite T). rewrite E in A.
        cbn [act flags obind] in A. apply goes_inv in A. destruct A as (m & A & R). destruct (store_inv o v n m ltac:(congruence) A) as (s' & W & ->).
        destruct (IH _ _ _ _ L' Cl R) as (ss & S & ->). exists (s' :: ss). split; [eapply sp_equals; eauto|reflexivity].
    + destruct (letters_inv k l ts' IH L' Cl r c o' n n' I A) as (ss & S & ->). exists ss. split; [now apply (sp_letters (String c r))|reflexivity].
Qed.

Theorem parse_spelled l n : parse_args l = Goes n <-> exists ss, spelled l ss /\ n = meaning ss.
Proof.
  unfold parse_args. split.
  - destruct (classify_all l) as [ts|] eqn:C; [|discriminate]. intros A.
    destruct (all_spelled _ _ _ _ _ (le_n _) C A) as (ss & S & ->). exists ss. split; [exact S|apply applies_defaults].
  - intros (ss & S & ->). destruct (proj1 spelled_accepted _ _ S [] [] eq_refl I) as (ts & C & _ & A). rewrite app_nil_r in C.
    rewrite C, A. cbn [consume]. now rewrite applies_defaults.
Qed.

(** Exit codes. *)
Definition helps (b : bundle) : Prop :=
  match b with
  | BError => False
  | BUnknown os => In OHelp os
  | BValue os _ _ => In OHelp os
  | BNext os o => In OHelp os \/ o = OHelp
  end.

Lemma flags_exit os n c : flags os n = Exits c -> c = 0%Z /\ In OHelp os.
Proof.
  revert n. induction os as [|o os IH]; intros n E; [discriminate E|]. destruct n as [i p t cc m th tr ve]. cbn [flags] in E.
  destruct o; cbn [flag obind] in E; try (apply IH in E; cbn; tauto). injection E as <-. cbn; tauto.
Qed.
Lemma flag_exit o n c : flag o n = Exits c -> c = 0%Z /\ o = OHelp.
Proof. destruct n as [i p t cc m th tr ve], o; cbn; intros E; try discriminate E. injection E as <-. auto. Qed.
Lemma store_exit o v n c : store o v n = Exits c -> c = 2%Z.
Proof. destruct n as [i p t cc m th tr ve], o; cbn; try discriminate. destruct (int_of v); congruence. Qed.
Lemma exits_inv {A B} (r : outcome A) (k : A -> outcome B) c : obind r k = Exits c -> r = Exits c \/ exists a, r = Goes a /\ k a = Exits c.
Proof. destruct r; cbn; intros E; [left; congruence|eauto]. Qed.

Lemma consume_exit : forall k ts n extra c, (length ts <= k)%nat -> consume ts n extra = Exits c ->
  c = 2%Z \/ c = 0%Z /\ exists t b, In t ts /\ token_bundle t = Some b /\ helps b.
Proof.
  induction k as [|k IH]; intros [|t ts] n extra c L E; cbn [length] in L; try lia.
  - cbn in E. destruct extra; [|discriminate E]. injection E as <-. now left.
  - cbn in E. destruct extra; [|discriminate E]. injection E as <-. now left.
  - assert (forall n e, consume ts n e = Exits c ->
      c = 2%Z \/ c = 0%Z /\ exists t' b, In t' (t :: ts) /\ token_bundle t' = Some b /\ helps b) as G.
    { intros n' e X. apply IH in X; [|lia]. destruct X as [X|(X & t' & b & I & B)]; [now left|right]. split; [exact X|]. exists t', b. split; [now right|exact B]. }
    destruct (token_bundle t) as [b|] eqn:TB.
    2: { destruct t as [o single eq [v|]| |v]; try discriminate TB; exact (G _ _ E). }
    assert (helps b -> c = 0%Z -> c = 2%Z \/ c = 0%Z /\ exists t' b, In t' (t :: ts) /\ token_bundle t' = Some b /\ helps b) as H.
    { intros H C. right. split; [exact C|]. exists t, b. split; [now left|]. auto. }
    rewrite (consume_token _ _ _ _ _ TB) in E. destruct b as [|os|os o v|os o]; cbn [act] in E.
    + injection E as <-. now left.
    + apply exits_inv in E. destruct E as [E|(m & _ & E)]; [|exact (G _ _ E)]. apply flags_exit in E. now apply H.
    + apply exits_inv in E. destruct E as [E|(m & _ & E)]; [apply flags_exit in E; now apply H|].
      apply exits_inv in E. destruct E as [E|(m' & _ & E)]; [apply store_exit in E; now left|exact (G _ _ E)].
    + assert (obind (flags os n) (fun n => obind (flag o n) (fun n => consume ts n extra)) = Exits c ->
              c = 2%Z \/ c = 0%Z /\ exists t' b, In t' (t :: ts) /\ token_bundle t' = Some b /\ helps b) as F.
      { intros X. apply exits_inv in X. destruct X as [X|(m & _ & X)]; [apply flags_exit in X; apply H; [left|]; apply X|].
        apply exits_inv in X. destruct X as [X|(m' & _ & X)]; [apply flag_exit in X; apply H; [right|]; apply X|exact (G _ _ X)]. }
      assert (forall v ts', ts = TArg v :: ts' -> obind (flags os n) (fun n => obind (store o v n) (fun n => consume ts' n extra)) = Exits c ->
              c = 2%Z \/ c = 0%Z /\ exists t' b, In t' (t :: ts) /\ token_bundle t' = Some b /\ helps b) as V.
      { intros v ts' -> X. apply exits_inv in X. destruct X as [X|(m & _ & X)]; [apply flags_exit in X; apply H; [left|]; apply X|].
        apply exits_inv in X. destruct X as [X|(m' & _ & X)]; [apply store_exit in X; now left|].
        apply IH in X; [|cbn [length] in L; lia]. destruct X as [X|(X & t' & b & I & B)]; [now left|right]. split; [exact X|].
        exists t', b. split; [right; now right|exact B]. }
      destruct (takes_of o); [exact (F E)|..]; destruct ts as [|[| |v] ts']; try exact (F E); try exact (V _ _ eq_refl E);
        injection E as <-; now left.
Qed.

Lemma letters_help : forall r c o, In (c, name_of o) letters -> helps (bundle_of o r) ->
  exists vs r', String c r = vs ++ "h" ++ r' /\ forall d, contains d vs -> d = "V"%char.
Proof.
  assert (forall c r, exists vs r', String "h" r = vs ++ "h" ++ r' /\ forall d : ascii, contains d vs -> d = c) as H0.
  { intros c r. exists "", r. split; [reflexivity|]. intros d []. }
  induction r as [|d r IH]; intros c o I H.
  - cbn in I. destruct I as [I|[I|[I|[I|[]]]]]; injection I as <- E; destruct o; try discriminate E; [apply H0|..];
      destruct H as [[]|H]; discriminate H.
  - cbn in I. destruct I as [I|[I|[I|[I|[]]]]]; injection I as <- E; destruct o; try discriminate E; [apply H0|..];
      cbn [bundle_of] in H; destruct (Ascii.eqb_spec d "=").
    + destruct r; contradiction H.
    + contradiction H.
    + destruct r; contradiction H.
    + contradiction H.
    + destruct r; contradiction H.
    + destruct (look_up (String "-" (String d "")) option_strings) as [o'|] eqn:LK.
      * pose proof (letter_of _ _ LK) as I'. rewrite (unbundle_version d r o' I') in H.
        assert (helps (bundle_of o' r)) as H'.
        { destruct (bundle_of o' r); cbn [before helps] in H |- *; try tauto; destruct H as [H|H]; try discriminate H; auto.
          destruct H as [H|H]; [discriminate H|auto]. }
        destruct (IH d o' I' H') as (vs & r' & E' & A). exists (String "V" vs), r'. split; [rewrite E'; reflexivity|].
        intros x [X|X]; [exact X|auto].
      * cbn [unbundle takes_of negb orb] in H. destruct (Ascii.eqb d "-"); [contradiction H|]. rewrite LK in H.
        destruct H as [H|[]]. discriminate H.
Qed.

Lemma classify_all_in : forall l ts t, classify_all l = Some ts -> In t ts -> token_bundle t <> None -> exists s, In s l /\ classify s = Some t.
Proof.
  induction l as [|s l IH]; intros ts t C I B; cbn [classify_all] in C.
  - injection C as <-. contradiction I.
  - destruct (String.eqb s "--").
    + injection C as <-. exfalso. destruct I as [<-|I]; [now apply B|]. apply in_map_iff in I. destruct I as (x & <- & _). now apply B.
    + destruct (classify s) as [a|] eqn:A; [|discriminate]. destruct (classify_all l) as [b|]; [|discriminate]. injection C as <-.
      destruct I as [<-|I]; [exists s; split; [now left|exact A]|]. destruct (IH b t eq_refl I B) as (x & X & Y). exists x. split; [now right|exact Y].
Qed.

Lemma classified_help s t b : classify s = Some t -> token_bundle t = Some b -> helps b -> asks_help s.
Proof.
  intros C B H. pose proof (classify_inv _ _ C) as X. destruct t as [o single eq g| |v]; try discriminate B.
  destruct X as [(B' & X)|[(w & v & B' & _ & X)|(c & o' & r & -> & I & B')]]; rewrite B' in B; injection B as <-.
  - destruct H as [[]|H]. rewrite H in X. now left.
  - exfalso. destruct v, o; exact H.
  - right. destruct (letters_help r c o' I H) as (vs & r' & E & A). exists vs, r'. split; [|exact A]. now rewrite E.
Qed.

Lemma parse_exit l c : parse_args l = Exits c -> c = 2%Z \/ c = 0%Z /\ exists s, In s l /\ asks_help s.
Proof.
  unfold parse_args. destruct (classify_all l) as [ts|] eqn:C; [|intros E; injection E as <-; now left].
  intros E. apply (consume_exit _ _ _ _ _ (le_n _)) in E. destruct E as [E|(E & t & b & I & B & H)]; [now left|right]. split; [exact E|].
  destruct (classify_all_in _ _ _ C I) as (s & Is & Cs); [congruence|]. exists s. split; [exact Is|]. eapply classified_help; eauto.
Qed.

(** What is asked for. *)
Lemma has_convert ss : existsb (fun s => match s with SetConvert => true | _ => false end) ss = true <-> In SetConvert ss.
Proof.
  rewrite existsb_exists. split; [intros (x & I & E); destruct x; try discriminate E; exact I|]. intros I. exists SetConvert. auto.
Qed.
Lemma has_version ss : existsb (fun s => match s with SetVersion => true | _ => false end) ss = true <-> In SetVersion ss.
Proof.
  rewrite existsb_exists. split; [intros (x & I & E); destruct x; try discriminate E; exact I|]. intros I. exists SetVersion. auto.
Qed.
Lemma given_text v m : given v = true /\ text v = m <-> v = Some m /\ m <> "".
Proof.
  destruct v as [x|]; cbn.
  - rewrite negb_true_iff, String.eqb_neq. split; [intros (N & <-); auto|intros (E & N)]. injection E as ->. auto.
  - split; intros (A & _); discriminate A.
Qed.

Definition decide (n : settings) : outcome action :=
  if n_version n then Exits 0
  else if n_convert n then
    if given (n_model n) then Goes (Convert (text (n_model n)) (n_thermo n) (n_transport n) (n_path n)) else Exits 2
  else if given (n_input n) then Goes (Reduce (text (n_input n)) (n_thermo n) (n_transport n) (n_path n) (n_threads n))
  else Exits 2.

Lemma decide_goes ss a : decide (meaning ss) = Goes a <-> asked ss a.
Proof.
  unfold decide, asked. cbn [meaning n_version n_convert n_model n_thermo n_transport n_path n_input n_threads].
  destruct (existsb (fun s => match s with SetVersion => true | _ => false end) ss) eqn:V.
  { apply has_version in V. split; [discriminate|]. intros (N & _). contradiction. }
  assert (~ In SetVersion ss) as NV by (intros I; apply has_version in I; congruence).
  destruct (existsb (fun s => match s with SetConvert => true | _ => false end) ss) eqn:Cv.
  - apply has_convert in Cv. destruct (given (last_of model_of ss)) eqn:G.
    + pose proof (proj1 (given_text _ _) (conj G eq_refl)) as (EM & NM). split.
      * intros E. injection E as <-. repeat split; auto.
      * intros (_ & H). destruct a as [m th tr p|]; [|destruct H as (H & _); contradiction].
        destruct H as (_ & Em & _ & -> & -> & ->). rewrite EM in Em. injection Em as <-. reflexivity.
    + split; [discriminate|]. intros (_ & H). destruct a as [m th tr p|]; [|destruct H as (H & _); contradiction].
      destruct H as (_ & Em & Nm & _). pose proof (proj2 (given_text _ _) (conj Em Nm)) as (X & _). congruence.
  - assert (~ In SetConvert ss) as NC by (intros I; apply has_convert in I; congruence). destruct (given (last_of input_of ss)) eqn:G.
    + pose proof (proj1 (given_text _ _) (conj G eq_refl)) as (EM & NM). split.
      * intros E. injection E as <-. repeat split; auto.
      * intros (_ & H). destruct a as [|i th tr p t]; [destruct H as (H & _); contradiction|].
        destruct H as (_ & Em & _ & -> & -> & -> & ->). rewrite EM in Em. injection Em as <-. reflexivity.
    + split; [discriminate|]. intros (_ & H). destruct a as [|i th tr p t]; [destruct H as (H & _); contradiction|].
      destruct H as (_ & Em & Nm & _). pose proof (proj2 (given_text _ _) (conj Em Nm)) as (X & _). congruence.
Qed.
Lemma decide_exit ss c : decide (meaning ss) = Exits c -> c = 0%Z /\ In SetVersion ss \/ c = 2%Z /\ ~ In SetVersion ss.
Proof.
  unfold decide. cbn [meaning n_version n_convert n_model n_thermo n_transport n_path n_input n_threads].
  destruct (existsb (fun s => match s with SetVersion => true | _ => false end) ss) eqn:V.
  { apply has_version in V. intros E. injection E as <-. auto. }
  assert (~ In SetVersion ss) as NV by (intros I; apply has_version in I; congruence).
  destruct (existsb (fun s => match s with SetConvert => true | _ => false end) ss); [destruct (given (last_of model_of ss))|destruct (given (last_of input_of ss))]; intros E; try discriminate E;
    injection E as <-; auto.
Qed.

Lemma command_eq a l : a <> [] -> command a l = obind (parse_args l) decide.
Proof. destruct a; [congruence|reflexivity]. Qed.

Lemma command_goes l a : command l l = Goes a <-> exists ss, spelled l ss /\ asked ss a.
Proof.
  destruct l as [|s l].
  - split; [discriminate|]. intros (ss & S & A). inversion S; subst. exfalso. destruct a; [destruct A as (_ & A & _)|destruct A as (_ & _ & A & _)].
    + exact A.
    + discriminate A.
  - rewrite command_eq by discriminate. split.
    + intros E. apply goes_inv in E. destruct E as (n & P & D). apply parse_spelled in P. destruct P as (ss & S & ->).
      exists ss. split; [exact S|]. now apply decide_goes.
    + intros (ss & S & A). rewrite (proj2 (parse_spelled (s :: l) (meaning ss)) (ex_intro _ ss (conj S eq_refl))). cbn [obind]. now apply decide_goes.
Qed.

Lemma command_exits l c : command l l = Exits c ->
  c = 1%Z /\ l = [] \/
  c = 0%Z /\ ((exists ss, spelled l ss /\ In SetVersion ss) \/ (exists s, In s l /\ asks_help s) /\ forall ss, ~ spelled l ss) \/
  c = 2%Z /\ l <> [] /\ forall ss, spelled l ss -> ~ In SetVersion ss /\ forall a, ~ asked ss a.
Proof.
  destruct l as [|s l]; [intros E; injection E as <-; auto|]. intros H. set (L := s :: l) in *. right.
  rewrite command_eq in H by discriminate. apply exits_inv in H. destruct H as [H|(n & P & D)].
  - assert (forall ss, ~ spelled L ss) as NS.
    { intros ss S. rewrite (proj2 (parse_spelled L (meaning ss)) (ex_intro _ ss (conj S eq_refl))) in H. discriminate H. }
    apply parse_exit in H. destruct H as [->|(-> & X)].
    + right. split; [reflexivity|]. split; [discriminate|]. intros ss S. now apply NS in S.
    + left. auto.
  - apply parse_spelled in P. destruct P as (ss & S & ->).
    assert (forall ss', spelled L ss' -> meaning ss' = meaning ss) as U.
    { intros ss' S'. pose proof (proj2 (parse_spelled L (meaning ss)) (ex_intro _ ss (conj S eq_refl))) as E1.
      pose proof (proj2 (parse_spelled L (meaning ss')) (ex_intro _ ss' (conj S' eq_refl))) as E2. congruence. }
    pose proof (decide_exit _ _ D) as [(-> & V)|(-> & V)]; [left; split; [reflexivity|left; eauto]|right].
    split; [reflexivity|]. split; [discriminate|]. intros ss' S'. split.
    + intros I. apply V. apply has_version. pose proof (U _ S') as M. apply (f_equal n_version) in M. cbn [meaning n_version] in M.
      rewrite <- M. now apply has_version.
    + intros a A. apply decide_goes in A. rewrite (U _ S') in A. congruence.
Qed.

Lemma command_version l ss : spelled l ss -> In SetVersion ss -> command l l = Exits 0.
Proof.
  intros S V. destruct l as [|s l]; [inversion S; subst; contradiction V|]. rewrite command_eq by discriminate.
  rewrite (proj2 (parse_spelled _ (meaning ss)) (ex_intro _ ss (conj S eq_refl))). cbn [obind]. unfold decide.
  cbn [meaning n_version]. apply has_version in V. now rewrite V.
Qed.

(** Help. *)
Lemma clear_classified s : ~ unclear s -> exists t, classify s = Some t.
Proof.
  intros U. destruct (classify s) as [t|] eqn:E; [eauto|]. exfalso. apply U. clear U.
  destruct s as [|a [|c rest]].
  - discriminate E.
  - destruct a as [[] [] [] [] [] [] [] []]; discriminate E.
  - destruct (ascii_dec a "-") as [->|Na].
    2: { destruct a as [[] [] [] [] [] [] [] []]; try discriminate E. congruence. }
    destruct (ascii_dec c "-") as [->|Nc].
    + destruct (look_up (String "-" (String "-" rest)) option_strings) as [o|] eqn:L; [cbn [classify] in E; rewrite L in E; discriminate E|].
      rewrite (classify_unfold "-" rest L) in E. destruct (partition_eq (String "-" (String "-" rest))) as [name value] eqn:P.
      pose proof (partition_inv _ _ _ P) as (NE & SP).
      assert (exists x, name = "--" ++ x) as (x & ->).
      { cbn [partition_eq] in P. change (Ascii.eqb "-" "=") with false in P. cbv iota in P. destruct (partition_eq rest) as [x b].
        injection P as <- _. exists x. reflexivity. }
      change (negb (Ascii.eqb "-" "-")) with false in E. cbv iota in E.
      assert (exists y z l, filter (fun x0 => starts ("--" ++ x) (fst x0)) option_strings = y :: z :: l) as (y & z & l & F).
      { destruct (filter _ option_strings) as [|y [|z l]].
        - cbn [map] in E. destruct value as [v|]; [destruct (look_up ("--" ++ x) option_strings)|]; try discriminate E; destruct (_ || _); discriminate E.
        - cbn [map] in E. destruct value as [v|]; [destruct (look_up ("--" ++ x) option_strings)|]; discriminate E.
        - eauto. }
      rewrite filter_longs in F.
      assert (NoDup (filter (fun x0 => starts ("--" ++ x) (fst x0)) longs)) as ND.
      { apply NoDup_filter. unfold longs. cbn. repeat (constructor; [cbn; intuition discriminate|]). constructor. }
      assert (forall u, In u [y; z] -> exists o, u = (name_of o, o) /\ prefix ("--" ++ x) (name_of o)) as X.
      { intros u I. assert (In u (filter (fun x0 => starts ("--" ++ x) (fst x0)) longs)) as J.
        { rewrite F. destruct I as [<-|[<-|[]]]; cbn; auto. }
        apply filter_In in J. destruct J as (J & S). unfold longs in J. apply in_map_iff in J. destruct J as (o & <- & _).
        exists o. split; [reflexivity|]. apply starts_prefix. exact S. }
      destruct (X y (or_introl eq_refl)) as (o1 & -> & P1). destruct (X z (or_intror (or_introl eq_refl))) as (o2 & -> & P2).
      rewrite F in ND. inversion ND as [|? ? N _]; subst.
      exists ("--" ++ x), (name_of o1), (name_of o2). split; [|split; [exists x; reflexivity|repeat split; auto using name_long]].
      * destruct value as [v|]; [right; exists v; exact SP|left; exact SP].
      * intros Q. apply N. left. apply name_inj in Q. now rewrite Q.
    + destruct (look_up (String "-" (String c "")) option_strings) as [o|] eqn:L.
      * destruct (classify_letter c o rest (letter_of _ _ L)) as (t & C & _). congruence.
      * assert (forall x, look_up (String "-" (String c x)) option_strings = None) as LL.
        { intros [|d x]; [exact L|]. destruct (look_up_long_short d x c); [assumption|contradiction]. }
        rewrite (classify_unfold c rest (LL rest)) in E. destruct (partition_eq (String "-" (String c rest))) as [name value].
        destruct (Ascii.eqb_spec c "-"); [contradiction|]. cbn [negb] in E. rewrite L in E.
        destruct value as [v|]; [destruct (look_up name option_strings)|]; try discriminate E; destruct (_ || _); discriminate E.
Qed.

Lemma clear_all : forall l, (forall s, In s l -> ~ unclear s) -> exists ts, classify_all l = Some ts.
Proof.
  induction l as [|s l IH]; intros H; [exists []; reflexivity|]. cbn [classify_all]. destruct (String.eqb s "--"); [eauto|].
  destruct (clear_classified s (H s (or_introl eq_refl))) as (t & ->). destruct (IH (fun x I => H x (or_intror I))) as (ts & ->). eauto.
Qed.

Lemma command_help l ss s l' : spelled l ss -> abbreviates s "--help" \/ s = "-h" -> (forall x, In x l' -> ~ unclear x) ->
  command (l ++ s :: l') (l ++ s :: l') = Exits 0.
Proof.
  intros S H U. rewrite command_eq by (destruct l; discriminate). unfold parse_args.
  assert (exists t, classify s = Some t /\ token_bundle t = Some (BNext [] OHelp)) as (t & C & B).
  { destruct H as [H| ->]; [|eexists; split; reflexivity]. apply (classify_long s OHelp) in H. destruct H as (H & _). eauto. }
  destruct (clear_all l' U) as (ts' & C').
  destruct (proj1 spelled_accepted _ _ S (s :: l') (t :: ts')) as (ts & -> & _ & A).
  - now apply classify_cons.
  - destruct t; try exact I. discriminate B.
  - rewrite A, (consume_token _ _ _ _ _ B). cbn [act takes_of flags obind]. destruct (applies ss defaults). reflexivity.
Qed.
