(** The command line: numbers, and the program that it starts. *)
From Coq Require Import String Ascii List ZArith Bool Arith Lia Decimal DecimalString DecimalPos DecimalZ DecimalFacts.
From Verif.Base Require Import Py.
From Verif.Model Require Import World Inputs Main Cli.
From Verif.Spec Require Import CliSpec.
From Verif.Proofs Require Import CliFacts CliInt CliMain.
Import ListNotations.
Local Open Scope string_scope.

Lemma int_digits_pos : forall d p, int_digits (Zpos p) true (NilEmpty.string_of_uint d) = Some (Zpos (Pos.of_uint_acc d p)).
Proof.
  induction d as [|d IH|d IH|d IH|d IH|d IH|d IH|d IH|d IH|d IH|d IH]; intros p; [reflexivity|..];
    cbn [NilEmpty.string_of_uint int_digits Pos.of_uint_acc];
    match goal with |- context [digit_of ?c] => let v := eval vm_compute in (digit_of c) in change (digit_of c) with v end; cbv iota beta;
    rewrite <- IH; f_equal; lia.
Qed.
Lemma int_digits_uint : forall d any, d <> Nil -> int_digits 0 any (NilEmpty.string_of_uint d) = Some (Z.of_N (Pos.of_uint d)).
Proof.
  assert (forall d any, d <> Nil \/ any = true -> int_digits 0 any (NilEmpty.string_of_uint d) = Some (Z.of_N (Pos.of_uint d))) as G.
  { induction d as [|d IH|d IH|d IH|d IH|d IH|d IH|d IH|d IH|d IH|d IH]; intros any H;
      [destruct H as [H| ->]; [congruence|reflexivity]|..];
      cbn [NilEmpty.string_of_uint int_digits Pos.of_uint];
      match goal with |- context [digit_of ?c] => let v := eval vm_compute in (digit_of c) in change (digit_of c) with v end; cbv iota beta.
    1: { apply IH. now right. }
    all: match goal with |- int_digits ?a _ _ = _ => let v := eval vm_compute in a in change a with v end; rewrite int_digits_pos; reflexivity. }
  intros d any H. apply G. now left.
Qed.

Lemma uint_text_digits : forall d, digits (NilEmpty.string_of_uint d).
Proof. induction d; cbn [NilEmpty.string_of_uint digits]; [exact I|..]; (split; [cbn; tauto|assumption]). Qed.
Lemma zero_text d : NilZero.string_of_uint d = NilEmpty.string_of_uint (match d with Nil => D0 Nil | _ => d end).
Proof. destruct d; reflexivity. Qed.

Lemma digits_no_sign s : digits s -> s <> "" -> exists c r, s = String c r /\ is_space c = false /\ c <> "-"%char /\ c <> "+"%char.
Proof.
  destruct s as [|c r]; [congruence|]. intros (D & _) _. exists c, r. split; [reflexivity|].
  cbn in D. repeat (destruct D as [<-|D]; [repeat split; try reflexivity; discriminate|]). contradiction.
Qed.

Lemma uint_text_ne d : NilZero.string_of_uint d <> "".
Proof. destruct d; discriminate. Qed.

Lemma int_of_unsigned s : digits s -> s <> "" -> int_of s = int_digits 0 false s.
Proof.
  intros D N. destruct (digits_no_sign s D N) as (c & r & -> & S & N1 & N2). unfold int_of. cbn [lstrip]. rewrite S.
  destruct c as [[] [] [] [] [] [] [] []]; try reflexivity; congruence.
Qed.

Lemma uint_of_text d : int_digits 0 false (NilZero.string_of_uint d) = Some (Z.of_N (Pos.of_uint d)).
Proof. rewrite zero_text, int_digits_uint by (destruct d; discriminate). destruct d; reflexivity. Qed.
Lemma uint_text_all d : digits (NilZero.string_of_uint d).
Proof. rewrite zero_text. apply uint_text_digits. Qed.

Lemma int_of_decimal z : int_of (decimal_text z) = Some z.
Proof.
  unfold decimal_text. rewrite <- (DecimalZ.of_to z) at 2. destruct (Z.to_int z) as [d|d]; cbn [NilZero.string_of_int Z.of_int].
  - rewrite int_of_unsigned by (apply uint_text_all || apply uint_text_ne). rewrite uint_of_text. reflexivity.
  - change (option_map Z.opp (int_digits 0 false (NilZero.string_of_uint d)) = Some (- Z.of_uint d)%Z). rewrite uint_of_text. reflexivity.
Qed.
Lemma decimal_plain z : plain (decimal_text z).
Proof.
  unfold decimal_text. destruct (Z.to_int z) as [d|d]; cbn [NilZero.string_of_int].
  - destruct (digits_no_sign _ (uint_text_all d) (uint_text_ne d)) as (c & r & -> & _ & N & _). now apply plain_text.
  - apply (plain_whole (NilZero.string_of_uint d)); [apply uint_text_all|apply uint_text_ne].
Qed.

Lemma spelled_app : (forall l ss, spelled l ss -> forall l' ss', spelled l' ss' -> spelled (l ++ l')%list (ss ++ ss')%list) /\
  (forall r l ss, in_letters r l ss -> forall l' ss', spelled l' ss' -> in_letters r (l ++ l')%list (ss ++ ss')%list).
Proof.
  apply spelled_both; intros; cbn [app].
  - assumption.
  - eapply sp_value; eauto.
  - eapply sp_equals; eauto.
  - eapply sp_flag; eauto.
  - apply sp_letters; auto.
  - eapply le_value; eauto.
  - eapply le_glued; eauto.
  - eapply le_equals; eauto.
  - apply le_flag; auto.
  - apply le_more; auto.
Qed.

Lemma last_app {A} (f : setting -> option A) s t : last_of f (s ++ t) = match last_of f t with Some a => Some a | None => last_of f s end.
Proof. induction s as [|x s IH]; simpl; [now destruct (last_of f t)|]. rewrite IH. destruct (last_of f t); reflexivity. Qed.

(** The last number of processes counts. *)
Lemma threads_given l ss i th tr p n t z : spelled l ss -> asked ss (Reduce i th tr p n) -> spelled t [SetThreads z] ->
  command (l ++ t) (l ++ t) = Goes (Reduce i th tr p z).
Proof.
  intros S (NV & NC & Ei & Ni & -> & -> & -> & _) St. apply command_goes. exists (ss ++ [SetThreads z])%list.
  split; [now apply spelled_app|]. split.
  { intros I. apply in_app_or in I. destruct I as [I|[I|[]]]; [contradiction|discriminate I]. }
  split. { intros I. apply in_app_or in I. destruct I as [I|[I|[]]]; [contradiction|discriminate I]. }
  rewrite !last_app. cbn [last_of input_of thermo_of transport_of path_of threads_of]. split; [exact Ei|]. split; [exact Ni|]. repeat split.
Qed.
Lemma self_threads : abbreviates "--num_threads" "--num_threads".
Proof. exact (self_abbreviates OThreads). Qed.
Lemma threads_spelled z :
  spelled ["--num_threads"; decimal_text z] [SetThreads z] /\ spelled ["--num_threads=" ++ decimal_text z] [SetThreads z] /\
  spelled ["--num_threads"] [SetThreads 0].
Proof.
  split; [|split].
  - apply (sp_value "--num_threads" "--num_threads"); [apply self_threads|constructor; apply int_of_integer; apply int_of_decimal|apply decimal_plain|constructor].
  - apply (sp_equals "--num_threads" "--num_threads" (decimal_text z)); [apply self_threads|constructor; apply int_of_integer; apply int_of_decimal|constructor].
  - apply (sp_flag "--num_threads" "--num_threads"); [apply self_threads|constructor|constructor].
Qed.
Lemma threads_command l ss i th tr p n z : spelled l ss -> asked ss (Reduce i th tr p n) ->
  (forall t, In t [["--num_threads"; decimal_text z]; ["--num_threads=" ++ decimal_text z]] ->
     command (l ++ t) (l ++ t) = Goes (Reduce i th tr p z)) /\
  command (l ++ ["--num_threads"]) (l ++ ["--num_threads"]) = Goes (Reduce i th tr p 0).
Proof.
  intros S A. destruct (threads_spelled z) as (S1 & S2 & S3). split.
  - intros t [<-|[<-|[]]]; eapply threads_given; eauto.
  - eapply threads_given; eauto.
Qed.

(** The options that the rest of the program works with. *)
Definition options_of (n : settings) : options :=
  mkOptions (text (n_input n)) (n_path n) (n_convert n) (text (n_model n)) (n_version n).

Lemma given_empty v : given v = negb (String.eqb (text v) "").
Proof. destruct v as [v|]; reflexivity. Qed.

Lemma command_runs rd cv rn l n : parse_args l = Goes n ->
  pymars rd cv rn (length l) (options_of n) =
  match command l l with
  | Exits _ => mraise SystemExit
  | Goes (Convert m _ _ p) => cv m p
  | Goes (Reduce i _ _ p _) => pymars rd cv rn 1 (mkOptions i p false "" false)
  end.
Proof.
  destruct l as [|s l]; [reflexivity|]. intros E. rewrite command_eq by discriminate. rewrite E. cbn [obind length].
  unfold pymars, decide, options_of. cbn [Nat.eqb o_version o_convert o_model o_input o_path]. rewrite !given_empty.
  destruct (n_version n); [reflexivity|]. destruct (n_convert n).
  - destruct (String.eqb (text (n_model n)) ""); reflexivity.
  - destruct (String.eqb (text (n_input n)) "") eqn:X; cbn [negb]; [reflexivity|]. cbn [Nat.eqb]. now rewrite X.
Qed.
