(** Words and lines of concatenated text. *)
From Coq Require Import String Ascii List Bool Arith ZArith QArith Lia.
From Verif.Base Require Import Py Num XNum Text.
From Verif.Spec Require Import TextSpec ChemkinSpec.
From Verif.Proofs Require Import FormatFacts.
Import ListNotations.
Local Open Scope string_scope.

Lemma split_sep p a c b : p c = true -> split_on p (a ++ String c b) = (split_on p a ++ split_on p b)%list.
Proof.
  intros H. induction a as [|d a IH]; cbn [String.append split_on].
  - rewrite H. reflexivity.
  - rewrite IH. destruct (p d); [reflexivity|].
    destruct (split_on p a) as [|w r] eqn:E; [|reflexivity].
    exfalso. clear - E. destruct a as [|e a]; cbn [split_on] in E; [discriminate|].
    destruct (p e); [discriminate|]. destruct (split_on p a); discriminate.
Qed.
Lemma split_free p s : free p s -> split_on p s = [s].
Proof.
  induction s as [|c s IH]; cbn [free split_on]; intros H; [reflexivity|].
  destruct H as [H1 H2]. rewrite H1, (IH H2). reflexivity.
Qed.
Lemma free_app p a b : free p (a ++ b) <-> free p a /\ free p b.
Proof. induction a as [|c a IH]; cbn [String.append free]; [tauto|]. rewrite IH. tauto. Qed.
Lemma free_weaken (p q : ascii -> bool) s : (forall c, q c = true -> p c = true) -> free p s -> free q s.
Proof.
  intros H. induction s as [|c s IH]; cbn [free]; [tauto|]. intros [A B]. split; [|auto].
  destruct (q c) eqn:E; [|reflexivity]. apply H in E. congruence.
Qed.
Lemma free_concat p sep l : free p sep -> Forall (free p) l -> free p (String.concat sep l).
Proof.
  intros S F. induction F as [|x l Hx F IH]; [exact I|].
  destruct l as [|y l]; [exact Hx|]. change (String.concat sep (x :: y :: l)) with (x ++ sep ++ String.concat sep (y :: l)).
  rewrite !free_app. auto.
Qed.
Lemma free_spaces p n : p " "%char = false -> free p (spaces n).
Proof. intros H. induction n; cbn [spaces free]; auto. Qed.
Lemma token_free_blank s : token s -> free is_blank s.
Proof. intros [_ F]. revert F. apply free_weaken. intros c H. unfold bad. rewrite H. reflexivity. Qed.
Lemma token_free_slash s : token s -> free is_slash s.
Proof. intros [_ F]. revert F. apply free_weaken. intros c H. unfold bad. rewrite H. apply orb_true_r. Qed.
Lemma blank_newline s : free is_blank s -> free is_newline s.
Proof. apply free_weaken. intros c H. unfold is_blank. rewrite H. apply orb_true_r. Qed.
Lemma token_free_newline s : token s -> free is_newline s.
Proof. intros H. apply blank_newline, token_free_blank, H. Qed.

(** ** Words *)
Lemma words_sep a c b : is_blank c = true -> words (a ++ String c b) = (words a ++ words b)%list.
Proof. intros H. unfold words. rewrite split_sep by exact H. apply filter_app. Qed.
Lemma words_nil : words "" = [].
Proof. reflexivity. Qed.
Lemma words_token s : token s -> words s = [s].
Proof.
  intros H. unfold words. rewrite split_free by (apply token_free_blank; exact H). cbn [filter].
  destruct (String.eqb_spec s "") as [E|E]; [|reflexivity]. destruct H as [H _]. contradiction.
Qed.
Lemma words_lead c b : is_blank c = true -> words (String c b) = words b.
Proof. intros H. change (String c b) with ("" ++ String c b). rewrite words_sep by exact H. reflexivity. Qed.
Lemma words_spaces_l n s : words (spaces n ++ s) = words s.
Proof. induction n as [|n IH]; cbn [spaces String.append]; [reflexivity|]. rewrite words_lead by reflexivity. exact IH. Qed.
Lemma words_spaces_m n a b : (0 < n)%nat -> words (a ++ spaces n ++ b) = (words a ++ words b)%list.
Proof.
  destruct n as [|n]; [lia|]. intros _. cbn [spaces String.append]. rewrite words_sep by reflexivity.
  f_equal. apply words_spaces_l.
Qed.
Lemma words_spaces_r n a : words (a ++ spaces n) = words a.
Proof.
  destruct n as [|n]; [cbn [spaces]; rewrite append_nil; reflexivity|].
  rewrite <- (append_nil (spaces (S n))), words_spaces_m by lia. cbn [words_nil]. apply app_nil_r.
Qed.
Lemma words_join n l : (0 < n)%nat -> Forall token l -> words (String.concat (spaces n) l) = l.
Proof.
  intros N F. induction F as [|x l Hx F IH]; [reflexivity|].
  destruct l as [|y l]; [exact (words_token x Hx)|].
  change (String.concat (spaces n) (x :: y :: l)) with (x ++ spaces n ++ String.concat (spaces n) (y :: l)).
  rewrite words_spaces_m, IH, (words_token x Hx) by exact N. reflexivity.
Qed.

(** ** Lines *)
Lemma lines_cons a b : free is_newline a -> lines (a ++ newline ++ b) = a :: lines b.
Proof.
  intros H. unfold lines, newline. cbn [String.append]. rewrite split_sep by reflexivity.
  rewrite (split_free _ a H). reflexivity.
Qed.
(** Lines that end in a line break, followed by [t]. *)
Definition unlines (l : list string) (t : string) : string := fold_right (fun a s => a ++ newline ++ s) t l.
Lemma lines_unlines l t : Forall (free is_newline) l -> lines (unlines l t) = (l ++ lines t)%list.
Proof.
  intros F. induction F as [|x l Hx F IH]; [reflexivity|].
  cbn [unlines fold_right]. rewrite lines_cons by exact Hx. unfold unlines in IH. rewrite IH. reflexivity.
Qed.
Lemma unlines_app l m t : unlines (l ++ m) t = unlines l (unlines m t).
Proof. unfold unlines. apply fold_right_app. Qed.
Lemma unlines_end l t : unlines l t = unlines l "" ++ t.
Proof.
  induction l as [|x l IH]; [reflexivity|]. cbn [unlines fold_right]. unfold unlines in IH.
  rewrite IH. rewrite !app_assoc_s. reflexivity.
Qed.
Lemma unlines_join l : l <> nil -> String.concat newline l ++ newline = unlines l "".
Proof.
  induction l as [|x l IH]; [contradiction|]. intros _. destruct l as [|y l]; [reflexivity|].
  change (String.concat newline (x :: y :: l)) with (x ++ newline ++ String.concat newline (y :: l)).
  rewrite !app_assoc_s, IH by discriminate. reflexivity.
Qed.

(** ** Printed numbers are tokens *)
Lemma digit_free n : (0 <= n < 10)%Z -> free bad (digit n).
Proof.
  intros H. assert (C : (n = 0 \/ n = 1 \/ n = 2 \/ n = 3 \/ n = 4 \/ n = 5 \/ n = 6 \/ n = 7 \/ n = 8 \/ n = 9)%Z) by lia.
  repeat destruct C as [->|C]; [..|rewrite C]; cbn; auto.
Qed.
Lemma pad_free k n : free bad (pad k n).
Proof.
  revert n. induction k as [|k IH]; intros n; [exact I|]. cbn [pad]. rewrite free_app. split; [apply IH|].
  apply digit_free, Z.mod_pos_bound. lia.
Qed.
Lemma str_pos_free n : free bad (str_pos n).
Proof. apply pad_free. Qed.
Lemma sign_free q : free bad (sign q).
Proof. unfold sign. destruct (Qlt_bool q 0); cbn; auto. Qed.
Lemma append_empty a b : a ++ b = "" -> b = "".
Proof. destruct a; [auto|discriminate]. Qed.
Lemma fixed_token k q : token (fixed k q).
Proof.
  unfold fixed. split.
  - intros E. apply append_empty, append_empty in E. discriminate.
  - rewrite !free_app. repeat split; try apply sign_free; try apply pad_free.
Qed.
Lemma str_exp_free e : free bad (str_exp e).
Proof.
  unfold str_exp. rewrite free_app. split; [destruct (e <? 0)%Z; cbn; auto|]. cbv zeta.
  destruct (Z.abs e <? 10)%Z; apply pad_free.
Qed.
Lemma sci_token k q : token (sci k q).
Proof.
  unfold sci. destruct (scientific k (Qabs.Qabs q)) as [m e] eqn:S.
  destruct (scientific_spec _ _ _ _ (Qabs.Qabs_nonneg q) S) as [M _].
  assert (BP : (0 < 10 ^ Z.of_nat k)%Z) by (apply Z.pow_pos_nonneg; lia).
  assert (B10 : (10 ^ Z.of_nat (Datatypes.S k) = 10 * 10 ^ Z.of_nat k)%Z) by (rewrite Nat2Z.inj_succ, Z.pow_succ_r by lia; reflexivity).
  split.
  - intros E. apply append_empty, append_empty in E. discriminate.
  - rewrite !free_app. repeat split; try apply sign_free; try apply pad_free; try apply str_exp_free.
    apply digit_free. split; [apply Z.div_pos; lia|]. apply Z.div_lt_upper_bound; lia.
Qed.
Lemma str_nat_token n : token (str_int (Z.of_nat n)).
Proof.
  unfold str_int. destruct (Z.ltb_spec (Z.of_nat n) 0); [lia|]. split; [|apply pad_free].
  unfold str_pos. destruct (ndigits_spec (Z.of_nat n) ltac:(lia)) as [_ [_ N]].
  destruct (ndigits (Z.of_nat n)) as [|k]; [lia|]. intros E. cbn [pad] in E. apply append_empty in E. discriminate.
Qed.
