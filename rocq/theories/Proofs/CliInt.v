(** Which texts are integers. *)
From Coq Require Import String Ascii List ZArith NArith Bool Lia.
From Verif.Model Require Import Cli.
From Verif.Spec Require Import CliSpec.
Import ListNotations.
Local Open Scope string_scope.

Lemma sapp_assoc (a b c : string) : (a ++ b) ++ c = a ++ b ++ c.
Proof. induction a as [|x a IH]; simpl; [reflexivity|now rewrite IH]. Qed.
Lemma sapp_nil (a : string) : a ++ "" = a.
Proof. induction a as [|x a IH]; simpl; [reflexivity|now rewrite IH]. Qed.

Lemma space_white c : is_space c = true <-> In (nat_of_ascii c) [9; 10; 11; 12; 13; 28; 29; 30; 31; 32]%nat.
Proof.
  destruct c as [[] [] [] [] [] [] [] []]; vm_compute; (split; [intros X; try discriminate X; tauto|intros X; try reflexivity]);
    repeat (destruct X as [X|X]; [discriminate X|]); destruct X.
Qed.
Lemma blank_white s : blank s = true <-> white s.
Proof.
  induction s as [|c s IH]; simpl.
  - split; [intros _ c []|reflexivity].
  - rewrite andb_true_iff, IH, space_white. split.
    + intros (A & B) x [<-|I]; [exact A|exact (B x I)].
    + intros W. split; [apply W; left; reflexivity|]. intros x I. apply W. right. exact I.
Qed.
Lemma digit_digit c d : digit_of c = Some d <-> exists k, d = Z.of_nat k /\ digit c k.
Proof.
  unfold digit. split.
  - intros E. exists (Z.to_nat d). revert E.
    destruct c as [[] [] [] [] [] [] [] []]; vm_compute; intros E; try discriminate E; injection E as <-; split; reflexivity.
  - intros (k & -> & E). do 10 (destruct k as [|k]; [cbn in E; injection E as <-; reflexivity|]). destruct k; discriminate E.
Qed.
Lemma digit_not_space c d : digit_of c = Some d -> is_space c = false /\ c <> "+"%char /\ c <> "-"%char.
Proof.
  destruct c as [[] [] [] [] [] [] [] []]; vm_compute; intros E; try discriminate E; (split; [reflexivity|split; discriminate]).
Qed.

(** Reading on after a numeral, and after an underscore or at the beginning. *)
Lemma read_on s : forall acc z,
  (int_digits acc true s = Some z -> forall s0, numeral s0 acc -> exists n b, s = n ++ b /\ white b /\ numeral (s0 ++ n) z) /\
  (int_digits acc false s = Some z ->
     (forall s0, numeral s0 acc -> exists n b, s = n ++ b /\ white b /\ numeral (s0 ++ "_" ++ n) z) /\
     (acc = 0%Z -> exists n b, s = n ++ b /\ white b /\ numeral n z)).
Proof.
  induction s as [|c s IH]; intros acc z; cbn [int_digits].
  - split; [|discriminate]. intros E s0 N. injection E as <-. exists "", "". split; [reflexivity|]. split; [intros x []|]. now rewrite sapp_nil.
  - destruct (digit_of c) as [d|] eqn:D.
    + apply digit_digit in D. destruct D as (k & -> & D). split.
      * intros E s0 N. destruct (IH (10 * acc + Z.of_nat k)%Z z) as (IH1 & _).
        destruct (IH1 E (s0 ++ String c "") (nu_more _ _ _ _ N D)) as (n & b & -> & W & M).
        exists (String c n), b. split; [reflexivity|]. split; [exact W|]. now rewrite sapp_assoc in M.
      * intros E. destruct (IH (10 * acc + Z.of_nat k)%Z z) as (IH1 & _). split.
        -- intros s0 N. destruct (IH1 E (s0 ++ "_" ++ String c "") (nu_gap _ _ _ _ N D)) as (n & b & -> & W & M).
           exists (String c n), b. split; [reflexivity|]. split; [exact W|]. rewrite sapp_assoc in M. exact M.
        -- intros ->. destruct (IH1 E (String c "") (nu_one c k D)) as (n & b & -> & W & M). exists (String c n), b. auto.
    + split; [|discriminate]. destruct (Ascii.eqb_spec c "_") as [->|_].
      * intros E s0 N. destruct (IH acc z) as (_ & IH2). destruct (proj1 (IH2 E) s0 N) as (n & b & -> & W & M).
        exists (String "_" n), b. auto.
      * destruct (blank (String c s)) eqn:B; [|discriminate]. intros E s0 N. injection E as <-. exists "", (String c s).
        split; [reflexivity|]. split; [now apply blank_white|]. now rewrite sapp_nil.
Qed.

Lemma read_blank b z : white b -> int_digits z true b = Some z.
Proof.
  intros W. apply blank_white in W. destruct b as [|c b]; [reflexivity|]. cbn [int_digits].
  destruct (digit_of c) as [d|] eqn:D.
  - apply digit_not_space in D. destruct D as (D & _). cbn [blank] in W. rewrite D in W. discriminate W.
  - destruct (Ascii.eqb_spec c "_") as [->|_]; [discriminate W|]. now rewrite W.
Qed.
Lemma read_numeral n z : numeral n z -> forall b, int_digits 0 false (n ++ b) = int_digits z true b.
Proof.
  assert (forall c d, digit c d -> digit_of c = Some (Z.of_nat d)) as G by (intros c d D; apply digit_digit; eauto).
  induction 1 as [c d D|s z c d _ IH D|s z c d _ IH D]; intros b.
  - cbn [append int_digits]. rewrite (G _ _ D). reflexivity.
  - rewrite sapp_assoc, IH. cbn [append int_digits]. rewrite (G _ _ D). reflexivity.
  - rewrite sapp_assoc, IH. cbn [append int_digits]. change (digit_of "_") with (@None Z). cbv iota. rewrite Ascii.eqb_refl.
    cbn [int_digits]. rewrite (G _ _ D). reflexivity.
Qed.
Lemma numeral_first n z b : numeral n z -> exists c t, n ++ b = String c t /\ is_space c = false /\ c <> "+"%char /\ c <> "-"%char.
Proof.
  intros N. revert b. induction N as [c d D|s z c d _ IH D|s z c d _ IH D]; intros b; [|rewrite sapp_assoc; apply IH|rewrite sapp_assoc; apply IH].
  exists c, b. split; [reflexivity|]. apply (digit_not_space c (Z.of_nat d)). apply digit_digit. eauto.
Qed.
Lemma lstrip_white a s : white a -> lstrip (a ++ s) = lstrip s.
Proof.
  intros W. apply blank_white in W. induction a as [|c a IH]; [reflexivity|]. cbn [blank] in W. apply andb_true_iff in W. destruct W as (A & B).
  cbn [append lstrip]. rewrite A. auto.
Qed.
Lemma lstrip_split s : exists a, s = a ++ lstrip s /\ white a.
Proof.
  induction s as [|c s (a & E & W)]; [exists ""; split; [reflexivity|intros x []]|]. cbn [lstrip]. destruct (is_space c) eqn:S.
  - exists (String c a). split; [cbn [append]; now rewrite <- E|]. apply space_white in S. intros x [<-|I]; [exact S|exact (W x I)].
  - exists "". split; [reflexivity|intros x []].
Qed.

Definition signed (s : string) : option Z :=
  match s with
  | String c t => if Ascii.eqb c "-" then option_map Z.opp (int_digits 0 false t)
                  else if Ascii.eqb c "+" then int_digits 0 false t else int_digits 0 false s
  | EmptyString => int_digits 0 false s
  end.
Lemma int_of_signed s : int_of s = signed (lstrip s).
Proof. unfold int_of, signed. destruct (lstrip s) as [|[[] [] [] [] [] [] [] []] t]; reflexivity. Qed.

Lemma int_of_integer s z : int_of s = Some z <-> integer s z.
Proof.
  rewrite int_of_signed. split.
  - destruct (lstrip_split s) as (a & E & W). intros X. rewrite E. clear E. destruct (lstrip s) as [|c t] eqn:L; [discriminate X|]. unfold signed in X.
    destruct (Ascii.eqb_spec c "-") as [->|N1]; [|destruct (Ascii.eqb_spec c "+") as [->|N2]].
    + destruct (int_digits 0 false t) as [k|] eqn:D; [|discriminate X]. injection X as <-.
      destruct (proj2 (proj2 (read_on t 0 k) D) eq_refl) as (n & b & -> & B & N). exact (in_minus a n b k W N B).
    + destruct (proj2 (proj2 (read_on t 0 z) X) eq_refl) as (n & b & -> & B & N). exact (in_plus a n b z W N B).
    + destruct (proj2 (proj2 (read_on (String c t) 0 z) X) eq_refl) as (n & b & -> & B & N). exact (in_plain a n b z W N B).
  - intros [a n b k W N B|a n b k W N B|a n b k W N B]; rewrite lstrip_white by exact W.
    + destruct (numeral_first n k b N) as (c & t & E & S & N1 & N2). rewrite E. cbn [lstrip]. rewrite S. unfold signed.
      destruct (Ascii.eqb_spec c "-"); [contradiction|]. destruct (Ascii.eqb_spec c "+"); [contradiction|].
      rewrite <- E, (read_numeral _ _ N). now apply read_blank.
    + cbn [append lstrip]. change (is_space "+") with false. cbv iota. unfold signed. cbn [Ascii.eqb Bool.eqb].
      rewrite (read_numeral _ _ N). now apply read_blank.
    + cbn [append lstrip]. change (is_space "-") with false. cbv iota. unfold signed. cbn [Ascii.eqb Bool.eqb].
      rewrite (read_numeral _ _ N), read_blank by exact B. reflexivity.
Qed.
