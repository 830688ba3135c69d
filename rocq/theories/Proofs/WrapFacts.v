(** Line wrapping keeps the words and the width. *)
From Coq Require Import String Ascii List Bool Arith ZArith QArith Lia.
From Verif.Base Require Import Py Num XNum Text.
From Verif.Model Require Import Chemkin.
From Verif.Spec Require Import TextSpec ChemkinSpec.
From Verif.Proofs Require Import FormatFacts TextFacts.
Import ListNotations.
Local Open Scope string_scope.

(** All characters blank, or none. *)
Fixpoint uniform (b : bool) (s : string) : Prop :=
  match s with EmptyString => True | String c t => blank c = b /\ uniform b t end.
Definition head_blank (s : string) : bool := match s with EmptyString => false | String c _ => blank c end.
Definition chunk (s : string) : Prop := s <> "" /\ uniform (head_blank s) s.
Fixpoint alternating (l : list string) : Prop :=
  match l with
  | nil => True
  | x :: t => chunk x /\ match t with nil => True | y :: _ => head_blank x = negb (head_blank y) end /\ alternating t
  end.

Lemma chunks_spec s : alternating (chunks s) /\ String.concat "" (chunks s) = s /\
  match chunks s with nil => s = "" | x :: _ => head_blank x = head_blank s end.
Proof.
  induction s as [|c s [IH1 [IH2 IH3]]]; [cbn; auto|].
  cbn [chunks]. destruct (chunks s) as [|[|d w] r] eqn:E.
  - subst s. cbn. repeat split; discriminate.
  - exfalso. cbn in IH1. destruct IH1 as [[H _] _]. contradiction.
  - destruct (Bool.eqb (blank c) (blank d)) eqn:B.
    + apply eqb_prop in B. split; [|split].
      * cbn [alternating] in IH1 |- *. destruct IH1 as [[H1 H2] [H3 H4]]. repeat split.
        -- discriminate.
        -- cbn [head_blank]. symmetry. exact B.
        -- cbn [head_blank] in *. cbn [uniform] in H2. rewrite B. apply H2.
        -- destruct r; [exact I|]. cbn [head_blank] in *. rewrite B. exact H3.
        -- exact H4.
      * destruct r as [|y r]; cbn [String.concat] in *; rewrite <- IH2; reflexivity.
      * reflexivity.
    + split; [|split].
      * cbn [alternating] in *. repeat split; try apply IH1; try discriminate.
        cbn [head_blank]. destruct (blank c), (blank d); try discriminate B; reflexivity.
      * rewrite <- IH2. reflexivity.
      * reflexivity.
Qed.

Lemma alternating_app l m : alternating (l ++ m)%list -> alternating l /\ alternating m.
Proof.
  induction l as [|x l IH]; [cbn; auto|]. cbn [app alternating]. intros [H1 [H2 H3]].
  destruct (IH H3) as [A B]. split; [|exact B]. split; [exact H1|]. split; [|exact A]. destruct l as [|y l]; [exact I|exact H2].
Qed.

(** Newlines count as blanks for words but not for the wrapper. *)
Definition no_newline := free is_newline.
Lemma uniform_true s : uniform true s -> s = spaces (String.length s).
Proof.
  induction s as [|c s IH]; [reflexivity|]. cbn [uniform String.length spaces]. intros [H1 H2].
  rewrite <- (IH H2). unfold blank in H1. apply Ascii.eqb_eq in H1. rewrite H1. reflexivity.
Qed.
Lemma uniform_false s : uniform false s -> free is_newline s -> free is_blank s.
Proof.
  induction s as [|c s IH]; [auto|]. cbn [uniform free]. intros [H1 H2] [H3 H4]. split; [|auto].
  unfold is_blank. unfold blank in H1. rewrite H1, H3. reflexivity.
Qed.
Lemma chunk_words x : chunk x -> free is_newline x ->
  (head_blank x = true /\ words x = [] /\ all_blank x = true) \/
  (head_blank x = false /\ words x = [x] /\ all_blank x = false /\ free is_blank x).
Proof.
  intros [H1 H2] F. destruct (head_blank x) eqn:E.
  - left. split; [reflexivity|]. rewrite (uniform_true _ H2). split.
    + rewrite <- (append_nil (spaces _)), words_spaces_l. reflexivity.
    + generalize (String.length x). intros n. induction n; [reflexivity|exact IHn].
  - right. assert (G := uniform_false _ H2 F). split; [reflexivity|]. split; [|split; [|exact G]].
    + unfold words. rewrite split_free by exact G. cbn [filter].
      destruct (String.eqb_spec x ""); [contradiction|reflexivity].
    + destruct x as [|c x]; [contradiction|]. cbn [uniform] in H2. cbn [all_blank]. destruct H2 as [-> _]. reflexivity.
Qed.

Lemma words_alternating l : alternating l -> Forall (free is_newline) l ->
  words (String.concat "" l) = concat (map words l).
Proof.
  induction l as [|x l IH]; [reflexivity|]. cbn [alternating]. intros [C [H A]] F. inversion F as [|? ? Fx Fl]; subst.
  specialize (IH A Fl). destruct l as [|y l].
  - cbn [String.concat map concat]. rewrite app_nil_r. reflexivity.
  - change (String.concat "" (x :: y :: l)) with (x ++ String.concat "" (y :: l)).
    cbn [map concat]. change (concat (map words (y :: l))) with (concat (map words (y :: l))) in IH.
    cbn [map concat] in IH. rewrite <- IH.
    destruct (chunk_words x C Fx) as [[Hb [Hw _]]|[Hb [Hw _]]]; rewrite Hw.
    + destruct C as [_ U]. rewrite Hb in U. rewrite (uniform_true _ U). rewrite words_spaces_l. reflexivity.
    + cbn [alternating] in A. destruct A as [[Ny Uy] _].
      assert (Hy : head_blank y = true) by (destruct (head_blank y); [reflexivity|cbn in H; congruence]).
      destruct y as [|c y]; [contradiction|]. cbn [head_blank] in Hy.
      assert (Cb : is_blank c = true) by (unfold is_blank; unfold blank in Hy; rewrite Hy; reflexivity).
      assert (E : exists z, String.concat "" (String c y :: l) = String c z).
      { destruct l; [exists y; reflexivity|eexists; reflexivity]. }
      destruct E as [z E]. rewrite E. rewrite words_sep by exact Cb. rewrite Hw, (words_lead c z Cb). reflexivity.
Qed.

(** ** One line *)
Definition total (l : list string) : nat := list_sum (map String.length l).
Lemma take_line_spec width len cs a b : take_line width len cs = (a, b) ->
  cs = (a ++ b)%list /\ (a = nil \/ len + total a <= width)%nat /\
  match b with nil => True | c :: _ => (width < len + total a + String.length c)%nat end.
Proof.
  revert len a b. induction cs as [|c cs IH]; intros len a b; cbn [take_line].
  - intros E. injection E as <- <-. auto.
  - destruct (Nat.leb_spec (len + String.length c) width) as [L|L].
    + destruct (take_line width (len + String.length c) cs) as [a' b'] eqn:E. intros X. injection X as <- <-.
      destruct (IH _ _ _ E) as [-> [H2 H3]]. split; [reflexivity|]. unfold total in *. cbn [map list_sum fold_right].
      change (fold_right Nat.add 0%nat (map String.length a')) with (list_sum (map String.length a')).
      split.
      * right. destruct H2 as [->|H2]; [cbn; lia|lia].
      * destruct b'; [exact I|lia].
    + intros E. injection E as <- <-. split; [reflexivity|]. split; [auto|]. cbn. lia.
Qed.

Lemma drop_last_spec l : exists t, l = (drop_last_blank l ++ t)%list /\
  (t = nil \/ exists c, t = [c] /\ all_blank c = true).
Proof.
  induction l as [|c l IH]; [exists nil; auto|]. destruct l as [|d l].
  - cbn [drop_last_blank]. destruct (all_blank c) eqn:E; [exists [c]|exists nil]; split; eauto.
  - destruct IH as [t [H1 H2]]. exists t. split; [|exact H2].
    change (drop_last_blank (c :: d :: l)) with (c :: drop_last_blank (d :: l)). rewrite H1 at 1. reflexivity.
Qed.

Lemma total_app a b : total (a ++ b)%list = (total a + total b)%nat.
Proof. unfold total. rewrite map_app. apply list_sum_app. Qed.
Lemma length_app a b : String.length (a ++ b) = (String.length a + String.length b)%nat.
Proof. induction a as [|c a IH]; [reflexivity|]. cbn [String.append String.length]. rewrite IH. reflexivity. Qed.
Lemma length_concat l : String.length (String.concat "" l) = total l.
Proof.
  induction l as [|x l IH]; [reflexivity|]. destruct l as [|y l].
  - cbn [String.concat]. unfold total. cbn. lia.
  - change (String.concat "" (x :: y :: l)) with (x ++ String.concat "" (y :: l)). rewrite length_app, IH. reflexivity.
Qed.

Lemma wrap_spec width fuel first cs :
  (length cs < fuel)%nat -> alternating cs -> Forall (free is_newline) cs ->
  concat (map words (wrap_chunks fuel width first cs)) = concat (map words cs) /\
  Forall (fun l => fits width l /\ free is_newline l) (wrap_chunks fuel width first cs).
Proof.
  revert first cs. induction fuel as [|fuel IH]; intros first cs L A F; [lia|].
  cbn [wrap_chunks]. destruct cs as [|c t]; [split; [reflexivity|constructor]|].
  set (cs1 := if (all_blank c && negb first)%bool then t else c :: t).
  assert (K : exists pre, c :: t = (pre ++ cs1)%list /\ concat (map words pre) = [] /\ (length cs1 <= length (c :: t))%nat
              /\ (cs1 = [] -> t = [])).
  { unfold cs1. destruct (all_blank c && negb first)%bool eqn:B.
    - exists [c]. split; [reflexivity|]. split; [|split; [cbn; lia|auto]]. apply andb_prop in B. destruct B as [B _].
      cbn [alternating] in A. destruct A as [Cc _]. inversion F as [|? ? Fc Ft]; subst.
      cbn [map concat]. destruct (chunk_words c Cc Fc) as [[_ [-> _]]|[_ [_ [X _]]]]; [reflexivity|congruence].
    - exists nil. repeat split; auto. discriminate. }
  destruct K as [pre [K1 [K2 [K3 K4]]]].
  assert (A1 : alternating cs1) by (rewrite K1 in A; apply alternating_app in A; apply A).
  assert (F1 : Forall (free is_newline) cs1) by (rewrite K1 in F; apply Forall_app in F; apply F).
  rewrite K1, map_app, concat_app, K2. cbn [app]. rewrite K1 in L. rewrite app_length in L.
  assert (LP : cs1 = [] \/ (length cs1 <= fuel)%nat) by (destruct cs1; [left; reflexivity|right; cbn in *; lia]).
  assert (NP : (length cs1 <= fuel)%nat) by lia.
  clear K1 K2 A F L.
  destruct (take_line width 0 cs1) as [line rest] eqn:TL.
  destruct (take_line_spec _ _ _ _ _ TL) as [E1 [E2 E3]].
  (* the line and rest after the treatment of long words *)
  assert (X : exists line' rest',
     match rest with
     | c0 :: r => if (width <? String.length c0)%nat then match line with nil => ([c0], r) | _ :: _ => (line, rest) end else (line, rest)
     | [] => (line, rest) end = (line', rest') /\
     cs1 = (line' ++ rest')%list /\ (total line' <= width \/ exists c0, line' = [c0])%nat /\ (cs1 <> [] -> line' <> [])).
  { destruct rest as [|c0 r].
    - exists line, nil. split; [reflexivity|]. split; [exact E1|]. split.
      + destruct E2 as [->|E2]; [left; cbn; lia|left; lia].
      + intros N Q. rewrite Q in E1. cbn in E1. contradiction.
    - destruct (Nat.ltb_spec width (String.length c0)) as [W|W].
      + destruct line as [|d line].
        * exists [c0], r. split; [reflexivity|]. split; [exact E1|]. split; [eauto|discriminate].
        * exists (d :: line), (c0 :: r). split; [reflexivity|]. split; [exact E1|]. split; [|discriminate].
          destruct E2 as [E2|E2]; [discriminate|left; lia].
      + exists line, (c0 :: r). split; [reflexivity|]. split; [exact E1|]. split.
        * destruct E2 as [->|E2]; [left; cbn; lia|left; lia].
        * intros _ Q. rewrite Q in E3. cbn in E3. lia. }
  destruct X as [line' [rest' [-> [Y1 [Y2 Y3]]]]].
  assert (AL : alternating line' /\ alternating rest') by (apply alternating_app; rewrite <- Y1; exact A1).
  assert (FL : Forall (free is_newline) line' /\ Forall (free is_newline) rest') by (apply Forall_app; rewrite <- Y1; exact F1).
  destruct (drop_last_spec line') as [tl [D1 D2]].
  remember (drop_last_blank line') as kept eqn:KD.
  assert (AK : alternating kept /\ alternating tl) by (apply alternating_app; rewrite <- D1; apply AL).
  assert (FK : Forall (free is_newline) kept /\ Forall (free is_newline) tl) by (apply Forall_app; rewrite <- D1; apply FL).
  assert (TW : concat (map words tl) = []).
  { destruct D2 as [->|[b [-> B]]]; [reflexivity|]. destruct AK as [_ [Cb _]]. destruct FK as [_ Fb]. apply Forall_inv in Fb.
    destruct (chunk_words b Cb Fb) as [[_ [W _]]|[_ [_ [W _]]]]; [|congruence]. cbn. rewrite W. reflexivity. }
  assert (R : (length rest' < fuel)%nat \/ cs1 = []).
  { destruct cs1 as [|x cs1]; [auto|left]. assert (N := Y3 ltac:(discriminate)).
    rewrite Y1, app_length in NP. destruct line'; [contradiction|cbn in NP; lia]. }
  assert (G : forall b, concat (map words (wrap_chunks fuel width b rest')) = concat (map words rest') /\
                Forall (fun l => fits width l /\ free is_newline l) (wrap_chunks fuel width b rest')).
  { intros b. destruct R as [R|R].
    - apply IH; [exact R|apply AL|apply FL].
    - rewrite R in Y1. destruct line'; [|discriminate]. cbn in Y1. subst rest'. destruct fuel; (split; [reflexivity|constructor]). }
  rewrite Y1, map_app, concat_app. rewrite D1 at 1. rewrite map_app, concat_app, TW, app_nil_r.
  destruct kept as [|k0 kept'].
  - cbn [map concat app]. apply G.
  - destruct (G false) as [G1 G2].
    cbn [map concat]. split.
    + rewrite G1. change (concat (map words (k0 :: kept'))) with (words k0 ++ concat (map words kept'))%list.
      f_equal. rewrite words_alternating; [reflexivity|apply AK|apply FK].
    + constructor; [|exact G2]. split.
      * unfold fits. destruct Y2 as [Y2|[c0 Y2]].
        -- left. rewrite length_concat. rewrite D1, total_app in Y2. lia.
        -- right. rewrite Y2 in D1. destruct kept'; [|cbn in D1; discriminate].
           cbn [String.concat]. cbn in D1. injection D1 as E D1. subst c0.
           destruct AL as [AL _]. rewrite Y2 in AL. cbn in AL. destruct AL as [Cc _].
           destruct FL as [FL _]. rewrite Y2 in FL. apply Forall_inv in FL.
           destruct (chunk_words k0 Cc FL) as [[_ [_ W]]|[_ [W _]]]; [|exact W].
           exfalso. rewrite Y2 in KD. cbn [drop_last_blank] in KD. rewrite W in KD. discriminate.
      * apply free_concat; [exact I|apply FK].
Qed.

Lemma free_concat_inv p l : free p (String.concat "" l) -> Forall (free p) l.
Proof.
  induction l as [|x l IH]; [constructor|]. destruct l as [|y l].
  - cbn [String.concat]. intros H. repeat constructor. exact H.
  - change (String.concat "" (x :: y :: l)) with (x ++ String.concat "" (y :: l)). rewrite free_app.
    intros [A B]. constructor; auto.
Qed.

Definition wrapped (width : nat) (s : string) : list string :=
  let cs := chunks s in wrap_chunks (S (length cs)) width true cs.
Lemma wrapped_spec width s : free is_newline s ->
  concat (map words (wrapped width s)) = words s /\
  Forall (fun l => fits width l /\ free is_newline l) (wrapped width s).
Proof.
  intros F. unfold wrapped. destruct (chunks_spec s) as [A [C _]].
  assert (FC : Forall (free is_newline) (chunks s)) by (apply free_concat_inv; rewrite C; exact F).
  destruct (wrap_spec width (S (length (chunks s))) true (chunks s)) as [W1 W2]; auto.
  split; [|exact W2]. rewrite W1. rewrite <- (words_alternating _ A FC), C. reflexivity.
Qed.
Lemma fill_lines width s : free is_newline s ->
  exists l, lines (fill width s) = l /\ fill width s ++ newline = unlines l "" /\ concat (map words l) = words s /\
    Forall (fun l => fits width l /\ free is_newline l) l.
Proof.
  intros F. destruct (wrapped_spec width s F) as [W1 W2]. unfold fill. fold (wrapped width s).
  destruct (wrapped width s) as [|x l] eqn:E.
  - exists [""]. split; [reflexivity|]. split; [reflexivity|]. split; [exact W1|].
    constructor; [|constructor]. split; [left; cbn; lia|exact I].
  - exists (x :: l). split; [|split; [apply unlines_join; discriminate|split; assumption]].
    assert (FN : Forall (free is_newline) (x :: l)).
    { eapply Forall_impl; [|exact W2]. intros a [_ H]. exact H. }
    clear - FN. revert x FN. induction l as [|y l IH]; intros x FN; inversion FN; subst.
    + cbn [String.concat]. unfold lines. apply split_free. assumption.
    + change (String.concat newline (x :: y :: l)) with (x ++ newline ++ String.concat newline (y :: l)).
      rewrite lines_cons by assumption. f_equal. apply IH. assumption.
Qed.
