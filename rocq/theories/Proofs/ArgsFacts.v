(** The arguments of [main] are what Spec/ArgsSpec.v says. *)
From Coq Require Import String List QArith ZArith Bool.
From Verif.Base Require Import Py XNum.
From Verif.Model Require Import Mech Simulation Sampling Inputs Main.
From Verif.Spec Require Import InputSpec ArgsSpec.
From Verif.Proofs Require Import InputFacts InputMore.
Import ListNotations.
Local Open Scope string_scope.

Lemma real_iff v x : ynum v = Some x <-> real v x.
Proof.
  split.
  - destruct v as [|[]|z|y|s|l|d]; cbn; intros E; try discriminate; injection E as <-; constructor.
  - intros []; reflexivity.
Qed.
Lemma finite_iff v q : yfin v = Some q <-> finite v q.
Proof.
  unfold yfin, finite. rewrite <- real_iff. destruct (ynum v) as [[y| | |]|]; split; intros E; try discriminate; congruence.
Qed.
Lemma counted_iff v z : yint v = Some z <-> counted v z.
Proof. split; [destruct v as [|[]|y|y|s|l|d]; cbn; intros E; try discriminate; injection E as <-; constructor|intros []; reflexivity]. Qed.
Lemma text_iff v s : ystring v = Some s <-> text v s.
Proof. split; [destruct v as [|[]|y|y|t|l|d]; cbn; intros E; try discriminate; injection E as <-; constructor|intros []; reflexivity]. Qed.
Lemma maybe_iff v x : ymaybe v = Some x <-> maybe v x.
Proof.
  unfold maybe. split.
  - intros E. assert (v = YNull \/ v <> YNull) as [->|N] by (destruct v; auto; right; discriminate).
    + left. cbn in E. split; congruence.
    + right. assert (match yfin v with Some q => Some (Some q) | None => None end = Some x) as F by (destruct v; [contradiction|exact E..]).
      destruct (yfin v) as [q|] eqn:Y; try discriminate. exists q. split; [congruence|now apply finite_iff].
  - intros [(-> & ->)|(q & -> & F)]; [reflexivity|]. apply finite_iff in F. destruct v; try discriminate F; cbn [ymaybe]; now rewrite F.
Qed.
Lemma all_iff {A B} (f : A -> option B) (R : A -> B -> Prop) : (forall x y, f x = Some y <-> R x y) ->
  forall l l', all_some f l = Some l' <-> Forall2 R l l'.
Proof.
  intros H. induction l as [|x l IH]; intros l'; cbn [all_some].
  - split; [intros E; injection E as <-; constructor|]. intros F. now inversion F.
  - split.
    + destruct (f x) as [y|] eqn:E; try discriminate. destruct (all_some f l) as [ys|]; try discriminate.
      intros F. injection F as <-. constructor; [now apply H|now apply IH].
    + intros F. inversion F as [|? y ? ys R1 R2]; subst. apply H in R1. apply IH in R2. now rewrite R1, R2.
Qed.
Lemma names_iff v l : ynames v = Some l <-> names v l.
Proof.
  assert (forall x s, ystr x = Some s <-> x = YStr s) as H.
  { intros x s. split; [destruct x; cbn; intros E; congruence|intros ->; reflexivity]. }
  unfold names. split.
  - destruct v as [|b|y|y|t|vs|d]; cbn [ynames]; intros E; try discriminate. exists vs. split; [reflexivity|]. exact (proj1 (all_iff _ _ H _ _) E).
  - intros (vs & -> & F). exact (proj2 (all_iff _ _ H _ _) F).
Qed.
Lemma blank_iff {A} (R : yval -> A -> Prop) (f : yval -> option A) a v x : (forall y, f v = Some y <-> R v y) ->
  (if ytrue v then f v else Some a) = Some x <-> or_blank R a v x.
Proof.
  intros H. unfold or_blank. destruct (ytrue v) eqn:T.
  - apply truth_not_blank in T. rewrite H. tauto.
  - apply truth_blank in T. split; [intros E; left; split; congruence|intros [(_ & ->)|(N & _)]; [reflexivity|contradiction]].
Qed.
Lemma amounts_are d l : amounts d = Some l <-> Forall2 (fun kv sq => fst kv = YStr (fst sq) /\ finite (snd kv) (snd sq)) d l.
Proof.
  revert l. induction d as [|(k & v) d IH]; intros l; cbn [amounts].
  - split; [intros E; injection E as <-; constructor|]. intros F. now inversion F.
  - split.
    + destruct k as [|b|y|y|s|vs|d0]; try discriminate. destruct (yfin v) as [q|] eqn:Y; try discriminate. destruct (amounts d) as [r|]; try discriminate.
      intros E. injection E as <-. constructor; [|now apply IH]. split; [reflexivity|]. now apply finite_iff.
    + intros F. inversion F as [|? (s & q) ? r (E1 & E2) R2]; subst. cbn in E1, E2. subst k. apply finite_iff in E2. apply IH in R2. now rewrite E2, R2.
Qed.
Lemma amounts_iff v l : yamounts v = Some l <-> or_blank quantities [] v l.
Proof.
  unfold yamounts. apply (blank_iff quantities (fun v => match v with YDict d => amounts d | _ => None end)). intros y. unfold quantities. split.
  - destruct v as [|b|z|z|s|vs|d]; intros E; try discriminate. exists d. split; [reflexivity|]. now apply amounts_are.
  - intros (d & -> & F). now apply amounts_are.
Qed.
Lemma mixes_iff x m : typed_mix x = Some m <-> mixes x m.
Proof.
  unfold typed_mix. split.
  - destruct (if ytrue (rm_ratio x) then yfin (rm_ratio x) else Some 0%Q) as [phi|] eqn:E1; try discriminate.
    destruct (yamounts (rm_fuel x)) as [f|] eqn:E2; try discriminate. destruct (yamounts (rm_oxidizer x)) as [o|] eqn:E3; try discriminate.
    destruct (yamounts (rm_reactants x)) as [r|] eqn:E4; try discriminate. destruct (rm_type x) as [|b|z|z|s|vs|d] eqn:E5; try discriminate.
    intros E. injection E as <-. constructor; cbn; try (now apply amounts_iff); [|exact E5].
    apply (blank_iff finite yfin); [intros y; apply finite_iff|exact E1].
  - destruct m as [phi f o r t]. intros [H1 H2 H3 H4 H5]. cbn in *. apply (proj2 (blank_iff finite yfin _ _ _ (fun y => finite_iff _ y))) in H1.
    apply amounts_iff in H2, H3, H4. now rewrite H1, H2, H3, H4, H5.
Qed.
Lemma ign_iff x c : typed_ign x = Some c <-> ignites x c.
Proof.
  unfold typed_ign. split.
  - destruct (ri_kind x) as [|b|z|z|s|vs|d] eqn:E0; try discriminate.
    destruct (yfin (ri_T x)) as [T|] eqn:E1; try discriminate. destruct (yfin (ri_P x)) as [P|] eqn:E2; try discriminate.
    destruct (if ytrue (ri_end x) then yfin (ri_end x) else Some 0%Q) as [e|] eqn:E3; try discriminate.
    destruct (if ytrue (ri_steps x) then yint (ri_steps x) else Some 0%Z) as [n|] eqn:E4; try discriminate.
    destruct (typed_mix (ri_mix x)) as [m|] eqn:E5; try discriminate. intros E. injection E as <-.
    constructor; cbn; try (now apply finite_iff); [exact E0| | |now apply mixes_iff].
    + apply (blank_iff finite yfin); [intros y; apply finite_iff|exact E3].
    + apply (blank_iff counted yint); [intros y; apply counted_iff|exact E4].
  - destruct c as [k T P e n m]. intros [H0 H1 H2 H3 H4 H5]. cbn in *. apply finite_iff in H1, H2. apply mixes_iff in H5.
    apply (proj2 (blank_iff finite yfin _ _ _ (fun y => finite_iff _ y))) in H3. apply (proj2 (blank_iff counted yint _ _ _ (fun y => counted_iff _ y))) in H4.
    now rewrite H0, H1, H2, H3, H4, H5.
Qed.
Lemma psr_iff x c : typed_psr x = Some c <-> stirs x c.
Proof.
  unfold typed_psr. split.
  - destruct (yfin (rp_T x)) as [T|] eqn:E1; try discriminate. destruct (yfin (rp_P x)) as [P|] eqn:E2; try discriminate.
    destruct (typed_mix (rp_mix x)) as [m|] eqn:E5; try discriminate. intros E. injection E as <-.
    constructor; cbn; try (now apply finite_iff). now apply mixes_iff.
  - destruct c as [T P m]. intros [H1 H2 H5]. cbn in *. apply finite_iff in H1, H2. apply mixes_iff in H5. now rewrite H1, H2, H5.
Qed.
Lemma flame_iff x c : typed_flame x = Some c <-> burns x c.
Proof.
  unfold typed_flame. split.
  - destruct (yfin (rf_T x)) as [T|] eqn:E1; try discriminate. destruct (yfin (rf_P x)) as [P|] eqn:E2; try discriminate.
    destruct (yfin (rf_width x)) as [w|] eqn:E3; try discriminate.
    destruct (typed_mix (rf_mix x)) as [m|] eqn:E5; try discriminate. intros E. injection E as <-.
    constructor; cbn; try (now apply finite_iff). now apply mixes_iff.
  - destruct c as [T P w m]. intros [H1 H2 H3 H5]. cbn in *. apply finite_iff in H1, H2, H3. apply mixes_iff in H5. now rewrite H1, H2, H3, H5.
Qed.

Lemma truth_sa b v : b = ytrue v <-> (b = true <-> ~ blank v).
Proof.
  rewrite <- truth_not_blank. destruct b, (ytrue v); intuition congruence.
Qed.

Lemma takes_iff I C : typed_cases I = Some C <-> takes I C.
Proof.
  unfold typed_cases. split.
  - destruct (all_some typed_ign (in_ign I)) as [ci|] eqn:C1; try discriminate. destruct (all_some typed_psr (in_psr I)) as [cp|] eqn:C2; try discriminate.
    destruct (all_some typed_flame (in_flame I)) as [cf|] eqn:C3; try discriminate. intros E. injection E as <-. constructor; cbn.
    + exact (proj1 (all_iff _ _ ign_iff _ _) C1).
    + exact (proj1 (all_iff _ _ psr_iff _ _) C2).
    + exact (proj1 (all_iff _ _ flame_iff _ _) C3).
  - destruct C as [ci cp cf]. intros [H1 H2 H3]. cbn in *.
    apply (proj2 (all_iff _ _ ign_iff _ _)) in H1. apply (proj2 (all_iff _ _ psr_iff _ _)) in H2. apply (proj2 (all_iff _ _ flame_iff _ _)) in H3.
    now rewrite H1, H2, H3.
Qed.

Lemma job_iff I J : job_of I J <-> job_from I J.
Proof.
  unfold job_of. rewrite !names_iff. split; [intros (H1 & H2 & H3 & H4); now constructor|intros []; auto].
Qed.

Lemma hands_iff I p a C floor :
  (main_args I p = Some a /\ typed_cases I = Some C /\ ymaybe (in_floor I) = Some floor) <-> hands I p a C floor.
Proof.
  split.
  - intros (MA & TC & FL). unfold main_args in MA.
    destruct (ynum (in_error I)) as [e|] eqn:E1; try discriminate. destruct (ystring (in_method I)) as [m|] eqn:E2; try discriminate.
    destruct (ynames (in_targets I)) as [t|] eqn:E3; try discriminate. destruct (ynames (in_safe I)) as [s|] eqn:E4; try discriminate.
    destruct (ymaybe (in_upper I)) as [u|] eqn:E5; try discriminate. destruct (ystring (in_type I)) as [k|] eqn:E6; try discriminate.
    injection MA as <-.
    constructor; cbn; try reflexivity; try (now apply text_iff); try (now apply names_iff); try (now apply maybe_iff); try (now apply takes_iff).
    + now apply real_iff.
    + apply truth_not_blank.
  - destruct a as [f l m t s ph sa u k pa]. intros [H1 H2 H3 H4 H5 H6 H7 H8 H9 H10 H11 H14]. cbn in *.
    apply real_iff in H2. apply text_iff in H3, H9. apply names_iff in H4, H5. apply maybe_iff in H8, H14. apply truth_sa in H7. apply takes_iff in H11. subst.
    unfold main_args. rewrite H2, H3, H4, H5, H8, H9. auto.
Qed.
