(** Facts about the objects for flame cases. *)
From Coq Require Import String List QArith Bool Arith Lia.
From Verif.Base Require Import Py Num XNum.
From Verif.Model Require Import Mech World Metrics Drivers Simulation FlameCase.
From Verif.Spec Require Import SimSpec FlameCaseSpec.
From Verif.Proofs Require Import SimFacts.
Import ListNotations.

Definition same_flame (o o' : flame_obj) : Prop :=
  fo_case o' = fo_case o /\ fo_floor o' = fo_floor o /\ fo_flame o' = fo_flame o /\ fo_solved o' = S (fo_solved o).

Section Any.
Context {CA : calc}.

Lemma flame_do_says k o : let (r, o') := flame_do k o in
  same_flame o o' /\ flame_says (fo_floor o) k (fo_flame o (fo_solved o)) r /\
  speed_after (fo_floor o) (fo_speed o) k (fo_flame o (fo_solved o)) (fo_speed o').
Proof.
  destruct (fo_flame o (fo_solved o)) as [[v ps]|e|] eqn:E.
  - destruct (xle v (Fin (fo_floor o))) eqn:L.
    + destruct k as [| |s]; cbn [flame_do]; unfold flame_results, flame_run, flame_calc, obj_flame_detected, solve_flame; rewrite E; cbn [set_speed fo_floor]; rewrite L; cbn;
        (split; [repeat split|]); split; try (constructor; auto; discriminate).
    + assert (~ xle v (Fin (fo_floor o)) = true) as NL by congruence.
      destruct k as [| |s]; cbn [flame_do]; unfold flame_results, flame_run, flame_calc, obj_flame_detected, solve_flame; rewrite E; cbn [set_speed fo_floor]; rewrite L; cbn [bind fst].
      * split; [repeat split|]. split; constructor; auto; discriminate.
      * split; [repeat split|]. split; constructor; auto; discriminate.
      * destruct s; [split; [repeat split|]; split; constructor; auto; discriminate|].
        destruct ps as [|p0 t]; [split; [repeat split|]; split; constructor; auto|].
        destruct (sample_profile_ok p0 t) as (rows & RW). rewrite RW. apply sampled_profile in RW. split; [repeat split|]. split; constructor; auto.
  - destruct e; destruct k as [| |s]; cbn [flame_do]; unfold flame_results, flame_run, flame_calc, obj_flame_detected, solve_flame; rewrite E; cbn;
      (split; [repeat split|]); split; constructor; try discriminate.
  - destruct k as [| |s]; cbn [flame_do]; unfold flame_results, flame_run, flame_calc, obj_flame_detected, solve_flame; rewrite E; cbn;
      (split; [repeat split|]); split; constructor.
Qed.

Lemma flame_calls_says : forall ks o, let (rs, o') := flame_calls ks o in
  length rs = length ks /\ fo_solved o' = (fo_solved o + length ks)%nat /\
  forall i k, nth_error ks i = Some k ->
    exists r, nth_error rs i = Some r /\ flame_says (fo_floor o) k (fo_flame o (fo_solved o + i)%nat) r.
Proof.
  induction ks as [|k ks IH]; intros o; cbn [flame_calls].
  - split; [reflexivity|]. split; [cbn; lia|]. intros [|i]; discriminate.
  - pose proof (flame_do_says k o) as X. destruct (flame_do k o) as [r o1]. destruct X as ((_ & F & FL & SO) & A & _).
    specialize (IH o1). destruct (flame_calls ks o1) as [rs o2]. destruct IH as (L & SL & B).
    split; [cbn; lia|]. split; [cbn; lia|]. intros [|i] k' E; cbn [nth_error] in *.
    + injection E as <-. exists r. rewrite Nat.add_0_r. auto.
    + destruct (B i k' E) as (r' & R & H). exists r'. split; auto. rewrite F, FL, SO in H.
      replace (fo_solved o + S i)%nat with (S (fo_solved o) + i)%nat by lia. exact H.
Qed.

Lemma flame_new F floor c m o ks rs o' : flame_setup F floor c m = Ok o -> flame_calls ks o = (rs, o') ->
  length rs = length ks /\
  forall i k, nth_error ks i = Some k ->
    exists r, nth_error rs i = Some r /\
      flame_says (match floor with Some q => q | None => 1 # 20 end) k (F c m i) r.
Proof.
  intros S H. unfold flame_setup in S. destruct (setup_gas _ _); try discriminate. cbn [bind] in S. injection S as <-.
  pose proof (flame_calls_says ks (mkFlameObj c (flame_floor floor) (F c m) 0 (Fin 0) None)) as X. rewrite H in X.
  destruct X as (L & _ & B). split; [exact L|]. intros i k E. destruct (B i k E) as (r & R & SA). exists r. split; auto.
Qed.

Lemma flame_speed_kept F floor c m o ks k rs o1 r o2 : flame_setup F floor c m = Ok o ->
  flame_calls ks o = (rs, o1) -> flame_do k o1 = (r, o2) ->
  speed_after (match floor with Some q => q | None => 1 # 20 end) (fo_speed o1) k (F c m (length ks)) (fo_speed o2).
Proof.
  intros S H D. unfold flame_setup in S. destruct (setup_gas _ _); try discriminate. cbn [bind] in S. injection S as <-.
  set (o := mkFlameObj c (flame_floor floor) (F c m) 0 (Fin 0) None) in *.
  assert (forall ks o rs o1, flame_calls ks o = (rs, o1) -> fo_floor o1 = fo_floor o /\ fo_flame o1 = fo_flame o /\
            fo_solved o1 = (fo_solved o + length ks)%nat) as G.
  { clear. induction ks as [|k ks IH]; intros o rs o1 H; cbn [flame_calls] in H.
    - injection H as _ <-. cbn. repeat split; auto; lia.
    - pose proof (flame_do_says k o) as X. destruct (flame_do k o) as [r o2]. destruct X as ((_ & F & FL & SO) & _).
      destruct (flame_calls ks o2) as [rs' o3] eqn:E. injection H as _ <-. destruct (IH _ _ _ E) as (A & B & C).
      rewrite A, B, C, F, FL, SO. cbn. repeat split; auto; lia. }
  destruct (G _ _ _ _ H) as (A & B & C). pose proof (flame_do_says k o1) as X. rewrite D in X. destruct X as (_ & _ & X).
  rewrite A, B, C in X. exact X.
Qed.

End Any.

Lemma as_flame_condition F Ph floor c m :
  flame_cond (with_flames F Ph) floor c m = bind (flame_setup F floor c m) (fun o => bind (fst (flame_calc o)) (fun v => Ok [v])).
Proof.
  unfold flame_cond, flame_setup, flame_calculate, flame_detected. destruct (setup_gas _ m); try reflexivity. cbn [bind].
  unfold flame_calc, obj_flame_detected, solve_flame. cbn [fo_flame fo_solved ph_flame with_flames].
  destruct (F c m 0%nat) as [[v ps]|e|]; [|destruct e; reflexivity|reflexivity].
  cbn [set_speed fo_floor]. destruct (xle v _); reflexivity.
Qed.
Lemma as_flame_sample F Ph floor c m o : flame_setup F floor c m = Ok o ->
  fst (flame_results (A := ph_calc Ph) false o) =
  bind (flame_process (A := ph_calc Ph) (flame_floor floor) (ph_flame (with_flames F Ph) c m)) (fun x => Ok (fst x, Some (snd x))).
Proof.
  intros S. unfold flame_setup in S. destruct (setup_gas _ _); try discriminate. cbn [bind] in S. injection S as <-.
  unfold flame_process, flame_detected, flame_results, flame_run, obj_flame_detected, solve_flame.
  cbn [fo_flame fo_solved ph_flame with_flames]. destruct (F c m 0%nat) as [[v ps]|e|]; [|destruct e; reflexivity|reflexivity].
  cbn [set_speed fo_floor]. destruct (xle v _); [reflexivity|]. cbn [bind].
  destruct (sample_profile ps); reflexivity.
Qed.
