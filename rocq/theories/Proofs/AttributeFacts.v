(** The attributes [sampled_data], [ignition_delay] of the objects. *)
From Coq Require Import String List QArith ZArith Bool Arith.
From Verif.Base Require Import Py Num XNum.
From Verif.Model Require Import Mech World Simulation FlameCase IgnCase.
From Verif.Spec Require Import Attributes.
Import ListNotations.

Definition newer {R} (a b : option R) : option R := match a with Some x => Some x | None => b end.

Section Any.
Context {CA : calc}.

Lemma flame_step_rows k o r o' : flame_do k o = (r, o') -> fo_data o' = newer (rows_in r) (fo_data o).
Proof.
  destruct k as [| |skip]; cbn [flame_do].
  - unfold flame_run, obj_flame_detected, solve_flame. destruct (fo_flame o (fo_solved o)) as [(v & ps)|e|]; cbn -[xle];
      [destruct (xle v (Fin (fo_floor o)))|destruct e|]; intros E; injection E as <- <-; reflexivity.
  - unfold flame_calc, obj_flame_detected, solve_flame. destruct (fo_flame o (fo_solved o)) as [(v & ps)|e|]; cbn -[xle];
      [destruct (xle v (Fin (fo_floor o)))|destruct e|]; intros E; injection E as <- <-; reflexivity.
  - unfold flame_results, flame_run, obj_flame_detected, solve_flame. destruct (fo_flame o (fo_solved o)) as [(v & ps)|e|]; cbn -[xle sample_profile];
      [destruct (xle v (Fin (fo_floor o)))|destruct e|]; cbn -[xle sample_profile];
      try (intros E; injection E as <- <-; reflexivity).
    destruct skip; [intros E; injection E as <- <-; reflexivity|].
    destruct (sample_profile ps); intros E; injection E as <- <-; reflexivity.
Qed.

Lemma flame_rows_from ks : forall o rs o', flame_calls ks o = (rs, o') -> fo_data o' = newer (last_rows rs) (fo_data o).
Proof.
  induction ks as [|k ks IH]; intros o rs o'; cbn [flame_calls].
  - intros E. injection E as <- <-. reflexivity.
  - destruct (flame_do k o) as (r & o1) eqn:D. destruct (flame_calls ks o1) as (rs1 & o2) eqn:C. intros E. injection E as <- <-.
    rewrite (IH _ _ _ C), (flame_step_rows _ _ _ _ D). cbn [last_rows]. destruct (last_rows rs1); reflexivity.
Qed.

Lemma flame_rows F floor c m o ks rs o' : flame_setup F floor c m = Ok o -> flame_calls ks o = (rs, o') -> fo_data o' = last_rows rs.
Proof.
  unfold flame_setup. destruct (setup_gas (fl_mix c) m); try discriminate. cbn [bind]. intros E C. injection E as <-.
  rewrite (flame_rows_from _ _ _ _ C). cbn. destruct (last_rows rs); reflexivity.
Qed.

(** Ignition: no step of the integration touches the samples. *)
Lemma step_rows o x o1 : take_step o = (x, o1) -> io_data o1 = io_data o.
Proof. unfold take_step. intros E. injection E as _ <-. reflexivity. Qed.

Lemma to_time_rows fuel stop : forall ps flag o r o', obj_to_time fuel stop ps flag o = (r, o') -> io_data o' = io_data o.
Proof.
  induction fuel as [|fuel IH]; intros ps flag o r o'; cbn [obj_to_time]; destruct (Qlt_bool _ _); try (intros E; injection E as <- <-; reflexivity).
  destruct (take_step o) as ([u|] & o1) eqn:T; [|intros E; injection E as <- <-; exact (step_rows _ _ _ T)].
  destruct (_ && _).
  - destruct stop; [intros E; injection E as <- <-; exact (step_rows _ _ _ T)|]. intros E. rewrite (IH _ _ _ _ _ E). exact (step_rows _ _ _ T).
  - intros E. rewrite (IH _ _ _ _ _ E). exact (step_rows _ _ _ T).
Qed.

Lemma to_steady_rows todo stop : forall mv ps flag o r o', obj_to_steady todo stop mv ps flag o = (r, o') -> io_data o' = io_data o.
Proof.
  induction todo as [|todo IH]; intros mv ps flag o r o'; cbn [obj_to_steady]; [intros E; injection E as <- <-; reflexivity|].
  destruct (take_step o) as ([u|] & o1) eqn:T; [|intros E; injection E as <- <-; exact (step_rows _ _ _ T)].
  set (ig := (_ && negb flag)%bool). set (o2 := if ig then _ else o1).
  assert (io_data o2 = io_data o) as D by (subst o2; destruct ig; exact (step_rows _ _ _ T)).
  destruct (_ && stop); [intros E; injection E as <- <-; exact D|].
  destruct (xlt _ _); [intros E; injection E as <- <-; exact D|]. intros E. rewrite (IH _ _ _ _ _ _ E). exact D.
Qed.

Lemma run_rows fuel stop restart o w r o' w' : ign_run fuel stop restart o w = (r, o', w') -> io_data o' = io_data o.
Proof.
  unfold ign_run. destruct (restart && _); [intros E; injection E as <- <- <-; reflexivity|].
  destruct (obj_integrate fuel stop o) as (x & o1) eqn:I.
  assert (io_data o1 = io_data o) as D.
  { unfold obj_integrate in I. destruct (Qnz _); [exact (to_time_rows _ _ _ _ _ _ _ I)|]. destruct (_ <? _)%Z; [injection I as <- <-; reflexivity|].
    destruct (obj_to_steady _ _ _ _ _ _) as (y & o2) eqn:S. apply to_steady_rows in S. destruct y as [((? & ?) & ?)|e|]; injection I as <- <-; exact S. }
  destruct x as [(ps & flag)|e|]; intros E; injection E as <- <- <-; exact D.
Qed.

Lemma calc_time_rows fuel : forall o r o', obj_calc_time fuel o = (r, o') -> io_data o' = io_data o.
Proof.
  induction fuel as [|fuel IH]; intros o r o'; cbn [obj_calc_time]; destruct (Qlt_bool _ _); try (intros E; injection E as <- <-; reflexivity).
  destruct (take_step o) as ([u|] & o1) eqn:T; [|intros E; injection E as <- <-; exact (step_rows _ _ _ T)].
  destruct (hot _ _); [intros E; injection E as <- <-; exact (step_rows _ _ _ T)|]. intros E. rewrite (IH _ _ _ E). exact (step_rows _ _ _ T).
Qed.
Lemma calc_steps_rows todo : forall o r o', obj_calc_steps todo o = (r, o') -> io_data o' = io_data o.
Proof.
  induction todo as [|todo IH]; intros o r o'; cbn [obj_calc_steps]; [intros E; injection E as <- <-; reflexivity|].
  destruct (take_step o) as ([u|] & o1) eqn:T; [|intros E; injection E as <- <-; exact (step_rows _ _ _ T)].
  destruct (hot _ _); [intros E; injection E as <- <-; exact (step_rows _ _ _ T)|]. intros E. rewrite (IH _ _ _ E). exact (step_rows _ _ _ T).
Qed.

Lemma ign_step_rows fuel k o w r o' w' : ign_do fuel k o w = (r, o', w') -> io_data o' = newer (rows_in r) (io_data o).
Proof.
  destruct k as [stop restart| |skip|]; cbn [ign_do].
  - destruct (ign_run fuel stop restart o w) as ((x & o1) & w1) eqn:R. intros E. injection E as <- <- <-.
    rewrite (run_rows _ _ _ _ _ _ _ _ R). destruct x; reflexivity.
  - destruct (ign_calculate fuel o) as (x & o1) eqn:C. intros E. injection E as <- <- <-. unfold ign_calculate in C.
    destruct (Qnz _). { rewrite (calc_time_rows _ _ _ _ C). destruct x; reflexivity. }
    destruct (_ <? _)%Z; [injection C as <- <-; reflexivity|]. destruct (obj_calc_steps _ o) as (d & o2) eqn:S. injection C as <- <-. exact (calc_steps_rows _ _ _ _ S).
  - unfold ign_process. destruct (w_fs w (io_file o)) as [[l|l|l|[|p0 t]|]|]; try (intros E; injection E as <- <- <-; reflexivity).
    destruct skip; [intros E; injection E as <- <- <-; reflexivity|].
    destruct (sample_profile (p0 :: t)); intros E; injection E as <- <- <-; reflexivity.
  - intros E. injection E as <- <- <-. reflexivity.
Qed.

Lemma ign_rows_from fuel ks : forall o w rs o' w', ign_calls fuel ks o w = (rs, o', w') -> io_data o' = newer (last_rows rs) (io_data o).
Proof.
  induction ks as [|k ks IH]; intros o w rs o' w'; cbn [ign_calls].
  - intros E. injection E as <- <- <-. reflexivity.
  - destruct (ign_do fuel k o w) as ((r & o1) & w1) eqn:D. destruct (ign_calls fuel ks o1 w1) as ((rs1 & o2) & w2) eqn:C. intros E. injection E as <- <- <-.
    rewrite (IH _ _ _ _ _ C), (ign_step_rows _ _ _ _ _ _ _ D). cbn [last_rows]. destruct (last_rows rs1); reflexivity.
Qed.

Lemma ign_rows Ns fuel path idx c m o ks w rs o' w' : ign_setup Ns path idx c m = Ok o -> ign_calls fuel ks o w = (rs, o', w') ->
  io_data o' = last_rows rs.
Proof.
  unfold ign_setup. destruct (setup_gas (ig_mix c) m); try discriminate. cbn [bind]. intros E C. injection E as <-.
  rewrite (ign_rows_from _ _ _ _ _ _ _ C). cbn. destruct (last_rows rs); reflexivity.
Qed.

(** The delay attribute is the delay returned. *)
Lemma calc_time_delay fuel : forall o d o', obj_calc_time fuel o = (Ok d, o') -> io_delay o' = d.
Proof.
  induction fuel as [|fuel IH]; intros o d o'; cbn [obj_calc_time]; destruct (Qlt_bool _ _); try discriminate; try (intros E; injection E as <- <-; reflexivity).
  destruct (take_step o) as ([u|] & o1); [|intros E; injection E as <- <-; reflexivity].
  destruct (hot _ _); [intros E; injection E as <- <-; reflexivity|]. apply IH.
Qed.
Lemma calc_steps_delay todo : forall o d o', obj_calc_steps todo o = (d, o') -> io_delay o' = d.
Proof.
  induction todo as [|todo IH]; intros o d o'; cbn [obj_calc_steps]; [intros E; injection E as <- <-; reflexivity|].
  destruct (take_step o) as ([u|] & o1); [|intros E; injection E as <- <-; reflexivity].
  destruct (hot _ _); [intros E; injection E as <- <-; reflexivity|]. apply IH.
Qed.
Lemma ign_delay fuel k o w d x o' w' : ign_do fuel k o w = (Ok (Some d, x), o', w') -> io_delay o' = d.
Proof.
  destruct k as [stop restart| |skip|]; cbn [ign_do].
  - unfold ign_run. destruct (restart && _); [cbn; intros E; discriminate|].
    destruct (obj_integrate fuel stop o) as ([(ps & [])|e|] & o1); cbn; intros E; try discriminate. injection E as <- _ <- _. reflexivity.
  - destruct (ign_calculate fuel o) as ([y|e|] & o1) eqn:C; cbn [bind]; intros E; try discriminate. injection E as -> _ <- _. unfold ign_calculate in C.
    destruct (Qnz _). { exact (calc_time_delay _ _ _ _ C). }
    destruct (_ <? _)%Z; [discriminate|]. destruct (obj_calc_steps _ o) as (e & o2) eqn:S. injection C as -> ->. exact (calc_steps_delay _ _ _ _ S).
  - unfold ign_process. destruct (w_fs w (io_file o)) as [[l|l|l|[|p0 t]|]|]; cbn -[first_hot sample_profile]; try discriminate.
    destruct skip; [intros E; injection E as <- _ <- _; reflexivity|].
    destruct (sample_profile (p0 :: t)); cbn -[first_hot]; intros E; try discriminate. injection E as <- _ <- _. reflexivity.
  - discriminate.
Qed.
End Any.
