(** Facts about the objects for ignition cases. *)
From Coq Require Import String List QArith Qabs ZArith Bool Arith Lia Lqa.
From Verif.Base Require Import Py Num XNum Paths.
From Verif.Model Require Import Mech World Drivers Simulation Psr IgnCase.
From Verif.Spec Require Import SimSpec PsrSpec IgnCaseSpec.
From Verif.Proofs Require Import NumFacts SimFacts SimMore.
Import ListNotations.

Lemma steps_S n : EStep :: steps_of n = steps_of (S n).
Proof. reflexivity. Qed.

(** ** A new object *)
Section New.
  Context {CA : calc}.
  Variables (N : network) (c : in_ign) (f : string).

  Definition ob (n : nat) (d : Q) (x : option (list (list Q))) : ign_obj := mkIgnObj c f N (steps_of n) d x.
  Definition obr (n : nat) (d : Q) (x : option (list (list Q))) : ign_obj := mkIgnObj c f N (steps_of n ++ [EReinit]) d x.
  Let R := reactor_of N.

  Lemma step_ob n d x : take_step (ob n d x) = (if nt_ok N (steps_of (S n)) then Some tt else None, ob (S n) d x).
  Proof. reflexivity. Qed.
  Lemma step_obr n d x : reinit_is_idle N ->
    take_step (obr n d x) = (if nt_ok N (steps_of (S n)) then Some tt else None, obr (S n) d x).
  Proof.
    intros I. unfold take_step, did, obr. cbn [io_case io_file io_net io_past io_delay io_data].
    change (EStep :: steps_of n ++ [EReinit]) with (steps_of (S n) ++ [EReinit]).
    destruct (I (steps_of (S n))) as (_ & -> & _). reflexivity.
  Qed.
  Lemma now_ob n d x : now (ob n d x) = nt_point N (steps_of n).
  Proof. reflexivity. Qed.
  Lemma now_obr n d x : reinit_is_idle N -> now (obr n d x) = nt_point N (steps_of n).
  Proof. intros I. unfold now, obr. cbn [io_net io_past]. apply I. Qed.
  Lemma state_obr n d x : reinit_is_idle N -> state_now (obr n d x) = nt_state N (steps_of n).
  Proof. intros I. unfold state_now, obr. cbn [io_net io_past]. apply I. Qed.

  Lemma ra_step_of n : ra_step R n = if nt_ok N (steps_of n) then Some (nt_point N (steps_of n)) else None.
  Proof. reflexivity. Qed.

  (** calculate *)
  Lemma calc_time_new x : forall fuel n,
    fst (obj_calc_time fuel (ob n 0 x)) =
    calc_to_time fuel R (ig_T c) (ig_end c) n (p_time (nt_point N (steps_of n))).
  Proof.
    induction fuel as [|fuel IH]; intros n; cbn [obj_calc_time calc_to_time]; rewrite now_ob; cbn [io_case ob].
    - destruct (Qlt_bool _ _); reflexivity.
    - destruct (Qlt_bool _ _); [|reflexivity].
      rewrite step_ob, ra_step_of. destruct (nt_ok N (steps_of (S n))); [|reflexivity].
      rewrite now_ob. cbn [io_case ob]. destruct (hot _ _); [reflexivity|apply IH].
  Qed.
  Lemma calc_steps_new x : forall todo n,
    fst (obj_calc_steps todo (ob n 0 x)) = calc_steps todo R (ig_T c) n.
  Proof.
    induction todo as [|todo IH]; intros n; cbn [obj_calc_steps calc_steps]; [reflexivity|].
    rewrite step_ob, ra_step_of. destruct (nt_ok N (steps_of (S n))); [|reflexivity].
    rewrite now_ob. cbn [io_case ob]. destruct (hot _ _); [reflexivity|apply IH].
  Qed.
  Lemma calculate_new fuel x : fst (ign_calculate fuel (ob 0 0 x)) = calculate fuel R c.
  Proof.
    unfold ign_calculate, calculate. cbn [io_case ob]. destruct (Qnz (ig_end c)); [apply calc_time_new|].
    destruct (max_steps c <? 0)%Z; [reflexivity|].
    pose proof (calc_steps_new x (Z.to_nat (max_steps c)) 0) as E. destruct (obj_calc_steps _ (ob 0 0 x)) as [d o]. cbn [fst] in *. now rewrite E.
  Qed.

  (** run_case *)
  Lemma to_time_new x : forall fuel n ps d flag,
    match obj_to_time fuel false ps flag (ob n d x) with
    | (Ok (ps', flag'), o) => exists n' d', o = ob n' d' x /\
        run_to_time fuel R (ig_T c) (ig_end c) n (p_time (nt_point N (steps_of n))) (mkRS ps d flag) = Ok (mkRS ps' d' flag') /\
        (n <= n')%nat /\ (ig_end c <= p_time (nt_point N (steps_of n')))%Q
    | (Raise e, o) =>
        run_to_time fuel R (ig_T c) (ig_end c) n (p_time (nt_point N (steps_of n))) (mkRS ps d flag) = Raise e
    | (NoFuel, o) =>
        run_to_time fuel R (ig_T c) (ig_end c) n (p_time (nt_point N (steps_of n))) (mkRS ps d flag) = NoFuel
    end.
  Proof.
    induction fuel as [|fuel IH]; intros n ps d flag; cbn [obj_to_time run_to_time]; rewrite now_ob; cbn [io_case ob].
    - destruct (Qlt_bool _ _) eqn:E; [reflexivity|]. exists n, d. repeat split; auto. now apply Qlt_bool_false.
    - destruct (Qlt_bool _ _) eqn:E.
      2:{ exists n, d. repeat split; auto. now apply Qlt_bool_false. }
      rewrite step_ob, ra_step_of. destruct (nt_ok N (steps_of (S n))); [|reflexivity].
      rewrite now_ob. cbn [io_case ob]. unfold after_step. cbn [rs_points rs_delay rs_flag].
      set (b := hot (ig_T c) (p_T (nt_point N (steps_of (S n)))) && negb flag).
      assert ((if b then obj_to_time fuel false (ps ++ [nt_point N (steps_of (S n))]) true
                 (set_delay (p_time (nt_point N (steps_of (S n)))) (ob (S n) d x))
               else obj_to_time fuel false (ps ++ [nt_point N (steps_of (S n))]) flag (ob (S n) d x)) =
              obj_to_time fuel false (ps ++ [nt_point N (steps_of (S n))]) (flag || b)
                (ob (S n) (if b then p_time (nt_point N (steps_of (S n))) else d) x)) as ->.
      { destruct b; [rewrite orb_true_r; reflexivity|rewrite orb_false_r; reflexivity]. }
      specialize (IH (S n) (ps ++ [nt_point N (steps_of (S n))])%list
        (if b then p_time (nt_point N (steps_of (S n))) else d) (flag || b)).
      destruct (obj_to_time _ _ _ _ _) as [[[ps' flag']|e|] o]; try exact IH.
      destruct IH as (n' & d' & A & B & L & T). exists n', d'. repeat split; auto. lia.
  Qed.

  Lemma to_steady_new x : reinit_is_idle N -> forall todo n ps d flag,
    match obj_to_steady todo false (greatest N n) ps flag (obr n d x) with
    | (Ok (ps', flag', more), o) => (more <= todo)%nat /\ exists d',
        o = obr (n + todo - more) d' x /\
        run_to_steady todo R (ig_T c) n (mkRS ps d flag) = Ok (mkRS ps' d' flag', (n + todo - more)%nat)
    | (Raise e, o) => run_to_steady todo R (ig_T c) n (mkRS ps d flag) = Raise e
    | (NoFuel, o) => run_to_steady todo R (ig_T c) n (mkRS ps d flag) = NoFuel
    end.
  Proof.
    intros I. induction todo as [|todo IH]; intros n ps d flag; cbn [obj_to_steady run_to_steady].
    - split; [lia|]. exists d. replace (n + 0 - 0)%nat with n by lia. split; reflexivity.
    - rewrite (step_obr n d x I), ra_step_of. destruct (nt_ok N (steps_of (S n))); [|reflexivity].
      rewrite (now_obr (S n) d x I), (state_obr n d x I).
      change (io_case (obr (S n) d x)) with c. unfold after_step. cbn [rs_points rs_delay rs_flag].
      set (p := nt_point N (steps_of (S n))). set (b := hot (ig_T c) (p_T p) && negb flag).
      rewrite andb_false_r.
      assert ((if b then set_delay (p_time p) (obr (S n) d x) else obr (S n) d x) =
              obr (S n) (if b then p_time p else d) x) as -> by (destruct b; reflexivity).
      rewrite (state_obr (S n) _ x I).
      change (io_net (obr (S n) (if b then p_time p else d) x)) with N.
      change (ra_small R (S n)) with
        (xlt (residual N (nt_state N (steps_of (S n))) (nt_state N (steps_of (S n - 1))) (greatest N (S n))) (Fin (10 * nt_rtol N))).
      replace (S n - 1)%nat with n by lia.
      change (greatest N (S n)) with (map2 xmax (greatest N n) (nt_state N (steps_of (S n)))).
      destruct (xlt _ _).
      + split; [lia|]. exists (if b then p_time p else d). replace (n + S todo - todo)%nat with (S n) by lia. split; reflexivity.
      + specialize (IH (S n) (ps ++ [p])%list (if b then p_time p else d) (flag || b)).
        change (greatest N (S n)) with (map2 xmax (greatest N n) (nt_state N (steps_of (S n)))) in IH.
        destruct (obj_to_steady _ _ _ _ _ _) as [[[[ps' flag'] more]|e|] o]; try exact IH.
        destruct IH as (L & d' & A & B). split; [lia|]. exists d'.
        replace (n + S todo - more)%nat with (S n + todo - more)%nat by lia. split; auto.
  Qed.

  Lemma integrate_new fuel x : reinit_is_idle N ->
    match obj_integrate fuel false (ob 0 0 x) with
    | (Ok (ps, flag), o) => integrate fuel R c = Ok (mkRS ps (io_delay o) flag) /\
        io_case o = c /\ io_file o = f /\ io_net o = N /\
        (Qnz (ig_end c) = true -> exists n, o = ob n (io_delay o) x /\ (ig_end c <= p_time (now o))%Q) /\
        (Qnz (ig_end c) = false -> exists n, o = obr n (io_delay o) x /\ settles R n /\ (Z.of_nat n < max_steps c)%Z)
    | (Raise e, o) => integrate fuel R c = Raise e
    | (NoFuel, o) => integrate fuel R c = NoFuel
    end.
  Proof.
    intros I. unfold obj_integrate. rewrite now_ob. change (io_case (ob 0 0 x)) with c.
    destruct (Qnz (ig_end c)) eqn:QE.
    - pose proof (to_time_new x fuel 0 [nt_point N (steps_of 0)] 0 false) as H. unfold integrate. rewrite QE.
      change (ra_init R) with (nt_point N (steps_of 0)).
      destruct (obj_to_time _ _ _ _ _) as [[[ps flag]|e|] o]; try exact H.
      destruct H as (n & d & -> & A & _ & B). split; [exact A|]. repeat split; try reflexivity.
      + intros _. exists n. split; [reflexivity|exact B].
      + discriminate.
    - change (did EReinit (ob 0 0 x)) with (obr 0 0 x). change (io_case (obr 0 0 x)) with c.
      rewrite (state_obr 0 0 x I).
      destruct (Z.ltb_spec (max_steps c) 0) as [L|L].
      { unfold integrate. rewrite QE. destruct (Z.ltb_spec (max_steps c) 0); [reflexivity|lia]. }
      pose proof (to_steady_new x I (Z.to_nat (max_steps c)) 0 [nt_point N (steps_of 0)] 0 false) as H.
      change (greatest N 0) with (nt_state N (steps_of 0)) in H.
      assert (forall r, run_to_steady (Z.to_nat (max_steps c)) R (ig_T c) 0 (mkRS [nt_point N (steps_of 0)] 0 false) = r ->
        integrate fuel R c = bind r (fun sn => if Nat.eqb (snd sn) (Z.to_nat (max_steps c)) then Raise RuntimeError else Ok (fst sn))) as IE.
      { intros r <-. unfold integrate. rewrite QE. destruct (Z.ltb_spec (max_steps c) 0); [lia|reflexivity]. }
      destruct (obj_to_steady _ _ _ _ _ _) as [[[[ps flag] more]|e|] o]; try (apply IE in H; exact H).
      destruct H as (LM & d & -> & A). pose proof (IE _ A) as IE'. cbn [bind fst snd] in IE'. cbn [Nat.add] in *.
      destruct (Nat.eqb_spec (Z.to_nat (max_steps c) - more) (Z.to_nat (max_steps c))) as [E|E].
      + destruct (Nat.eqb_spec more 0) as [E0|E0]; [exact IE'|].
        exfalso. assert (Z.to_nat (max_steps c) = 0%nat) as Z0 by lia. lia.
      + destruct (Nat.eqb_spec more 0) as [E0|E0]; [lia|].
        split; [exact IE'|]. repeat split; try reflexivity; [discriminate|].
        intros _. exists (Z.to_nat (max_steps c) - more)%nat. split; [reflexivity|].
        pose proof (to_steady_ok R (ig_T c) (Z.to_nat (max_steps c)) 0 (start R) _ _ eq_refl (fun j J => ltac:(lia)) A) as (K1 & K2 & K3 & K4).
        cbn [Nat.add] in *. split; [|lia]. destruct K3 as (K5 & K6); [lia|].
        split; [lia|]. split; [eapply st_alive; exact K2|]. split; [exact K6|exact K4].
  Qed.

  Lemma run_new fuel x w : reinit_is_idle N ->
    let '(r, o, w') := ign_run fuel false false (ob 0 0 x) w in
    run_case fuel R c f w = (bind r (fun d => match d with Some q => Ok q | None => Raise TypeError end), w').
  Proof.
    intros I. unfold ign_run. cbn [andb]. pose proof (integrate_new fuel x I) as H.
    unfold run_case, mbind, mlift, mret, mraise.
    destruct (obj_integrate fuel false (ob 0 0 x)) as [[[ps flag]|e|] o]; [|rewrite H; reflexivity|rewrite H; reflexivity].
    destruct H as (-> & _ & -> & _ & _). cbn [rs_points rs_flag rs_delay]. unfold put_file. cbn [snd].
    destruct flag; reflexivity.
  Qed.
End New.

(** ** process_results *)
Lemma process_new {CA : calc} skip o w :
  fst (ign_process skip o w) =
  bind (fst (process_results (io_file o) w)) (fun x => Ok (fst x, if skip then None else Some (snd x))).
Proof.
  unfold ign_process, process_results, mbind, get_file, mlift, mret, mraise.
  destruct (w_fs w (io_file o)) as [[ | | |[|p0 t]| ]|]; try reflexivity.
  destruct skip.
  - destruct (sample_profile_ok p0 t) as (rows & ->). reflexivity.
  - destruct (sample_profile (p0 :: t)); reflexivity.
Qed.

(** ** Stopping at ignition *)
Section Stop.
  Context {CA : calc}.
  Variables (N : network) (c : in_ign) (f : string).
  Let R := reactor_of N.
  Notation ob := (ob N c f).
  Notation obr := (obr N c f).

  Definition pts (n : nat) : list point := map (fun j => nt_point N (steps_of j)) (seq 0 (S n)).
  Lemma pts_S n : pts (S n) = (pts n ++ [nt_point N (steps_of (S n))])%list.
  Proof. unfold pts. rewrite (seq_S (S n) 0), map_app. reflexivity. Qed.

  Lemma pts_recorded n : alive R n -> recorded R n (pts n).
  Proof.
    intros A. exists (map (fun j => nt_point N (steps_of j)) (seq 1 n)). split; [reflexivity|].
    split; [rewrite map_length, seq_length; reflexivity|]. intros k K.
    rewrite nth_error_map. assert (nth_error (seq 1 n) k = Some (S k)) as ->.
    { rewrite nth_error_nth' with (d := 0%nat) by (rewrite seq_length; lia). rewrite seq_nth by lia. reflexivity. }
    destruct (A (S k)) as (p & EP); [lia|]. cbn [option_map]. rewrite EP. unfold R in EP. rewrite ra_step_of in EP.
    destruct (nt_ok N (steps_of (S k))); congruence.
  Qed.

  Lemma hot_here n : nt_ok N (steps_of (S n)) = true -> cool R (ig_T c) n ->
    hot (ig_T c) (p_T (nt_point N (steps_of (S n)))) = true ->
    ignites R (ig_T c) (S n) (p_time (nt_point N (steps_of (S n)))).
  Proof.
    intros O C H. split; [lia|]. split.
    - exists (nt_point N (steps_of (S n))). unfold R. rewrite ra_step_of, O. split; [reflexivity|]. split; [now apply hot_iff|reflexivity].
    - intros j J. apply C. lia.
  Qed.
  Lemma cool_here n : nt_ok N (steps_of (S n)) = true -> cool R (ig_T c) n ->
    hot (ig_T c) (p_T (nt_point N (steps_of (S n)))) = false -> cool R (ig_T c) (S n).
  Proof.
    intros O C H j J. destruct (Nat.eq_dec j (S n)) as [->|]; [|apply C; lia].
    exists (nt_point N (steps_of (S n))). unfold R. rewrite ra_step_of, O. split; [reflexivity|now apply hot_false].
  Qed.
  Lemma ignites_ok k d : ignites R (ig_T c) k d ->
    nt_ok N (steps_of k) = true /\ hot (ig_T c) (p_T (nt_point N (steps_of k))) = true /\ p_time (nt_point N (steps_of k)) = d.
  Proof.
    intros (_ & (p & E & H & T) & _). unfold R in E. rewrite ra_step_of in E.
    destruct (nt_ok N (steps_of k)); [|discriminate]. injection E as <-. split; auto. split; auto. now apply hot_iff.
  Qed.
  Lemma before_ok k d j : ignites R (ig_T c) k d -> (1 <= j < k)%nat ->
    nt_ok N (steps_of j) = true /\ hot (ig_T c) (p_T (nt_point N (steps_of j))) = false.
  Proof.
    intros (_ & _ & B) J. destruct (B j J) as (p & E & H). unfold R in E. rewrite ra_step_of in E.
    destruct (nt_ok N (steps_of j)); [|discriminate]. injection E as <-. split; auto. now apply hot_false.
  Qed.
  Lemma time_of n : (n = 0%nat \/ nt_ok N (steps_of n) = true) -> time_at R n (p_time (nt_point N (steps_of n))).
  Proof.
    intros H. destruct n as [|n]; cbn [time_at]; [reflexivity|].
    exists (nt_point N (steps_of (S n))). unfold R. rewrite ra_step_of. destruct H as [H| ->]; [discriminate|]. split; reflexivity.
  Qed.
  Lemma time_val n t : time_at R n t -> t = p_time (nt_point N (steps_of n)).
  Proof.
    destruct n as [|n]; cbn [time_at]; [auto|]. intros (p & E & <-). unfold R in E. rewrite ra_step_of in E.
    destruct (nt_ok N (steps_of (S n))); [congruence|discriminate].
  Qed.

  Lemma stop_time_ok x : forall fuel n d ps o,
    cool R (ig_T c) n -> (n = 0%nat \/ nt_ok N (steps_of n) = true) ->
    obj_to_time fuel true (pts n) false (ob n d x) = (Ok (ps, true), o) ->
    exists k t, (n < k <= n + fuel)%nat /\ ignites R (ig_T c) k t /\ o = ob k t x /\ ps = pts k /\
      forall j, (n <= j < k)%nat -> exists t, time_at R j t /\ (t < ig_end c)%Q.
  Proof.
    induction fuel as [|fuel IH]; intros n d ps o C AL H; cbn [obj_to_time] in H; rewrite now_ob in H; cbn [io_case IgnCaseFacts.ob] in H.
    - destruct (Qlt_bool _ _); discriminate.
    - destruct (Qlt_bool _ _) eqn:TE; [|discriminate].
      rewrite step_ob in H. destruct (nt_ok N (steps_of (S n))) eqn:OK; [|discriminate].
      rewrite now_ob in H. cbn [io_case IgnCaseFacts.ob] in H. rewrite <- pts_S in H. rewrite andb_true_r in H.
      assert (exists t, time_at R n t /\ (t < ig_end c)%Q) as TN.
      { exists (p_time (nt_point N (steps_of n))). split; [apply time_of; exact AL|now apply Qlt_bool_iff]. }
      destruct (hot _ _) eqn:HT.
      + injection H as <- <-. exists (S n), (p_time (nt_point N (steps_of (S n)))).
        split; [lia|]. split; [apply hot_here; auto|]. split; [reflexivity|]. split; [reflexivity|].
        intros j J. replace j with n by lia. exact TN.
      + destruct (IH (S n) d ps o (cool_here n OK C HT) (or_intror OK) H) as (k & t & K & I & A & B & T).
        exists k, t. split; [lia|]. split; auto. split; auto. split; auto. intros j J.
        destruct (Nat.eq_dec j n) as [->|]; [exact TN|]. apply T. lia.
  Qed.

  Lemma stop_time_runs x k t : ignites R (ig_T c) k t -> forall fuel n d,
    (n < k <= n + fuel)%nat -> (forall j, (n <= j < k)%nat -> exists t, time_at R j t /\ (t < ig_end c)%Q) ->
    obj_to_time fuel true (pts n) false (ob n d x) = (Ok (pts k, true), ob k t x).
  Proof.
    intros I. induction fuel as [|fuel IH]; intros n d K T; [lia|]. cbn [obj_to_time]. rewrite now_ob. cbn [io_case IgnCaseFacts.ob].
    destruct (T n) as (u & U & L); [lia|]. rewrite (time_val _ _ U) in L. apply Qlt_bool_iff in L. rewrite L.
    rewrite step_ob. destruct (Nat.eq_dec k (S n)) as [->|NE].
    - destruct (ignites_ok _ _ I) as (-> & H & <-). rewrite now_ob. cbn [io_case IgnCaseFacts.ob]. rewrite H. cbn [negb andb].
      rewrite <- pts_S. reflexivity.
    - destruct (before_ok _ _ (S n) I) as (-> & H); [lia|]. rewrite now_ob. cbn [io_case IgnCaseFacts.ob]. rewrite H. cbn [andb].
      rewrite <- pts_S. apply IH; [lia|]. intros j J. apply T. lia.
  Qed.

  Lemma stop_steady_ok x : reinit_is_idle N -> forall todo n d ps more o,
    cool R (ig_T c) n -> obj_to_steady todo true (greatest N n) (pts n) false (obr n d x) = (Ok (ps, true, more), o) ->
    exists k t, (n < k)%nat /\ (k + more = n + todo)%nat /\ ignites R (ig_T c) k t /\ o = obr k t x /\ ps = pts k /\
      forall j, (n < j < k)%nat -> ra_small R j = false.
  Proof.
    intros RI. induction todo as [|todo IH]; intros n d ps more o C H; cbn [obj_to_steady] in H; [discriminate|].
    rewrite (step_obr N c f n d x RI) in H. destruct (nt_ok N (steps_of (S n))) eqn:OK; [|discriminate].
    rewrite (now_obr N c f (S n) d x RI), (state_obr N c f n d x RI) in H. change (io_case (obr (S n) d x)) with c in H.
    rewrite <- pts_S, !andb_true_r in H. destruct (hot _ _) eqn:HT.
    - injection H as <- <- <-. exists (S n), (p_time (nt_point N (steps_of (S n)))).
      split; [lia|]. split; [lia|]. split; [apply hot_here; auto|]. split; [reflexivity|]. split; [reflexivity|]. intros; lia.
    - rewrite (state_obr N c f (S n) d x RI) in H. change (io_net (obr (S n) d x)) with N in H.
      destruct (xlt _ _) eqn:SM; [discriminate|]. cbn [orb] in H.
      destruct (IH (S n) d ps more o (cool_here n OK C HT) H) as (k & t & K1 & K2 & I & A & B & T).
      exists k, t. split; [lia|]. split; [lia|]. split; auto. split; auto. split; auto.
      intros j J. destruct (Nat.eq_dec j (S n)) as [->|]; [|apply T; lia].
      unfold R, reactor_of. cbn [ra_small]. replace (S n - 1)%nat with n by lia. exact SM.
  Qed.

  Lemma stop_steady_runs x k t : reinit_is_idle N -> ignites R (ig_T c) k t -> forall todo n d,
    (n < k <= n + todo)%nat -> (forall j, (n < j < k)%nat -> ra_small R j = false) ->
    obj_to_steady todo true (greatest N n) (pts n) false (obr n d x) = (Ok (pts k, true, (n + todo - k)%nat), obr k t x).
  Proof.
    intros RI I. induction todo as [|todo IH]; intros n d K T; [lia|]. cbn [obj_to_steady].
    rewrite (step_obr N c f n d x RI). rewrite (now_obr N c f (S n) d x RI), (state_obr N c f n d x RI).
    change (io_case (obr (S n) d x)) with c. rewrite <- pts_S.
    destruct (Nat.eq_dec k (S n)) as [->|NE].
    - destruct (ignites_ok _ _ I) as (-> & H & <-). rewrite H. cbn [negb andb].
      replace (n + S todo - S n)%nat with todo by lia. reflexivity.
    - destruct (before_ok _ _ (S n) I) as (-> & H); [lia|]. rewrite H. cbn [andb orb].
      rewrite (state_obr N c f (S n) d x RI). change (io_net (obr (S n) d x)) with N.
      pose proof (T (S n) ltac:(lia)) as SM. unfold R, reactor_of in SM. cbn [ra_small] in SM.
      replace (S n - 1)%nat with n in SM by lia.
      change (greatest N (S n)) with (map2 xmax (greatest N n) (nt_state N (steps_of (S n)))) in SM. rewrite SM.
      specialize (IH (S n) d ltac:(lia) ltac:(intros j J; apply T; lia)).
      change (greatest N (S n)) with (map2 xmax (greatest N n) (nt_state N (steps_of (S n)))) in IH. rewrite IH.
      replace (S n + todo - k)%nat with (n + S todo - k)%nat by lia. reflexivity.
  Qed.

  Lemma ignites_alive k d : ignites R (ig_T c) k d -> alive R k.
  Proof.
    intros (_ & (p & E & _) & B) j J. destruct (Nat.eq_dec j k) as [->|]; [eauto|].
    destruct (B j) as (q & Q & _); [lia|eauto].
  Qed.


  Lemma stop_new fuel x w d : reinit_is_idle N ->
    (forall o w', ign_run fuel true false (ob 0 0 x) w = (Ok (Some d), o, w') ->
       exists k, stops_at R c k d /\ (Qnz (ig_end c) = true -> (k <= fuel)%nat) /\
         recorded R k (pts k) /\ io_delay o = d /\
         w' = mkWorld (fs_set f (Some (FProfile (pts k))) (w_fs w)) (w_shared w)) /\
    (forall k, stops_at R c k d -> (Qnz (ig_end c) = true -> (k <= fuel)%nat) ->
       exists o w', ign_run fuel true false (ob 0 0 x) w = (Ok (Some d), o, w')).
  Proof.
    intros RI. split.
    - intros o w' H. unfold ign_run, obj_integrate in H. cbn [andb] in H.
      change (io_case (ob 0 0 x)) with c in H. change [now (ob 0 0 x)] with (pts 0) in H.
      unfold stops_at. change steps_allowed with max_steps. destruct (Qnz (ig_end c)) eqn:QE.
      + destruct (obj_to_time fuel true (pts 0) false (ob 0 0 x)) as [[[ps flag]|e|] o1] eqn:E; try discriminate.
        destruct flag; [|discriminate].
        destruct (stop_time_ok x fuel 0 0 ps o1) as (k & t & K & I & -> & -> & T); auto; [intros j J; lia|].
        injection H as H1 H2 H3. cbn in H1. subst t. exists k. split; [split; auto|].
        { intros j J. apply T. lia. }
        split; [intros _; lia|]. split; [apply pts_recorded, (ignites_alive _ _ I)|].
        subst. split; reflexivity.
      + change (did EReinit (ob 0 0 x)) with (obr 0 0 x) in H. change (io_case (obr 0 0 x)) with c in H.
        destruct (Z.ltb_spec (max_steps c) 0) as [L|L]; [discriminate|].
        rewrite (state_obr N c f 0 0 x RI) in H. change (nt_state N (steps_of 0)) with (greatest N 0) in H.
        destruct (obj_to_steady _ _ _ _ _ _) as [[[[ps flag] more]|e|] o1] eqn:E; try discriminate.
        destruct (Nat.eqb_spec more 0) as [|NZ]; [discriminate|]. destruct flag; [|discriminate].
        destruct (stop_steady_ok x RI _ 0 0 ps more o1 ltac:(intros j J; lia) E) as (k & t & K1 & K2 & I & -> & -> & T).
        injection H as H1 H2 H3. cbn in H1. subst t. exists k. split; [split; auto|].
        { split; [lia|]. intros j J. apply T. lia. }
        split; [discriminate|]. split; [apply pts_recorded, (ignites_alive _ _ I)|]. subst. split; reflexivity.
    - intros k (I & S) FU. pose proof I as (P & _).
      unfold ign_run, obj_integrate. cbn [andb]. change (io_case (ob 0 0 x)) with c. change [now (ob 0 0 x)] with (pts 0).
      destruct (Qnz (ig_end c)) eqn:QE.
      + rewrite (stop_time_runs x k d I fuel 0 0); [|specialize (FU eq_refl); lia|intros j J; apply S; lia].
        eexists. eexists. reflexivity.
      + destruct S as (L & T). change steps_allowed with max_steps in L. change (did EReinit (ob 0 0 x)) with (obr 0 0 x). change (io_case (obr 0 0 x)) with c.
        destruct (Z.ltb_spec (max_steps c) 0) as [|LE]; [lia|].
        rewrite (state_obr N c f 0 0 x RI). change (nt_state N (steps_of 0)) with (greatest N 0).
        rewrite (stop_steady_runs x k d RI I _ 0 0); [|lia|intros j J; apply T; lia].
        destruct (Nat.eqb_spec (0 + Z.to_nat (max_steps c) - k) 0); [lia|].
        eexists. eexists. reflexivity.
  Qed.
End Stop.
