(** Sampling a profile with doubles. *)
From Coq Require Import String List ZArith QArith Qabs Qreals Reals Bool Arith Lia Lra Psatz.
From Flocq Require Import Core Sterbenz.
From Verif.Base Require Import Py Num B64.
From Verif.Model Require Import FloatDrivers FloatMatrix FloatSampling.
From Verif.Spec Require Import FloatMatrixSpec FloatSamplingSpec.
From Verif.Proofs Require Import FloatFacts FloatArith FloatSums.
Import ListNotations.
Local Open Scope R_scope.
Local Existing Instance prec53.
Local Existing Instance emax1024.
Local Notation u := ulp53.

(** ** The loop, for any test *)
Section Gen.
  Context {A B : Type}.
  Variables (h : nat -> A -> bool) (row : A -> B) (n : nat).

  Fixpoint gl (k : nat) (ps : list A) : list B :=
    match ps with
    | nil => nil
    | p :: t => if Nat.leb n k then nil else if h k p then row p :: gl (S k) t else gl k t
    end.

  Fixpoint gchosen (ps : list A) (k from : nat) (is : list nat) : Prop :=
    match is with
    | nil => True
    | i :: t =>
        (from <= i)%nat /\ (exists p, nth_error ps i = Some p /\ h k p = true) /\
        (forall j p, (from <= j < i)%nat -> nth_error ps j = Some p -> h k p = false) /\
        gchosen ps (S k) (S i) t
    end.

  Lemma gl_spec all : forall ps k from, skipn from all = ps -> (k <= n)%nat ->
    exists is, Forall2 (fun i r => exists p, nth_error all i = Some p /\ r = row p) is (gl k ps) /\
      gchosen all k from is /\ length (gl k ps) = length is /\ (k + length is <= n)%nat /\
      ((k + length is < n)%nat -> forall j p, (match rev is with nil => from | i :: _ => S i end <= j)%nat ->
         nth_error all j = Some p -> h (k + length is) p = false).
  Proof.
    induction ps as [|p ps IH]; intros k from E K.
    - exists nil. split; [constructor|]. split; [exact I|]. split; [reflexivity|]. simpl length. rewrite Nat.add_0_r.
      split; [exact K|]. simpl rev. intros _ j q J NE. exfalso.
      assert (length (skipn from all) = 0)%nat as X by now rewrite E. rewrite skipn_length in X.
      assert (j < length all)%nat by (apply nth_error_Some; congruence). lia.
    - cbn [gl]. assert (nth_error all from = Some p) as NP.
      { rewrite <- (firstn_skipn from all). rewrite E.
        assert (from < length all)%nat by (pose proof (skipn_length from all); rewrite E in H; simpl in H; lia).
        rewrite nth_error_app2; rewrite firstn_length_le by lia; [|lia]. now rewrite Nat.sub_diag. }
      assert (skipn (S from) all = ps) as E'.
      { clear - E. revert all E. induction from as [|f IHf]; intros all E; [simpl in E; subst; reflexivity|].
        destruct all as [|x all]; [discriminate|]. simpl in E. apply (IHf all E). }
      destruct (Nat.leb_spec n k) as [L|L].
      { exists nil. split; [constructor|]. split; [exact I|]. split; [reflexivity|]. simpl length.
        rewrite Nat.add_0_r. split; [exact K|]. intros; lia. }
      destruct (h k p) eqn:C.
      + destruct (IH (S k) (S from) E') as (is & A1 & A2 & A3 & A4 & A5); [lia|].
        exists (from :: is). split; [|split; [|split; [|split]]].
        * constructor; eauto.
        * simpl. split; [lia|]. split; [exists p; split; auto|]. split; [intros; lia|exact A2].
        * simpl. now rewrite A3.
        * simpl. lia.
        * simpl. intros L2 j q J NE. replace (k + S (length is))%nat with (S k + length is)%nat by lia.
          apply (A5 ltac:(lia) j q); auto. destruct (rev is) as [|x l] eqn:ER; simpl in J; auto.
      + destruct (IH k (S from) E' K) as (is & A1 & A2 & A3 & A4 & A5).
        exists is. split; auto. split; [|split; [|split]]; auto.
        * destruct is as [|i is]; simpl in *; auto. destruct A2 as (B1 & B2 & B3 & B4). split; [lia|]. split; auto. split; auto.
          intros j q J NE. destruct (Nat.eq_dec j from) as [->|]; [rewrite NP in NE; injection NE as <-; auto|].
          apply (B3 j q); auto. lia.
        * intros L2 j q J NE. destruct (rev is) as [|x l] eqn:ER.
          { assert (is = nil) as -> by (rewrite <- (rev_involutive is), ER; reflexivity). simpl in *.
            destruct (Nat.eq_dec j from) as [->|]; [rewrite NP in NE; injection NE as <-; rewrite Nat.add_0_r; auto|].
            apply (A5 L2 j q); auto. lia. }
          apply (A5 L2 j q); auto.
  Qed.

  Variables (T : A -> R) (th : nat -> R) (gap : R) (all : list A).
  Hypothesis hit : forall k p, (k < n)%nat -> In p all -> (h k p = true <-> th k <= T p).
  Hypothesis steps : forall j p q, nth_error all j = Some p -> nth_error all (S j) = Some q -> T q - T p < gap.
  Hypothesis gaps : forall k, (S k < n)%nat -> th k + gap <= th (S k).

  Lemma gchosen_below : forall is k from, gchosen all k from is -> (k + length is < n)%nat ->
    (forall p, nth_error all (Nat.pred from) = Some p -> T p < th k) ->
    match rev is with
    | nil => True
    | i :: _ => forall p, nth_error all i = Some p -> T p < th (k + length is)
    end.
  Proof.
    induction is as [|i is IH]; intros k from C L P; [exact I|]. simpl length in L.
    destruct C as (Q1 & (p & N & CO) & Q2 & D).
    assert (forall p, nth_error all i = Some p -> T p < th (S k)) as NX.
    { intros p' N'. rewrite N in N'. injection N' as <-.
      pose proof (gaps k ltac:(lia)) as G. apply hit in CO; [|lia|eapply nth_error_In; eauto].
      destruct i as [|j].
      - destruct from; [|lia]. specialize (P p N). lra.
      - assert (exists q, nth_error all j = Some q) as (q & NQ).
        { destruct (nth_error all j) eqn:X; eauto. apply nth_error_None in X.
          assert (S j < length all)%nat by (apply nth_error_Some; congruence). lia. }
        pose proof (steps j q p NQ N) as FX.
        assert (T q < th k) as LQ.
        { destruct (le_lt_dec from j) as [Lf|Lf].
          - destruct (Rlt_le_dec (T q) (th k)) as [|X]; auto. exfalso.
            apply hit in X; [|lia|eapply nth_error_In; eauto]. rewrite (Q2 j q) in X; [discriminate|lia|auto].
          - assert (from = S j) by lia. subst from. apply P. auto. }
        lra. }
    specialize (IH (S k) (S i) D ltac:(lia) NX). simpl rev. simpl length.
    replace (k + S (length is))%nat with (S k + length is)%nat by lia.
    destruct (rev is) as [|x l] eqn:ER; simpl app.
    - assert (is = nil) as -> by (rewrite <- (rev_involutive is), ER; reflexivity). simpl. rewrite Nat.add_0_r. exact NX.
    - exact IH.
  Qed.
End Gen.

Lemma gchosen_nth {A} (h : nat -> A -> bool) (all : list A) : forall is k from n, gchosen h all k from is ->
  (n < length is)%nat -> exists i p, nth_error all i = Some p /\ h (k + n)%nat p = true.
Proof.
  induction is as [|i is IH]; intros k from n C L; [simpl in L; lia|]. destruct C as (_ & (p & N & Hp) & _ & C).
  destruct n as [|n].
  - exists i, p. rewrite Nat.add_0_r. auto.
  - simpl in L. replace (k + S n)%nat with (S k + n)%nat by lia. apply (IH (S k) (S i) n C). lia.
Qed.

Lemma last_nth {A} (l : list A) d : l <> nil -> nth_error l (length l - 1) = Some (last l d).
Proof.
  induction l as [|x l IH]; intros H; [contradiction|]. destruct l as [|y l]; [reflexivity|].
  simpl length. replace (S (S (length l)) - 1)%nat with (S (length l)) by lia.
  specialize (IH ltac:(discriminate)). simpl length in IH. replace (S (length l) - 1)%nat with (length l) in IH by lia.
  simpl nth_error. rewrite IH. reflexivity.
Qed.

(** ** The shares *)

Lemma deltas_length : length fdeltas = 20%nat.
Proof. vm_compute. reflexivity. Qed.

Definition dlt (k : nat) : b64 := nth k fdeltas fzero.

Definition good_delta (k : nat) : bool :=
  match dlt k with
  | SpecFloat.S754_finite false m e => SpecFloat.bounded 53 1024 m e &&
      Qle_bool (Qabs (b64_val (dlt k) - (Z.of_nat (S k) # 20))) (1 # 4503599627370496) &&
      Qle_bool 0 (b64_val (dlt k)) && Qle_bool (b64_val (dlt k)) 1
  | _ => false
  end.

Lemma good_deltas : forallb good_delta (seq 0 20) = true.
Proof. vm_compute. reflexivity. Qed.

Definition sh (k : nat) : R := INR (S k) / 20.

Lemma sh_Q k : Q2R (Z.of_nat (S k) # 20) = sh k.
Proof. unfold sh, Q2R. simpl Qnum. simpl Qden. rewrite INR_IZR_INZ. unfold Rdiv. f_equal. Qed.

Lemma delta_facts k : (k < 20)%nat -> fin (dlt k) /\ 0 <= rv (dlt k) <= 1 /\ Rabs (rv (dlt k) - sh k) <= 2 * u.
Proof.
  intros K. pose proof good_deltas as G. rewrite forallb_forall in G. specialize (G k ltac:(apply in_seq; lia)).
  unfold good_delta in G. revert G. generalize (dlt k). intros d G.
  destruct d as [s|s| |s m e]; [discriminate G|discriminate G|discriminate G|]. destruct s; [discriminate G|].
  rewrite !andb_true_iff in G. destruct G as [[[G1 G2] G3] G4].
  apply Qle_bool_iff in G2. apply Qle_bool_iff in G3. apply Qle_bool_iff in G4. split; [exact G1|].
  apply Qle_Rle in G3. apply Qle_Rle in G4. split.
  - unfold rv. replace (Q2R 0) with 0 in G3 by (unfold Q2R; simpl; lra). replace (Q2R 1) with 1 in G4 by (unfold Q2R; simpl; lra). lra.
  - apply Qabs_Qle_condition in G2. destruct G2 as [H1 H2]. apply Qle_Rle in H1. apply Qle_Rle in H2.
    rewrite Q2R_opp, Q2R_minus, sh_Q in H1. rewrite Q2R_minus, sh_Q in H2.
    assert (Q2R (1 # 4503599627370496) = 2 * u) as U by (rewrite u_val; unfold Q2R; simpl; lra).
    rewrite U in *. apply Rabs_le. unfold rv. lra.
Qed.

Lemma delta_last : dlt 19 = fone.
Proof. vm_compute. reflexivity. Qed.

(** ** The thresholds *)

Definition fth (a b : b64) (k : nat) : b64 := b64_add a (b64_mul (dlt k) (b64_sub b a)).

Lemma u_small : u <= / 1000000000000000.
Proof. rewrite u_val. apply Rinv_le; lra. Qed.

Lemma eta_small : eta <= u * u.
Proof. unfold eta, ulp53. rewrite <- bpow_plus. apply bpow_le. lia. Qed.

Lemma bpow_big x : 0 <= x <= 100000000 -> x <= big.
Proof.
  intros H. apply Rle_trans with (bpow radix2 30); [simpl; lra|]. apply bpow_le. lia.
Qed.

Lemma Rabs_2 x y : Rabs x <= y -> - y <= x <= y.
Proof. apply Rabs_le_inv. Qed.

Lemma th_gen a b d s : fin a -> fin b -> 1 <= rv a <= 1048576 -> 1 <= rv b <= 1048576 ->
  fin d -> 0 <= rv d <= 1 -> Rabs (rv d - s) <= 2 * u -> 0 <= s <= 1 ->
  let t := b64_add a (b64_mul d (b64_sub b a)) in
  fin t /\ Rabs (rv t - (rv a + s * (rv b - rv a))) <= 8 * u * (rv a + rv b).
Proof.
  intros Fa Fb Ha Hb Fd Hd Ed Hs. cbv zeta. set (m := rv a + rv b). set (x := rv b - rv a).
  pose proof u_pos as UP. pose proof u_small as US. pose proof eta_small as ES.
  assert (0 < eta) as EP by apply bpow_gt_0.
  assert (- m <= x <= m) as Hx by (unfold x, m; lra). assert (2 <= m <= 2097152) as Hm by (unfold m; lra).
  destruct (fin_sub b a Fb Fa) as [FD VD]. { apply Rle_trans with m; [apply Rabs_le; exact Hx|apply bpow_big; lra]. }
  fold x in VD. assert (Rabs (rv (b64_sub b a) - x) <= u * m) as E1.
  { rewrite VD. destruct (plus_err (rv b) (- rv a)) as [_ P].
    - now apply fin_format.
    - apply generic_format_opp. now apply fin_format.
    - replace (rv b + - rv a) with x in P by (unfold x; ring). eapply Rle_trans; [exact P|].
      apply Rmult_le_compat_l; [lra|]. apply Rabs_le. exact Hx. }
  set (D := rv (b64_sub b a)) in *. apply Rabs_2 in E1.
  assert (- (2 * m) <= D <= 2 * m) as HD by nra.
  assert (Rabs (rv d * D) <= 2 * m) as HdD.
  { rewrite Rabs_mult. rewrite (Rabs_pos_eq (rv d)) by lra.
    apply Rle_trans with (1 * Rabs D); [apply Rmult_le_compat_r; [apply Rabs_pos|lra]|]. rewrite Rmult_1_l. apply Rabs_le. lra. }
  destruct (fin_mul d (b64_sub b a) Fd FD) as [FP VP]. { fold D. eapply Rle_trans; [exact HdD|apply bpow_big; lra]. }
  fold D in VP. pose proof (mul_err (rv d * D)) as E2. rewrite <- VP in E2. set (P := rv (b64_mul d (b64_sub b a))) in *.
  assert (Rabs (rv d * D) <= (1 + u) * m) as HdD'.
  { rewrite Rabs_mult. rewrite (Rabs_pos_eq (rv d)) by lra.
    apply Rle_trans with (1 * Rabs D); [apply Rmult_le_compat_r; [apply Rabs_pos|lra]|]. rewrite Rmult_1_l. apply Rabs_le. lra. }
  assert (Rabs (P - rv d * D) <= (3 / 2) * u * m) as E2'.
  { eapply Rle_trans; [exact E2|]. assert (u * Rabs (rv d * D) <= u * ((1 + u) * m)) by (apply Rmult_le_compat_l; lra). nra. }
  apply Rabs_2 in E2'.
  assert (Rabs (rv d * D - s * x) <= 3 * u * m) as E3.
  { replace (rv d * D - s * x) with (rv d * (D - x) + (rv d - s) * x) by ring.
    eapply Rle_trans; [apply Rabs_triang|]. rewrite !Rabs_mult. rewrite (Rabs_pos_eq (rv d)) by lra.
    assert (rv d * Rabs (D - x) <= 1 * (u * m)).
    { apply Rmult_le_compat; try lra; try apply Rabs_pos. apply Rabs_le. lra. }
    assert (Rabs (rv d - s) * Rabs x <= 2 * u * m).
    { apply Rmult_le_compat; try apply Rabs_pos; auto. apply Rabs_le. exact Hx. }
    lra. }
  apply Rabs_2 in E3.
  assert (0 <= rv a + s * x <= m) as HS by (unfold x, m; nra).
  assert (Rabs (rv a + P) <= (1 + 5 * u) * m) as HaP.
  { apply Rabs_le. assert (0 <= u * m) by nra. lra. }
  destruct (fin_add a (b64_mul d (b64_sub b a)) Fa FP) as [FS VS].
  { fold P. eapply Rle_trans; [exact HaP|]. apply bpow_big. split; nra. }
  fold P in VS. split; auto.
  destruct (plus_err (rv a) P) as [_ E4].
  { now apply fin_format. } { now apply fin_format. }
  rewrite <- VS in E4. set (S := rv (b64_add a (b64_mul d (b64_sub b a)))) in *.
  assert (Rabs (S - (rv a + P)) <= 2 * u * m) as E4'.
  { eapply Rle_trans; [exact E4|]. assert (u * Rabs (rv a + P) <= u * ((1 + 5 * u) * m)) by (apply Rmult_le_compat_l; lra).
    fold u. nra. }
  apply Rabs_2 in E4'. apply Rabs_le. lra.
Qed.

Lemma th_facts a b k : fin a -> fin b -> 1 <= rv a <= 1048576 -> 1 <= rv b <= 1048576 -> (k < 20)%nat ->
  fin (fth a b k) /\ Rabs (rv (fth a b k) - (rv a + sh k * (rv b - rv a))) <= 8 * u * (rv a + rv b).
Proof.
  intros Fa Fb Ha Hb K. destruct (delta_facts k K) as (Fd & Hd & Ed).
  assert (0 <= sh k <= 1) as Hs.
  { clear - K. unfold sh. apply le_INR in K. rewrite S_INR in *. pose proof (pos_INR k). simpl INR in K. lra. }
  exact (th_gen a b (dlt k) (sh k) Fa Fb Ha Hb Fd Hd Ed Hs).
Qed.

Opaque fdeltas dlt.

(** ** The profile *)

Definition hitb (a b : b64) (k : nat) (p : fpoint) : bool := b64_le (fth a b k) (fp_T p).

Lemma loop_gl a b : forall ps k, (k <= 20)%nat ->
  f_sample_loop a (b64_sub b a) (skipn k fdeltas) ps = gl (hitb a b) frow_of 20 k ps.
Proof.
  induction ps as [|p ps IH]; intros k K; [reflexivity|]. cbn [f_sample_loop gl].
  destruct (Nat.leb_spec 20 k) as [L|L].
  - rewrite skipn_all2 by (rewrite deltas_length; lia). reflexivity.
  - assert (skipn k fdeltas = dlt k :: skipn (S k) fdeltas) as E.
    { change (dlt k) with (nth k fdeltas fzero). pose proof deltas_length as DL. revert DL. generalize fdeltas. clear - L. intros l DL.
      assert (k < length l)%nat as H by lia. clear L DL. revert l H.
      induction k as [|k IH]; intros [|x l] H; simpl in H; try lia; [reflexivity|].
      change (skipn (S k) (x :: l)) with (skipn k l). rewrite IH by lia. reflexivity. }
    rewrite E. change (b64_le (b64_add a (b64_mul (dlt k) (b64_sub b a))) (fp_T p)) with (hitb a b k p).
    destruct (hitb a b k p).
    + now rewrite IH by lia.
    + rewrite <- E. apply IH. lia.
Qed.

Lemma temp_range p : b64_finite (fp_T p) /\ (1 <= temp p <= 1048576)%Q -> fin (fp_T p) /\ 1 <= rv (fp_T p) <= 1048576.
Proof.
  intros (F & H1 & H2). split; auto. apply Qle_Rle in H1. apply Qle_Rle in H2. unfold temp in *.
  replace (Q2R 1) with 1 in H1 by (unfold Q2R; simpl; lra).
  replace (Q2R 1048576) with 1048576 in H2 by (unfold Q2R; simpl; lra). unfold rv in *. lra.
Qed.

Section Profile.
  Variables (ps : list fpoint) (p0 : fpoint) (rest : list fpoint).
  Hypothesis E : ps = p0 :: rest.
  Hypothesis O : ordinary ps.
  Let a := fp_T p0.
  Let b := fp_T (last ps p0).
  Let e : Q := ((2 # 1) ^ (-50) * (temp p0 + temp (last ps p0)))%Q.

  Lemma in_last : In (last ps p0) ps.
  Proof. apply (nth_error_In ps (length ps - 1)). apply last_nth. rewrite E. discriminate. Qed.

  Lemma a_ok : fin a /\ 1 <= rv a <= 1048576.
  Proof. apply temp_range. apply O. rewrite E. simpl; auto. Qed.
  Lemma b_ok : fin b /\ 1 <= rv b <= 1048576.
  Proof. apply temp_range. apply O. apply in_last. Qed.

  Lemma e_R : Q2R e = 8 * u * (rv a + rv b).
  Proof.
    unfold e. rewrite Q2R_mult, Q2R_plus, Q2R_pow2. unfold temp. fold a b. fold (rv a). fold (rv b).
    f_equal. rewrite u_val. simpl. lra.
  Qed.

  Lemma share_R k : Q2R (share (temp p0) (temp (last ps p0)) k) = rv a + sh k * (rv b - rv a).
  Proof. unfold share. rewrite Q2R_plus, Q2R_mult, Q2R_minus, sh_Q. reflexivity. Qed.

  Lemma hit_iff k p : (k < 20)%nat -> In p ps -> (hitb a b k p = true <-> rv (fth a b k) <= rv (fp_T p)).
  Proof.
    intros K Hp. unfold hitb. destruct a_ok, b_ok. apply le_iff.
    - now apply th_facts.
    - now apply O.
  Qed.

  Lemma hit_true k p : (k < 20)%nat -> In p ps -> hitb a b k p = true ->
    (share (temp p0) (temp (last ps p0)) k - e <= temp p)%Q.
  Proof.
    intros K Hp H. apply hit_iff in H; auto. destruct a_ok as [Fa Ha], b_ok as [Fb Hb].
    destruct (th_facts a b k Fa Fb Ha Hb K) as [_ T]. apply Rabs_2 in T.
    apply Rle_Qle. rewrite Q2R_minus, share_R, e_R. unfold temp. fold (rv (fp_T p)). lra.
  Qed.

  Lemma hit_false k p : (k < 20)%nat -> In p ps -> hitb a b k p = false ->
    (temp p < share (temp p0) (temp (last ps p0)) k + e)%Q.
  Proof.
    intros K Hp H. assert (~ rv (fth a b k) <= rv (fp_T p)) as N by (intros X; apply hit_iff in X; auto; congruence).
    destruct a_ok as [Fa Ha], b_ok as [Fb Hb].
    destruct (th_facts a b k Fa Fb Ha Hb K) as [_ T]. apply Rabs_2 in T.
    apply Rlt_Qlt. rewrite Q2R_plus, share_R, e_R. unfold temp. fold (rv (fp_T p)). lra.
  Qed.

  Lemma gchosen_f : forall is k from, (k + length is <= 20)%nat -> gchosen (hitb a b) ps k from is ->
    fchosen (temp p0) (temp (last ps p0)) e ps k from is.
  Proof.
    induction is as [|i is IH]; intros k from L C; [exact I|]. simpl in L, C. destruct C as (C1 & (p & N & H) & C2 & C3).
    simpl. split; auto. split; [|split].
    - exists p. split; auto. apply hit_true; [lia|eapply nth_error_In; eauto|auto].
    - intros j q J NQ. apply hit_false; [lia|eapply nth_error_In; eauto|eauto].
    - apply IH; auto. lia.
  Qed.

  Variable rows : list (list b64).
  Hypothesis R : f_sample_profile ps = Ok rows.

  Lemma profile_gl : exists is, gchosen (hitb a b) ps 0 0 is /\ length rows = 20%nat /\ (length is <= 20)%nat /\
    (forall k i, nth_error is k = Some i -> exists p, nth_error ps i = Some p /\ nth_error rows k = Some (frow_of p)) /\
    (forall k, (length is <= k < 20)%nat -> nth_error rows k = Some (zero_row p0)) /\
    ((length is < 20)%nat -> forall j p, (behind is <= j)%nat -> nth_error ps j = Some p -> hitb a b (length is) p = false).
  Proof.
    destruct (gl_spec (hitb a b) frow_of 20 ps ps 0 0 eq_refl) as (is & A1 & A2 & A3 & A4 & A5); [lia|].
    assert (rows = gl (hitb a b) frow_of 20 0 ps ++ repeat (zero_row p0) (20 - length (gl (hitb a b) frow_of 20 0 ps)))%list as RE.
    { pose proof (loop_gl a b ps 0 ltac:(lia)) as LG. change (skipn 0 fdeltas) with fdeltas in LG.
      unfold a, b in LG.
      assert (f_sample_profile ps = Ok ((f_sample_loop (fp_T p0) (b64_sub (fp_T (last ps p0)) (fp_T p0)) fdeltas ps ++
          repeat (zero_row p0) (length fdeltas - length (f_sample_loop (fp_T p0) (b64_sub (fp_T (last ps p0)) (fp_T p0)) fdeltas ps)))%list)) as R'.
      { unfold f_sample_profile, zero_row. destruct ps as [|p1 l]; [discriminate|]. injection E as -> _. reflexivity. }
      rewrite R, deltas_length, LG in R'. injection R' as R'. exact R'. }
    exists is. simpl in A4. split; auto. remember (gl (hitb a b) frow_of 20 0 ps) as rs eqn:ERS. rewrite RE.
    split; [rewrite app_length, repeat_length; lia|]. split; [lia|]. split; [|split].
    - intros k i N. generalize (repeat (zero_row p0) (20 - length rs)). intros tl.
      clear - A1 N. revert k N. induction A1 as [|i' r is rws (p & P1 & P2) A1 IH]; intros [|k] N; simpl in *; try discriminate.
      + injection N as <-. exists p. subst. auto.
      + apply IH. auto.
    - intros k K. rewrite nth_error_app2 by lia. apply nth_error_repeat. lia.
    - intros L j p J N. apply (A5 L j p J N).
  Qed.

  Lemma profile_accurate : exists is, length rows = 20%nat /\ (length is <= 20)%nat /\
    fchosen (temp p0) (temp (last ps p0)) e ps 0 0 is /\
    (forall k i, nth_error is k = Some i -> exists p, nth_error ps i = Some p /\ nth_error rows k = Some (frow_of p)) /\
    (forall k, (length is <= k < 20)%nat -> nth_error rows k = Some (zero_row p0)) /\
    ((length is < 20)%nat -> forall j p, (behind is <= j)%nat -> nth_error ps j = Some p ->
       (temp p < share (temp p0) (temp (last ps p0)) (length is) + e)%Q).
  Proof.
    destruct profile_gl as (is & C & L & L2 & RW & Z & ST). exists is. split; [exact L|]. split; [exact L2|].
    split; [apply gchosen_f; [lia|exact C]|]. split; [exact RW|]. split; [exact Z|].
    intros L20 j p J N. apply hit_false; [exact L20|exact (nth_error_In _ _ N)|exact (ST L20 j p J N)].
  Qed.

  Lemma th_last : fth a b 19 = b64_add a (b64_mul fone (b64_sub b a)).
  Proof. unfold fth. rewrite delta_last. reflexivity. Qed.

  Lemma mul_one x : fin x -> Rabs (rv x) <= big -> fin (b64_mul fone x) /\ rv (b64_mul fone x) = rv x.
  Proof.
    intros F H. destruct (fin_mul fone x fone_fin F) as [A B]; [now rewrite fone_rv, Rmult_1_l|].
    split; auto. rewrite B, fone_rv, Rmult_1_l. apply rnd_id. now apply fin_format.
  Qed.

  Lemma diff_ok : fin (b64_sub b a) /\ rv (b64_sub b a) = rnd (rv b - rv a) /\ Rabs (rv (b64_sub b a)) <= big.
  Proof.
    destruct a_ok as [Fa Ha], b_ok as [Fb Hb]. destruct (fin_sub b a Fb Fa) as [F V].
    - apply Rle_trans with 2097152; [apply Rabs_le; lra|apply bpow_big; lra].
    - split; auto. split; auto. rewrite V. apply Rle_trans with (bpow radix2 30); [|apply bpow_le; lia].
      apply rnd_abs_bound; [lia|]. apply Rabs_le. simpl. lra.
  Qed.

  Lemma th_last_R : rv (fth a b 19) = rnd (rv a + rnd (rv b - rv a)).
  Proof.
    rewrite th_last. destruct diff_ok as (F & V & B). destruct (mul_one _ F B) as [F1 V1].
    destruct a_ok as [Fa Ha], b_ok as [Fb Hb].
    destruct (fin_add a (b64_mul fone (b64_sub b a)) Fa F1) as [F2 V2].
    - rewrite V1, V. apply Rle_trans with (bpow radix2 31); [|apply bpow_le; lia].
      assert (Rabs (rnd (rv b - rv a)) <= bpow radix2 30) as X by (apply rnd_abs_bound; [lia|]; apply Rabs_le; simpl; lra).
      apply Rabs_2 in X. apply Rabs_le. simpl in *. lra.
    - now rewrite V2, V1, V.
  Qed.

  (** The last row stays zero when the sum of first temperature and rise is
      rounded above the last, highest temperature. *)
  Lemma last_row_lost : rv b < rnd (rv a + rnd (rv b - rv a)) -> (forall p, In p ps -> rv (fp_T p) <= rv b) ->
    nth_error rows 19 = Some (zero_row p0).
  Proof.
    intros H M. destruct profile_gl as (is & C & L & L2 & RW & Z & ST). destruct (Nat.eq_dec (length is) 20) as [L20|N20].
    - exfalso. assert (exists i p, nth_error ps i = Some p /\ hitb a b 19 p = true) as (i & p & N & Hp).
      { apply (gchosen_nth (hitb a b) ps is 0 0 19 C). lia. }
      apply hit_iff in Hp; [|lia|eapply nth_error_In; eauto]. rewrite th_last_R in Hp.
      apply nth_error_In in N. apply M in N. lra.
    - apply Z. lia.
  Qed.

  Lemma gentle_fills : gentle ps p0 -> rnd (rv a + rnd (rv b - rv a)) <= rv b ->
    forall k, (k < 20)%nat -> exists i p, nth_error ps i = Some p /\ nth_error rows k = Some (frow_of p).
  Proof.
    intros [G1 G2] H k K. destruct profile_gl as (is & C & L & L2 & RW & Z & ST).
    destruct a_ok as [Fa Ha], b_ok as [Fb Hb]. pose proof u_pos as UP. pose proof u_small as US.
    assert (rv a + 1 <= rv b) as Hab.
    { apply Qle_Rle in G1. rewrite Q2R_plus in G1. unfold temp in G1. fold a in G1. fold b in G1. fold (rv a) in G1. fold (rv b) in G1.
      replace (Q2R 1) with 1 in G1 by (unfold Q2R; simpl; lra). unfold rv in *. lra. }
    assert (16 * u * (rv a + rv b) < (rv b - rv a) / 420) as SM.
    { assert (u * (rv a + rv b) <= / 1000000000000000 * 2097152) by (apply Rmult_le_compat; lra). lra. }
    set (gap := (rv b - rv a) / 20 - 16 * u * (rv a + rv b)).
    assert (forall j p q, nth_error ps j = Some p -> nth_error ps (S j) = Some q -> rv (fp_T q) - rv (fp_T p) < gap) as ST2.
    { intros j p q N1 N2. pose proof (G2 j p q N1 N2) as X. apply Qle_Rle in X. rewrite Q2R_mult, !Q2R_minus in X.
      unfold temp in X. fold a in X. fold b in X. fold (rv a) in X. fold (rv b) in X. fold (rv (fp_T p)) in X. fold (rv (fp_T q)) in X.
      replace (Q2R (1 # 21)) with (/ 21) in X by (unfold Q2R; simpl; lra). unfold gap. lra. }
    assert (forall i, sh (S i) = sh i + / 20) as SHS by (intros i; unfold sh; rewrite !S_INR; lra).
    assert (forall i, (S i < 20)%nat -> rv (fth a b i) + gap <= rv (fth a b (S i))) as GP.
    { intros i Hi. destruct (th_facts a b i Fa Fb Ha Hb ltac:(lia)) as [_ T1]. destruct (th_facts a b (S i) Fa Fb Ha Hb Hi) as [_ T2].
      apply Rabs_2 in T1. apply Rabs_2 in T2. rewrite SHS in T2. unfold gap. lra. }
    destruct (le_lt_dec 20 (length is)) as [L20|L20].
    { destruct (nth_error is k) as [i|] eqn:N; [|apply nth_error_None in N; lia]. destruct (RW k i N) as (p & P1 & P2). eauto. }
    exfalso.
    assert (nth_error ps (length ps - 1) = Some (last ps p0)) as NL by (apply last_nth; rewrite E; discriminate).
    assert (rv (fth a b (length is)) <= rv b) as DN.
    { destruct (Nat.eq_dec (length is) 19) as [->|N19]; [rewrite th_last_R; exact H|].
      destruct (th_facts a b (length is) Fa Fb Ha Hb L20) as [_ T]. apply Rabs_2 in T.
      assert (sh (length is) <= 19 / 20).
      { unfold sh. assert (S (length is) <= 19)%nat as X by lia. apply le_INR in X. simpl (INR 19) in X. lra. }
      assert (sh (length is) * (rv b - rv a) <= 19 / 20 * (rv b - rv a)) by (apply Rmult_le_compat_r; lra). lra. }
    assert (nth_error ps 0 = Some p0) as N0 by (rewrite E; reflexivity).
    pose proof (gchosen_below (hitb a b) 20 (fun p => rv (fp_T p)) (fun i => rv (fth a b i)) gap ps
                  (fun i p Hi Hp => hit_iff i p Hi Hp) ST2 GP is 0 0 C L20) as CB. simpl in CB.
    assert (forall p, nth_error ps 0 = Some p -> rv (fp_T p) < rv (fth a b 0)) as B0.
    { intros p Np. rewrite N0 in Np. injection Np as <-. fold a. destruct (th_facts a b 0 Fa Fb Ha Hb ltac:(lia)) as [_ T].
      apply Rabs_2 in T. unfold sh in T. simpl INR in T. lra. }
    specialize (CB B0).
    assert (0 < length ps)%nat as LP by (rewrite E; simpl; lia).
    destruct (le_lt_dec (behind is) (length ps - 1)) as [BL|BL].
    - specialize (ST L20 _ _ BL NL). assert (hitb a b (length is) (last ps p0) = true) as X; [|congruence].
      apply hit_iff; auto. apply in_last.
    - unfold behind in BL. destruct (rev is) as [|i l] eqn:ER; [lia|].
      assert (nth_error ps i = Some (last ps p0)) as NI.
      { assert (In i is) as Ii by (apply in_rev; rewrite ER; simpl; auto). apply In_nth_error in Ii. destruct Ii as [k' Nk].
        destruct (RW _ _ Nk) as (p & Np & _). assert (i < length ps)%nat by (apply nth_error_Some; congruence).
        replace i with (length ps - 1)%nat by lia. exact NL. }
      specialize (CB _ NI). fold b in CB. lra.
  Qed.
End Profile.

(** ** When the rise adds up again *)

Lemma sub_exact_add x y : generic_format radix2 fx y -> generic_format radix2 fx (y - x) -> rnd (x + rnd (y - x)) = y.
Proof. intros Fy F. rewrite (rnd_id (y - x)) by auto. replace (x + (y - x)) with y by ring. now apply rnd_id. Qed.

Lemma close_temps x y : fin x -> fin y -> 0 <= rv x -> rv x <= rv y <= 2 * rv x -> rnd (rv x + rnd (rv y - rv x)) = rv y.
Proof.
  intros Fx Fy P H. apply sub_exact_add; [now apply fin_format|].
  apply sterbenz; [apply FLT_exp_valid; reflexivity|apply FLT_exp_monotone|now apply fin_format|now apply fin_format|lra].
Qed.

Lemma whole_temp x y z : fin x -> fin y -> rv x = IZR z -> 0 <= rv x -> rv x <= rv y <= 1048576 -> rnd (rv x + rnd (rv y - rv x)) = rv y.
Proof.
  intros Fx Fy Hz P H. apply sub_exact_add; [now apply fin_format|].
  assert (generic_format radix2 fx (rv y)) as G by now apply fin_format.
  apply FLT_format_generic in G; auto with typeclass_instances. destruct G as [[m e] E Hm He]. simpl in Hm, He.
  assert (0 <= m)%Z as Pm. { apply (ge_0_F2R radix2 m e). rewrite <- E. lra. }
  unfold F2R in E. simpl in E. destruct (Z.le_gt_cases 0 e) as [Pe|Ne].
  - assert (IZR m * bpow radix2 e = IZR (m * 2 ^ e)) as EI by now rewrite mult_IZR, (IZR_Zpower radix2).
    rewrite E, Hz, EI, <- minus_IZR. rewrite <- (Rmult_1_r (IZR _)). apply (multiple_format _ 0); [|lia].
    rewrite Hz, E, EI in H. destruct H as [H1 H2]. apply le_IZR in H1. apply le_IZR in H2.
    assert (0 <= z)%Z by (apply le_IZR; lra). lia.
  - rewrite E, Hz.
    replace (IZR m * bpow radix2 e - IZR z) with (IZR (m - z * 2 ^ (- e)) * bpow radix2 e).
    + apply multiple_format; [|lia]. split.
      * apply le_IZR. apply Rmult_le_reg_r with (bpow radix2 e); [apply bpow_gt_0|]. 
        rewrite minus_IZR, mult_IZR, (IZR_Zpower radix2) by lia. rewrite Rmult_0_l, Rmult_minus_distr_r, Rmult_assoc, <- bpow_plus.
        replace (- e + e)%Z with 0%Z by lia. simpl (bpow radix2 0). lra.
      * assert (0 <= z)%Z by (apply le_IZR; lra). assert (0 <= 2 ^ (- e))%Z by (apply Z.pow_nonneg; lia). nia.
    + rewrite minus_IZR, mult_IZR, (IZR_Zpower radix2) by lia. rewrite Rmult_minus_distr_r, Rmult_assoc, <- bpow_plus.
      replace (- e + e)%Z with 0%Z by lia. simpl (bpow radix2 0). ring.
Qed.

(** ** Statements about whole samples *)

Lemma sum_again a b : fin a -> fin b -> 1 <= rv a <= 1048576 -> 1 <= rv b <= 1048576 ->
  fin (b64_add a (b64_sub b a)) /\ rv (b64_add a (b64_sub b a)) = rnd (rv a + rnd (rv b - rv a)).
Proof.
  intros Fa Fb Ha Hb. destruct (fin_sub b a Fb Fa) as [F V].
  - apply Rle_trans with 2097152; [apply Rabs_le; lra|apply bpow_big; lra].
  - rewrite <- V. apply fin_add; auto. rewrite V. apply Rle_trans with (bpow radix2 31); [|apply bpow_le; lia].
    assert (Rabs (rnd (rv b - rv a)) <= bpow radix2 30) as X by (apply rnd_abs_bound; [lia|]; apply Rabs_le; simpl; lra).
    apply Rabs_2 in X. apply Rabs_le. simpl in *. lra.
Qed.

Lemma sampled_accurate ps p0 rest rows : ps = p0 :: rest -> ordinary ps -> f_sample_profile ps = Ok rows ->
  let e := ((2 # 1) ^ (-50) * (temp p0 + temp (last ps p0)))%Q in
  exists is, length rows = 20%nat /\ (length is <= 20)%nat /\
    fchosen (temp p0) (temp (last ps p0)) e ps 0 0 is /\
    (forall k i, nth_error is k = Some i -> exists p, nth_error ps i = Some p /\ nth_error rows k = Some (frow_of p)) /\
    (forall k, (length is <= k < 20)%nat -> nth_error rows k = Some (zero_row p0)) /\
    ((length is < 20)%nat -> forall j p, (behind is <= j)%nat -> nth_error ps j = Some p ->
       (temp p < share (temp p0) (temp (last ps p0)) (length is) + e)%Q).
Proof. intros E O R. exact (profile_accurate ps p0 rest E O rows R). Qed.

Lemma lost_top ps p0 rest rows : ps = p0 :: rest -> ordinary ps -> f_sample_profile ps = Ok rows ->
  (forall p, In p ps -> (temp p <= temp (last ps p0))%Q) ->
  b64_lt (fp_T (last ps p0)) (b64_add (fp_T p0) (b64_sub (fp_T (last ps p0)) (fp_T p0))) = true ->
  nth_error rows 19 = Some (zero_row p0).
Proof.
  intros E O R M H. destruct (a_ok ps p0 rest E O) as [Fa Ha]. destruct (b_ok ps p0 rest E O) as [Fb Hb].
  destruct (sum_again _ _ Fa Fb Ha Hb) as [F V]. apply lt_iff in H; auto. rewrite V in H.
  apply (last_row_lost ps p0 rest E O rows R H). intros p Hp. apply Qle_Rle, M. exact Hp.
Qed.

Lemma filled_top ps p0 rest rows : ps = p0 :: rest -> ordinary ps -> f_sample_profile ps = Ok rows -> gentle ps p0 ->
  b64_lt (fp_T (last ps p0)) (b64_add (fp_T p0) (b64_sub (fp_T (last ps p0)) (fp_T p0))) = false ->
  forall k, (k < 20)%nat -> exists i p, nth_error ps i = Some p /\ nth_error rows k = Some (frow_of p).
Proof.
  intros E O R G H. destruct (a_ok ps p0 rest E O) as [Fa Ha]. destruct (b_ok ps p0 rest E O) as [Fb Hb].
  destruct (sum_again _ _ Fa Fb Ha Hb) as [F V]. apply lt_false in H; auto. rewrite V in H.
  exact (gentle_fills ps p0 rest E O rows R G H).
Qed.

Lemma adds_up_top ps p0 rest : ps = p0 :: rest -> ordinary ps -> (temp p0 <= temp (last ps p0))%Q ->
  (temp (last ps p0) <= 2 * temp p0)%Q \/ (exists z, temp p0 == inject_Z z)%Q ->
  b64_lt (fp_T (last ps p0)) (b64_add (fp_T p0) (b64_sub (fp_T (last ps p0)) (fp_T p0))) = false.
Proof.
  intros E O Le C. destruct (a_ok ps p0 rest E O) as [Fa Ha]. destruct (b_ok ps p0 rest E O) as [Fb Hb].
  destruct (sum_again _ _ Fa Fb Ha Hb) as [F V]. apply lt_false; auto. rewrite V. apply Qle_Rle in Le.
  destruct C as [C|[z C]].
  - apply Qle_Rle in C. rewrite Q2R_mult in C. replace (Q2R 2) with 2 in C by (unfold Q2R; simpl; lra).
    rewrite close_temps; auto; try lra; unfold rv, temp in *; lra.
  - apply Qeq_eqR in C. assert (rv (fp_T p0) = IZR z) as Z.
    { unfold rv, temp in *. rewrite C. unfold Q2R. simpl. lra. }
    rewrite (whole_temp _ _ z); auto; try lra; unfold rv, temp in *; lra.
Qed.
