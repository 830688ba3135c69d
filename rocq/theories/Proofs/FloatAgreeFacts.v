(** Drivers in doubles return the documented model when the coefficients stay
    off the thresholds. *)
From Coq Require Import String List ZArith QArith Qabs Bool Arith Lia Lqa.
From Verif.Base Require Import Py Num XNum Paths B64.
From Verif.Model Require Import Mech Matrices Graph World Metrics Drivers FloatDrivers FloatMatrix FloatPfa FloatRun.
From Verif.Spec Require Import TrimSpec GraphSpec DriverSpec FloatSpec FloatMatrixSpec FloatRunSpec FloatAgreeSpec.
From Verif.Proofs Require Import PyFacts NumFacts TrimFacts StepFacts LoopFacts RunFacts LoopForward DriverFacts
     FloatFacts FloatDriverFacts FloatThrFacts FloatTop FloatRunFacts FloatRunMain FloatRunExact FloatClimb.
Import ListNotations.
Local Open Scope string_scope.

Section Agree.
  Variables (me : method) (J : job) (smp : fsampler) (w : world) (sol : mech).
  Variables (sampled : list xnum) (rops : list (list b64)) (w1 : world) (limit : xnum).
  Hypothesis ST : fstarted J smp w sol sampled rops w1.
  Hypothesis TA : tame J sol rops.
  Hypothesis FA : fair J sol sampled limit.
  Variable n : nat.
  Hypothesis ME : measured me n sol rops.

  Notation FK := (fkept me J sol rops).
  Notation XK := (xkept me J sol rops).
  Notation names := (species_names sol).
  Notation e := (coefficient_bound me (n_species sol) n).
  Notation K := (vkept me J sol rops).

  Lemma kept_off t q d s : In s names -> (Qabs (b64_val t - q) + e <= d)%Q -> (d < q)%Q ->
    (forall v, xcoefficient me J sol rops v -> (d < Qabs (v - q))%Q) -> FK t s <-> XK q s.
  Proof.
    intros Hs Hd Hq NC. pose proof (gbound_nn me sol rops n ME) as E0.
    assert (- (d - e) <= b64_val t - q <= d - e)%Q as T by (apply Qabs_Qle_condition; lra).
    assert (forall a b, (q - d <= a)%Q -> (a <= b)%Q -> (b <= q + d)%Q -> (XK a s <-> XK b s)) as B.
    { intros a b H1 H2 H3. apply (xkept_between me J sol rops n ME); auto. intros v Hv Lv. specialize (NC v Hv).
      destruct (Qlt_le_dec v b) as [Lb|]; auto. exfalso.
      assert (Qabs (v - q) <= d)%Q as X by (apply Qabs_Qle_condition; split; lra). lra. }
    split; intros X.
    - apply (float_then_exact me J smp w sol sampled rops w1 ST TA n ME t s Hs) in X; [|lra].
      apply (B (q - d) q)%Q; try lra. eapply (xkept_antitone me J sol rops n ME); [|exact X]. lra.
    - apply (exact_then_float me J smp w sol sampled rops w1 ST TA n ME t s Hs); [lra|].
      apply (xkept_antitone me J sol rops n ME _ (q + d)%Q); [lra|]. apply (B q (q + d))%Q; lra || auto.
  Qed.

  Lemma times_positive k i : (i < 5)%nat -> (0 < times (S k) (start_at i))%Q.
  Proof.
    intros H. unfold times. apply Qmult_lt_0_compat; [|apply start_positive, H].
    change 0%Q with (inject_Z 0). rewrite <- Zlt_Qlt. lia.
  Qed.

  Lemma whole_nn k : (0 <= inject_Z (Z.of_nat k))%Q.
  Proof. change 0%Q with (inject_Z 0). rewrite <- Zle_Qle. lia. Qed.

  (** The sum of the threshold, and the result of the step back. *)
  Lemma climb_off i k : (i < 5)%nat -> (Z.of_nat k < 2 ^ 31)%Z ->
    (Qabs (climb_v i k - times (S k) (start_at i)) + e <= off_by k (times (S k) (start_at i)) e)%Q.
  Proof.
    intros Hi Hk. pose proof (climb_near i k Hi Hk) as C. pose proof (times_positive k i Hi) as P.
    set (q := times (S k) (start_at i)) in *. unfold off_by.
    assert (inject_Z (Z.of_nat (k + 11)) == inject_Z (Z.of_nat (k + 2)) + 9)%Q as E.
    { replace (k + 11)%nat with ((k + 2) + 9)%nat by lia. rewrite Nat2Z.inj_add, inject_Z_plus. reflexivity. }
    rewrite E. assert (0 <= (2 # 1) ^ (-52) * q)%Q as X by (apply Qmult_le_0_compat; [vm_compute; discriminate|lra]).
    lra.
  Qed.

  Lemma small_margin k : (Z.of_nat k < 2 ^ 31)%Z -> (inject_Z (Z.of_nat (k + 2)) * (2 # 1) ^ (-52) <= 1 # 8)%Q.
  Proof.
    intros H. assert (inject_Z (Z.of_nat (k + 2)) <= inject_Z (2 ^ 32))%Q as L by (rewrite <- Zle_Qle; lia).
    apply Qle_trans with (inject_Z (2 ^ 32) * (2 # 1) ^ (-52))%Q.
    - apply Qmult_le_compat_r; [exact L|vm_compute; discriminate].
    - vm_compute. discriminate.
  Qed.

  Lemma back_off i k t : (i < 5)%nat -> (Z.of_nat k < 2 ^ 31)%Z ->
    (climb_v i k - (2 # 1) ^ (-49) * climb_v i k <= b64_val t <= climb_v i k + (2 # 1) ^ (-49) * climb_v i k)%Q ->
    (Qabs (b64_val t - times (S k) (start_at i)) + e <= off_by k (times (S k) (start_at i)) e)%Q.
  Proof.
    intros Hi Hk R. pose proof (climb_near i k Hi Hk) as C. pose proof (times_positive k i Hi) as P.
    pose proof (small_margin k Hk) as SM.
    set (q := times (S k) (start_at i)) in *. unfold off_by. set (v := climb_v i k) in *.
    assert (inject_Z (Z.of_nat (k + 11)) == inject_Z (Z.of_nat (k + 2)) + 9)%Q as E.
    { replace (k + 11)%nat with ((k + 2) + 9)%nat by lia. rewrite Nat2Z.inj_add, inject_Z_plus. reflexivity. }
    rewrite E. clear E. set (m := inject_Z (Z.of_nat (k + 2))) in *.
    assert (m * (2 # 1) ^ (-52) * q <= (1 # 8) * q)%Q as SQ by (apply Qmult_le_compat_r; [exact SM|lra]).
    apply Qabs_Qle_condition in C.
    assert ((2 # 1) ^ (-49) * v <= 9 * (2 # 1) ^ (-52) * q)%Q as V.
    { apply Qle_trans with ((2 # 1) ^ (-49) * ((9 # 8) * q))%Q.
      - apply Qmult_le_l; [reflexivity|lra].
      - rewrite Qmult_assoc. apply Qmult_le_compat_r; [vm_compute; discriminate|lra]. }
    assert (Qabs (b64_val t - q) <= (m + 9) * (2 # 1) ^ (-52) * q)%Q as X.
    { apply Qabs_Qle_condition. split; lra. }
    lra.
  Qed.

  Lemma climb_kept i k s : (i < 5)%nat -> (Z.of_nat k < 2 ^ 31)%Z -> stays_off me J sol rops n i k -> In s names ->
    FK (climb_f i k) s <-> XK (times (S k) (start_at i)) s.
  Proof. intros Hi Hk [D NC] Hs. eapply kept_off; eauto. now apply climb_off. Qed.

  Lemma pass_off i k : (i < 5)%nat -> (Z.of_nat k < 2 ^ 31)%Z -> stays_off me J sol rops n i k ->
    passes J sol sampled limit (XK (times (S k) (start_at i))) <-> passes J sol sampled limit (FK (climb_f i k)).
  Proof.
    intros Hi Hk O. split; intros (m & er & C & H); exists m, er; (split; [|exact H]); (eapply cut_to_ext; [|exact C]);
      intros s Hs; [symmetry|]; now apply climb_kept.
  Qed.
  Lemma exceed_off i k : (i < 5)%nat -> (Z.of_nat k < 2 ^ 31)%Z -> stays_off me J sol rops n i k ->
    exceeds J sol sampled limit (XK (times (S k) (start_at i))) <-> exceeds J sol sampled limit (FK (climb_f i k)).
  Proof.
    intros Hi Hk O. split; intros (m & er & C & H); exists m, er; (split; [|exact H]); (eapply cut_to_ext; [|exact C]);
      intros s Hs; [symmetry|]; now apply climb_kept.
  Qed.

  Lemma xkept_eq t t' : (t == t')%Q -> forall s, XK t s <-> XK t' s.
  Proof. intros E s. split; apply (xkept_antitone me J sol rops n ME); lra. Qed.
  Lemma xexceed_eq t t' : (t == t')%Q -> exceeds J sol sampled limit (XK t) -> exceeds J sol sampled limit (XK t').
  Proof.
    intros E (m & er & C & H). exists m, er. split; auto. eapply cut_to_ext; [|exact C]. intros s _. now apply xkept_eq.
  Qed.

  Lemma start_once i : (times 1 (start_at i) == start_at i)%Q.
  Proof. unfold times. change (inject_Z (Z.of_nat 1)) with 1%Q. ring. Qed.

  Lemma starts_five i : (i < starts_f me)%nat -> (i < 5)%nat.
  Proof. destruct me; simpl; lia. Qed.

  Lemma floor_open_f i : (S i < starts_f me)%nat -> floor_f me (start_f (S i)) = false.
  Proof.
    intros H. assert (starts_f me <= 5)%nat as L by (destruct me; simpl; lia).
    assert (i = 0 \/ i = 1 \/ i = 2 \/ i = 3)%nat as [-> | [-> | [-> | ->]]] by lia; destruct me; simpl in H; try lia; vm_compute; reflexivity.
  Qed.

  Lemma fdriver_documented fuel dfuel j k :
    rops <> nil -> fsearch_ends me dfuel J sol rops ->
    (j < starts_f me)%nat -> (Z.of_nat k < 2 ^ 31)%Z ->
    scanned J sol sampled limit XK j k ->
    (forall i, (i < j)%nat -> stays_off me J sol rops n i 0) ->
    (forall i, (i <= k)%nat -> stays_off me J sol rops n j i) ->
    (j + k + 1 <= fuel)%nat ->
    exists r w', frun me fuel dfuel J smp limit w = (Ok r, w') /\
      cut_to J sol (XK (times k (start_at j))) (r_model r) /\ xle (r_error r) limit = true.
  Proof.
    intros NE SE Hj Hk (S1 & S2 & S3 & S4) O1 O2 Lf.
    pose proof (starts_five j Hj) as H5.
    destruct k as [|k]; [lia|].
    destruct (S3 (S k)) as (mm & er & C & E & L); [lia|].
    destruct (frun_spec me dfuel J smp sol w sampled rops w1 ST TA SE) as (red & short & lb & R1 & R2 & R3 & R4 & R5 & R6 & O).
    destruct (R3 ltac:(unfold flimbo_ok; destruct me; auto)) as [l0 Hl]. destruct FA as [BL NN DE].
    destruct (run_forward floatA J sol sampled red K short lb limit R1 R2
      (fun t t' s => vkept_antitone me J sol rops t t' s) (fs_wf _ _ _ _ _ _ _ ST) (fs_apart _ _ _ _ _ _ _ ST)
      BL (fsol_nonempty J smp w sol sampled rops w1 ST) DE NN float_up l0 Hl (floor_f me) (by_last me) j (S k) mm er fuel w1)
      as (r & w2 & R & M1 & M2).
    - intros i Hi. split.
      + apply (exceed_vf me J sol sampled rops limit (start_f i)). apply (exceed_off i 0); [lia|lia|apply O1; auto|].
        eapply xexceed_eq; [symmetry; apply start_once|]. apply S1; auto.
      + apply floor_open_f. lia.
    - lia.
    - intros i Hi. apply (pass_vf me J sol sampled rops limit (climb_f j i)). apply pass_off; [auto|lia|apply O2; lia|].
      apply S3. lia.
    - apply (exceed_vf me J sol sampled rops limit (climb_f j (S k))). apply exceed_off; [auto|lia|apply O2; lia|]. exact S4.
    - change (cut_to J sol (K (b64_val (A_back floatA (climb_at floatA j (S (S k))) (sd floatA j)))) mm).
      apply (cut_vf me J sol rops). eapply cut_to_ext; [|exact C]. intros s Hs. symmetry.
      destruct (O2 k ltac:(lia)) as [D NC]. eapply kept_off; eauto. apply back_off; [auto|lia|]. exact (back_rel j k).
    - exact E.
    - exact Lf.
    - exact (fs_file1 _ _ _ _ _ _ _ ST).
    - specialize (O fuel limit). rewrite R in O. destruct O as (w' & O & _). exists r, w'. split; [exact O|].
      rewrite M1, M2. split; [exact C|exact L].
  Qed.

  Lemma fdriver_documented_exit fuel dfuel :
    (forall m, error_of (j_conds J) sampled m <> Raise SystemExit) -> rops <> nil -> fsearch_ends me dfuel J sol rops ->
    (starts_f me <= fuel)%nat ->
    (forall i, (i < starts_f me)%nat -> stays_off me J sol rops n i 0 /\ exceeds J sol sampled limit (XK (start_at i))) ->
    fst (frun me fuel dfuel J smp limit w) = Raise SystemExit.
  Proof.
    intros NX NE SE Lf H. apply (fdriver_exit me J smp w sol sampled rops w1 limit ST TA FA fuel dfuel NX NE SE Lf).
    intros i Hi. destruct (H i Hi) as [O X]. apply (exceed_off i 0); [now apply starts_five|lia|exact O|].
    eapply xexceed_eq; [symmetry; apply start_once|exact X].
  Qed.
End Agree.
