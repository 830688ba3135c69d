(** What the driver with doubles throughout, errors included, guarantees for
    the metrics of the returned model. *)
From Coq Require Import String List ZArith QArith Qabs Bool Arith Lia Lqa.
From Verif.Base Require Import Py Num XNum Paths B64.
From Verif.Model Require Import Mech Matrices Graph World Metrics Drivers FloatDrivers FloatMatrix FloatPfa FloatSampling FloatRun DoubleError.
From Verif.Spec Require Import TrimSpec GraphSpec MetricSpec DriverSpec DriverSamples FloatSpec FloatMatrixSpec FloatSamplingSpec
  FloatRunSpec FloatRunSamples DoubleErrorSpec DoubleErrorSamples.
From Verif.Proofs Require Import NumFacts MetricFacts FloatFacts FloatDriverFacts FloatRunMain FloatRunSampleFacts DoubleErrorFacts.
Import ListNotations.
Local Open Scope string_scope.
Local Open Scope Q_scope.

Lemma double_le_within os ts f l : os <> nil -> length ts = length os -> (forall x, In x os -> double_metric x) ->
  (forall x, In x ts -> double_metric x \/ failed_metric x) -> 0 <= l -> l <= 99 ->
  double_error os ts = Ok f -> xle f (Fin l) = true ->
  forall o t, In (o, t) (combine os ts) -> usable t /\ within (l * (1 + (2 # 1) ^ (-50))) o t.
Proof.
  intros N L DO T L0 L1 EF X. destruct (both_errors os ts N L DO T) as (e & g & C1 & C2 & P & D).
  rewrite C2 in EF. injection EF as <-. simpl in X. apply Qle_bool_iff in X.
  assert ((2 # 1) ^ (-51) == 1 # 2251799813685248) as X1 by (vm_compute; reflexivity).
  assert ((2 # 1) ^ (-50) == 1 # 1125899906842624) as X2 by (vm_compute; reflexivity).
  apply Qabs_Qle_condition in D. rewrite X1 in D.
  apply error_le_within with (Fin e); auto.
  - intros o Io. destruct (metric_of_x o (DO o Io)) as (q & -> & Pq & _). exists q. auto.
  - rewrite X2. lra.
  - simpl. apply Qle_bool_iff. rewrite X2. lra.
Qed.

Lemma double_close me J smp w sol sampled rops w1 l fuel dfuel r w' :
  fstarted J smp w sol sampled rops w1 -> tame J sol rops -> fair J sol sampled (Fin l) -> l <= 99 ->
  c_error (j_conds J) = double_error -> double_metrics J sampled ->
  frun me fuel dfuel J smp (Fin l) w = (Ok r, w') ->
  exists j n, (j < starts_f me)%nat /\
    (forall i, (i < j)%nat -> exceeds J sol sampled (Fin l) (fkept me J sol rops (start_f i))) /\
    (forall k, (k <= n)%nat -> passes J sol sampled (Fin l) (fkept me J sol rops (climb_f j k))) /\
    exceeds J sol sampled (Fin l) (fkept me J sol rops (climb_f j (S n))) /\
    (~ fclose_coefficient me J sol rops (climb_v j n) ->
     forall ts o t, metrics_of (j_conds J) (r_model r) = Ok ts -> In (o, t) (combine sampled ts) ->
       usable t /\ within (l * (1 + (2 # 1) ^ (-50))) o t).
Proof.
  intros ST TA FA L1 CE (N & DO & DT) E.
  destruct (fdriver_within me J smp w sol sampled rops w1 (Fin l) ST TA FA _ _ _ _ E) as (j & n & Hj & H1 & H2 & H3 & H4).
  exists j, n. split; auto. split; auto. split; auto. split; auto. intros NC ts o t EM Ic.
  destruct (H4 NC) as (X & _). destruct (DT _ _ EM) as (L & T).
  destruct (fdriver_file me J smp w sol sampled rops w1 (Fin l) ST TA _ _ _ _ E) as (_ & _ & _ & ER & _).
  unfold error_of in ER. rewrite EM, CE in ER. cbn [bind] in ER.
  eapply double_le_within; eauto. pose proof (fa_limit _ _ _ _ FA) as H0. simpl in H0. now apply Qle_bool_iff in H0.
Qed.

Lemma whole_metric q d : b64_finite d -> b64_val d == q -> (2 # 1) ^ (-400) <= b64_val d <= (2 # 1) ^ 400 ->
  double_metric (Fin q).
Proof. intros F V B. exists q, d. repeat split; auto; apply B. Qed.

Lemma two_metric : double_metric (Fin 2).
Proof.
  apply whole_metric with (b64_of_Z 2); [vm_compute; reflexivity|vm_compute; reflexivity|].
  split; apply Qle_bool_iff; vm_compute; reflexivity.
Qed.
Lemma three_metric : double_metric (Fin 3).
Proof.
  apply whole_metric with (b64_of_Z 3); [vm_compute; reflexivity|vm_compute; reflexivity|].
  split; apply Qle_bool_iff; vm_compute; reflexivity.
Qed.

Lemma fork_doubles : double_metrics (with_errors double_error fork_job) [Fin 2] /\ clear_of (with_errors double_error fork_job) [Fin 2] 10.
Proof.
  assert (forall m ts, metrics_of (j_conds (with_errors double_error fork_job)) m = Ok ts -> ts = [Fin 2] \/ ts = [Fin 3]) as X.
  { intros m ts. unfold metrics_of, fork_job, needs. simpl.
    destruct (str_in "B" (species_names m)); simpl; intros H; injection H as <-; auto. }
  split.
  - split; [discriminate|]. split; [intros x [<-|[]]; apply two_metric|].
    intros m ts H. apply X in H. destruct H as [-> | ->]; (split; [reflexivity|]); intros x [<-|[]]; left;
      [apply two_metric|apply three_metric].
  - intros m ts e H C. apply X in H. destruct H as [-> | ->]; vm_compute in C; injection C as <-; [left|right];
      vm_compute; try discriminate; reflexivity.
Qed.

Lemma fork_double_fair : fair (with_errors double_error fork_job) fork [Fin 2] (Fin 10).
Proof.
  destruct (fork_fair (Fin 10) eq_refl) as [B L _]. constructor; auto.
  exists (Fin (0 # 1)). split; vm_compute; reflexivity.
Qed.

Lemma near_63_metric : double_metric near_63.
Proof.
  apply whole_metric with (b64_of_frac 63 100); [vm_compute; reflexivity|reflexivity|].
  split; apply Qle_bool_iff; vm_compute; reflexivity.
Qed.

Lemma edge_doubles : forall E, double_metrics (with_errors E edge_job) [near_half].
Proof.
  intros E. assert (double_metric near_half) as H.
  { apply whole_metric with (b64_of_frac 1 2); [vm_compute; reflexivity|reflexivity|].
    split; apply Qle_bool_iff; vm_compute; reflexivity. }
  pose proof near_63_metric as H'.
  split; [discriminate|]. split; [intros x [<-|[]]; auto|].
  intros m ts. unfold metrics_of. cbn -[near_half near_63].  unfold edge_cond.
  destruct (str_in "C" (species_names m)); [destruct (str_in "B" (species_names m))|];
    cbn -[near_half near_63]; intros X; injection X as <-; (split; [reflexivity|]); intros x [<-|[]]; left; auto.
  apply three_metric.
Qed.
