(** The samples meet the hypotheses. *)
From Coq Require Import String List ZArith QArith Qabs Bool Arith Lia.
From Verif.Base Require Import Py Num B64.
From Verif.Model Require Import FloatDrivers FloatMatrix FloatSampling.
From Verif.Spec Require Import FloatMatrixSpec FloatSamples FloatSamplingSpec FloatProfiles.
From Verif.Proofs Require Import FloatSampleFacts.
Import ListNotations.
Local Open Scope Q_scope.

Lemma sized_pos x m : sized x m -> b64_val x <= m.
Proof. intros [_ H]. eapply Qle_trans; [apply Qle_Qabs|exact H]. Qed.

Lemma ordinaryb_ok ps : ordinaryb ps = true -> ordinary ps.
Proof.
  unfold ordinaryb. rewrite forallb_forall. intros H p Hp. specialize (H p Hp). unfold tempb in H.
  apply andb_true_iff in H. destruct H as [H1 H2]. apply sizedb_ok in H1. apply Qle_bool_iff in H2.
  split; [apply H1|]. split; [exact H2|]. exact (sized_pos _ _ H1).
Qed.

Lemma gentleb_ok ps p0 : gentleb ps p0 = true -> gentle ps p0.
Proof.
  unfold gentleb, gentle. generalize ((1 # 21) * (temp (last ps p0) - temp p0)). intros r H.
  apply andb_true_iff in H. destruct H as [H1 H2]. split; [now apply Qle_bool_iff|]. clear H1.
  induction ps as [|x ps IH]; intros j p q A B; [destruct j; discriminate|].
  destruct ps as [|y ps]; [destruct j as [|[|j]]; discriminate|]. cbn [stepsb] in H2. apply andb_true_iff in H2.
  destruct H2 as [H2 H3]. destruct j as [|j].
  - injection A as <-. injection B as <-. now apply Qle_bool_iff.
  - exact (IH H3 j p q A B).
Qed.

Lemma highestb_ok ps p0 : highestb ps p0 = true -> forall p, In p ps -> temp p <= temp (last ps p0).
Proof. unfold highestb. rewrite forallb_forall. intros H p Hp. now apply Qle_bool_iff, H. Qed.

Lemma metricb_ok x : metricb x = true -> metric x.
Proof.
  unfold metricb. rewrite andb_true_iff. intros [H1 H2]. apply sizedb_ok in H1. apply Qle_bool_iff in H2.
  split; [apply H1|]. split; [exact H2|]. exact (sized_pos _ _ H1).
Qed.

Lemma flame_298_15_ok :
  exists p0 rest rows, flame_298_15 = p0 :: rest /\ ordinary flame_298_15 /\ gentle flame_298_15 p0 /\
    (forall p, In p flame_298_15 -> temp p <= temp (last flame_298_15 p0)) /\
    fp_T p0 = b64_of_frac 29815 100 /\ fp_T (last flame_298_15 p0) = b64_of_frac 19002 10 /\
    b64_lt (fp_T (last flame_298_15 p0)) (b64_add (fp_T p0) (b64_sub (fp_T (last flame_298_15 p0)) (fp_T p0))) = true /\
    f_sample_profile flame_298_15 = Ok rows.
Proof.
  exists (hd (mkFPoint fzero fzero nil) flame_298_15), (tl flame_298_15).
  exists (match f_sample_profile flame_298_15 with Ok r => r | _ => nil end).
  split; [vm_compute; reflexivity|]. split; [apply ordinaryb_ok; vm_compute; reflexivity|].
  split; [apply gentleb_ok; vm_compute; reflexivity|]. split; [apply highestb_ok; vm_compute; reflexivity|].
  split; [vm_compute; reflexivity|]. split; [vm_compute; reflexivity|]. split; [vm_compute; reflexivity|].
  vm_compute. reflexivity.
Qed.

Lemma flame_298_ok :
  exists p0 rest rows, flame_298 = p0 :: rest /\ ordinary flame_298 /\ gentle flame_298 p0 /\
    f_sample_profile flame_298 = Ok rows /\ temp p0 == inject_Z 298 /\ 2 * temp p0 < temp (last flame_298 p0).
Proof.
  exists (hd (mkFPoint fzero fzero nil) flame_298), (tl flame_298).
  exists (match f_sample_profile flame_298 with Ok r => r | _ => nil end).
  split; [vm_compute; reflexivity|]. split; [apply ordinaryb_ok; vm_compute; reflexivity|].
  split; [apply gentleb_ok; vm_compute; reflexivity|]. split; [vm_compute; reflexivity|]. split; vm_compute; reflexivity.
Qed.

Lemma ignition_ok :
  exists p0 rest rows, ignition_1000_3 = p0 :: rest /\ ordinary ignition_1000_3 /\ gentle ignition_1000_3 p0 /\
    f_sample_profile ignition_1000_3 = Ok rows /\ temp (last ignition_1000_3 p0) <= 2 * temp p0.
Proof.
  exists (hd (mkFPoint fzero fzero nil) ignition_1000_3), (tl ignition_1000_3).
  exists (match f_sample_profile ignition_1000_3 with Ok r => r | _ => nil end).
  split; [vm_compute; reflexivity|]. split; [apply ordinaryb_ok; vm_compute; reflexivity|].
  split; [apply gentleb_ok; vm_compute; reflexivity|]. split; [vm_compute; reflexivity|]. vm_compute. discriminate.
Qed.

Lemma delays_metric : forall x, In x delays \/ In x delays_near -> metric x.
Proof.
  assert (forallb metricb (delays ++ delays_near) = true) as H by (vm_compute; reflexivity).
  rewrite forallb_forall in H. intros x Hx. apply metricb_ok, H, in_or_app. exact Hx.
Qed.
