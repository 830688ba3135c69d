(** Reading saved metrics. *)
From Coq Require Import String List QArith ZArith Bool Arith Lia.
From Verif.Base Require Import Py Num XNum.
From Verif.Model Require Import Mech World Metrics Simulation Sampling.
From Verif.Spec Require Import DriverSpec SimSpec SamplingSpec ReadSpec.
From Verif.Proofs Require Import SamplingFacts SamplingMore SamplingEnd SamplingWhole SamplingTop.
Import ListNotations.

Lemma part_kept cs w out l : kept_for cs w out l -> read_part cs out w = (Ok l, w).
Proof.
  unfold kept_for, read_part. destruct cs; [now intros ->|]. intros E. unfold mbind, is_file. rewrite E.
  unfold read_nums, mbind, get_file. now rewrite E.
Qed.

Lemma read_kept cs w i p f : kept_for (c_ign cs) w output_ignition i -> kept_for (c_psr cs) w output_psr p ->
  kept_for (c_flame cs) w output_flame f -> read_metrics cs w = (Ok (i ++ p ++ f)%list, w).
Proof.
  intros I P F. unfold read_metrics, mbind. now rewrite (part_kept _ _ _ _ I), (part_kept _ _ _ _ P), (part_kept _ _ _ _ F).
Qed.

Lemma part_numbers cs w out : numbers w out ->
  (missing_for cs w out /\ read_part cs out w = (Raise SystemError, w)) \/
  (~ missing_for cs w out /\ exists l, kept_for cs w out l).
Proof.
  intros N. unfold missing_for. destruct cs as [|c cs]; [right; split; [tauto|exists nil; reflexivity]|].
  destruct N as [N|[l N]].
  - left. split; [split; [discriminate|auto]|]. unfold read_part, mbind, is_file. now rewrite N.
  - right. split; [intros [_ X]; congruence|]. exists l. exact N.
Qed.

Lemma read_missing cs w : numbers w output_ignition -> numbers w output_psr -> numbers w output_flame ->
  (read_metrics cs w = (Raise SystemError, w) <->
   missing_for (c_ign cs) w output_ignition \/ missing_for (c_psr cs) w output_psr \/ missing_for (c_flame cs) w output_flame).
Proof.
  intros N1 N2 N3. unfold read_metrics, mbind.
  destruct (part_numbers (c_ign cs) w _ N1) as [(M1 & E1)|(M1 & i & K1)].
  { rewrite E1. split; auto. }
  rewrite (part_kept _ _ _ _ K1). destruct (part_numbers (c_psr cs) w _ N2) as [(M2 & E2)|(M2 & p & K2)].
  { rewrite E2. split; auto. }
  rewrite (part_kept _ _ _ _ K2). destruct (part_numbers (c_flame cs) w _ N3) as [(M3 & E3)|(M3 & f & K3)].
  { rewrite E3. split; auto. }
  rewrite (part_kept _ _ _ _ K3). unfold mret. split; [discriminate|tauto].
Qed.

Lemma part_reuse cs model phase w out init n l : kept_for cs w out l -> length l = n ->
  metrics_part model phase cs out init n true w = (Ok l, w).
Proof.
  unfold kept_for, metrics_part. destruct cs; [now intros ->|]. intros E L. unfold mbind, is_file. rewrite E. cbn [andb].
  unfold read_nums, mbind, get_file. rewrite E. unfold mlift. cbn [bind text_array flat]. rewrite L, Nat.eqb_refl. reflexivity.
Qed.

Lemma read_reuse cs model phase w i p f : kept_for (c_ign cs) w output_ignition i -> kept_for (c_psr cs) w output_psr p ->
  kept_for (c_flame cs) w output_flame f ->
  length i = length (c_ign cs) -> length p = (3 * length (c_psr cs))%nat -> length f = length (c_flame cs) ->
  sample_metrics model phase cs true w = read_metrics cs w.
Proof.
  intros I P F LI LP LF. rewrite (read_kept _ _ _ _ _ I P F). unfold sample_metrics, mbind.
  now rewrite (part_reuse _ model phase _ _ _ _ _ I LI), (part_reuse _ model phase _ _ _ _ _ P LP),
    (part_reuse _ model phase _ _ _ _ _ F LF).
Qed.

(** Both after sampling. *)
Lemma part_after {A} (cs : list A) (ks : list cond) model phase n r d out m w x :
  length ks = length cs -> match cs with nil => x = (nil, nil) | _ => ready model phase n r d out m w x end ->
  n = (match cs with nil => 0 | _ => n end)%nat ->
  read_part ks out w = (Ok (fst x), w) /\
  forall model' phase' init, metrics_part model' phase' ks out init n true w = (Ok (fst x), w).
Proof.
  intros L R _. destruct cs as [|c cs], ks as [|k ks]; try discriminate.
  - subst x. split; reflexivity.
  - destruct R as (cd & co & _ & E & T & _ & N & _).
    assert (read_nums out w = (Ok (fst x), w)) as RN.
    { unfold read_nums, mbind, get_file. rewrite E. unfold mlift. now rewrite T. }
    split.
    + unfold read_part, mbind, is_file. now rewrite E, RN.
    + intros model' phase' init. unfold metrics_part, mbind, is_file. rewrite E. cbn [andb]. rewrite RN, N, Nat.eqb_refl. reflexivity.
Qed.

Lemma read_after torn fuel Ph floor model phase path C m w r w1 cs :
  model_apart path C model -> shaped Ph C m -> holds w model phase m ->
  exec (sample torn fuel Ph floor model phase path C) w = (Ok r, w1) ->
  length (c_ign cs) = length (ca_ign C) -> length (c_psr cs) = length (ca_psr C) -> length (c_flame cs) = length (ca_flame C) ->
  read_metrics cs w1 = (Ok (fst r), w1) /\
  forall model' phase', sample_metrics model' phase' cs true w1 = (Ok (fst r), w1).
Proof.
  intros AP SH H E L1 L2 L3.
  destruct (sample_ready torn fuel Ph floor model phase path C m AP SH w r w1 H E) as (i & p & f & -> & H1 & RI & RP & RF).
  destruct (part_after (ca_ign C) (c_ign cs) _ _ _ _ _ _ _ _ _ L1 RI) as (A1 & B1); [destruct (ca_ign C); reflexivity|].
  destruct (part_after (ca_psr C) (c_psr cs) _ _ _ _ _ _ _ _ _ L2 RP) as (A2 & B2); [destruct (ca_psr C); reflexivity|].
  destruct (part_after (ca_flame C) (c_flame cs) _ _ _ _ _ _ _ _ _ L3 RF) as (A3 & B3); [destruct (ca_flame C); reflexivity|].
  rewrite Nat.mul_1_l in B1, B3. split.
  - unfold read_metrics, mbind. now rewrite A1, A2, A3.
  - intros model' phase'. unfold sample_metrics, mbind. rewrite L1, L2, L3. now rewrite B1, B2, B3.
Qed.
