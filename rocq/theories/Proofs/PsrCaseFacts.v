(** Objects for stirred reactors: what they answer, and what the answers mean. *)
From Coq Require Import String List QArith Qabs Bool Arith Lia Lqa.
From Verif.Base Require Import Py Num XNum.
From Verif.Model Require Import Mech Simulation Psr PsrCase.
From Verif.Spec Require Import PsrSpec PsrCaseSpec.
From Verif.Proofs Require Import PsrMarch PsrTop PsrFinal PsrEx PsrNum.
Import ListNotations.

(** ** Answers *)

Lemma trace_from E c m :
  e_trace E m (e_set E m (e_inlet E c m)) = bind (curve_from_inlet E c m) (fun r => Ok (snd r)).
Proof. reflexivity. Qed.

(** What all objects of a case have in common. *)
Definition of_case (E : engine) (c : in_psr) (m : mech) (o : psr_obj) : Prop :=
  po_case o = c /\ po_mech o = m /\ po_inlet o = e_inlet E c m.

Lemma setup_of_case E c m o : obj_setup E c m = Ok o -> of_case E c m o.
Proof.
  unfold obj_setup. destruct (setup_gas (ps_mix c) m); simpl; try discriminate.
  intros H. injection H as <-. repeat split.
Qed.

Lemma detect_of E c m o : of_case E c m o ->
  let '(r, o') := obj_detect E o in
  of_case E c m o' /\
  match curve_from_inlet E c m with
  | Ok (_, k) => r = Ok (Some k) /\ po_result o' = Some k
  | Raise CanteraError | Raise RuntimeError => r = Ok None
  | Raise e => r = Raise e
  | NoFuel => r = NoFuel
  end.
Proof.
  intros (C & M & I). unfold obj_detect. cbn [set_gas po_mech po_gas po_inlet].
  rewrite M, I, trace_from.
  destruct (curve_from_inlet E c m) as [[b k]|[]|]; cbn [bind snd]; unfold of_case; cbn; auto.
Qed.

Section Any.
Context {CA : calc}.

Lemma call_of E c m k o : of_case E c m o ->
  let '(r, o') := obj_call E k o in
  of_case E c m o' /\ answers E c m k r /\
  (forall l d, r = Ok (l, d) -> po_metrics o' = Some l /\ forall x, d = Some x -> po_data o' = Some x).
Proof.
  intros H. pose proof (detect_of E c m o H) as D.
  destruct k as [| |skip]; cbn [obj_call]; unfold obj_process, obj_run_case, obj_calculate;
    destruct (obj_detect E o) as [r o'];
    destruct (curve_from_inlet E c m) as [[b k]|e|] eqn:T.
  all: destruct D as (O & D).
  all: try (destruct D as (-> & P)).
  all: assert (forall X, set_metrics o' X = set_metrics o' X) as _ by reflexivity.
  all: pose proof O as (O1 & O2 & O3).
  all: try (assert (has_curve E c m k) as HC by (exists b; exact T)).
  all: try (subst r; split; [exact O|]; split; [apply ans_fuel; exact T|discriminate]).
  1,3: split; [exact O|]; split; [apply (ans_metrics E c m _ k HC); discriminate|];
       intros l d X; injection X as <- <-; split; [reflexivity|discriminate].
  3: { cbn [set_metrics po_result po_case]. destruct skip.
       - split; [exact O|]. split; [apply (ans_metrics E c m _ k HC); discriminate|].
         intros l d X. injection X as <- <-. split; [reflexivity|discriminate].
       - rewrite P, O1. split; [exact O|]. split; [apply (ans_samples E c m k HC)|].
         intros l d X. injection X as <- <-. split; [reflexivity|]. intros x Y. injection Y as <-. reflexivity. }
  all: destruct e; subst r; cbn [only_metrics bind].
  all: try (split; [exact O|]; split;
            [apply ans_other; [exact T|discriminate|discriminate]|discriminate]).
  all: assert (no_curve E c m) as NC by (unfold no_curve; tauto).
  all: try (split; [exact O|]; split; [apply ans_none; [exact NC|discriminate]|discriminate]).
  all: split; [exact O|]; split; [apply ans_zero; exact NC|];
       intros l d X; injection X as <- <-; split; [reflexivity|discriminate].
Qed.

Lemma calls_of E c m ks : forall o, of_case E c m o ->
  let '(rs, o') := obj_calls E ks o in of_case E c m o' /\ Forall2 (answers E c m) ks rs.
Proof.
  induction ks as [|k ks IH]; intros o H; cbn [obj_calls]; [split; [exact H|constructor]|].
  pose proof (call_of E c m k o H) as C. destruct (obj_call E k o) as [r o1]. destruct C as (O & A & _).
  specialize (IH o1 O). destruct (obj_calls E ks o1) as [rs o2]. destruct IH. split; auto.
Qed.

Lemma calls_repeat E c m o ks rs o' :
  obj_setup E c m = Ok o -> obj_calls E ks o = (rs, o') -> Forall2 (answers E c m) ks rs.
Proof.
  intros S H. pose proof (calls_of E c m ks o (setup_of_case _ _ _ _ S)) as X. rewrite H in X. apply X.
Qed.

Lemma calls_app E ks k : forall o,
  obj_calls E (ks ++ [k]) o =
  let (rs, o1) := obj_calls E ks o in let (r, o2) := obj_call E k o1 in (rs ++ [r], o2).
Proof.
  induction ks as [|k0 ks IH]; intros o; cbn [obj_calls app].
  - destruct (obj_call E k o). reflexivity.
  - destruct (obj_call E k0 o) as [r0 o0]. rewrite IH. destruct (obj_calls E ks o0) as [rs o1].
    destruct (obj_call E k o1) as [r o2]. reflexivity.
Qed.

Lemma attributes E c m o ks k rs l d o' :
  obj_setup E c m = Ok o -> obj_calls E (ks ++ [k]) o = (rs ++ [Ok (l, d)], o') ->
  po_metrics o' = Some l /\ forall x, d = Some x -> po_data o' = Some x.
Proof.
  intros S H. rewrite calls_app in H. pose proof (calls_of E c m ks o (setup_of_case _ _ _ _ S)) as X.
  destruct (obj_calls E ks o) as [rs1 o1]. destruct X as (O & _).
  pose proof (call_of E c m k o1 O) as Y. destruct (obj_call E k o1) as [r o2]. destruct Y as (_ & _ & Y).
  injection H as H1 <-. apply app_inj_tail in H1. destruct H1 as (_ & ->). apply (Y l d eq_refl).
Qed.

End Any.

(** ** What the rest of the model uses *)

Lemma as_condition E Ph c m :
  psr_cond (with_engine E Ph) c m = bind (obj_setup E c m) (fun o => fst (obj_calculate E o)).
Proof.
  unfold psr_cond, obj_setup. destruct (setup_gas (ps_mix c) m) as [[]| |]; cbn [bind]; try reflexivity.
  unfold obj_calculate, obj_detect, psr_calculate, psr_detect. cbn.
  destruct (e_trace E m (e_set E m (e_inlet E c m))) as [k|[]|]; reflexivity.
Qed.

Lemma as_sample E Ph c m o : obj_setup E c m = Ok o ->
  fst (obj_process (A := ph_calc Ph) E false o) =
  bind (psr_process (A := ph_calc Ph) (ps_P c) (ph_psr (with_engine E Ph) c m)) (fun x => Ok (fst x, Some (snd x))).
Proof.
  unfold obj_setup. destruct (setup_gas (ps_mix c) m) as [[]| |]; cbn [bind]; try discriminate.
  intros H. injection H as <-. unfold obj_process, obj_run_case, obj_detect, psr_process, psr_detect. cbn.
  destruct (e_trace E m (e_set E m (e_inlet E c m))) as [k|[]|]; reflexivity.
Qed.

(** ** The meaning of the metrics *)

Lemma default_ok : sensible default_args.
Proof. exact default_sensible. Qed.

Lemma curve_points E c m k : works E -> has_curve E c m k ->
  (exists tau, pp_tau (pc_ext k) = Fin tau /\ 0 < tau <= 1 # 2)%Q /\
  steady (at_inlet E c m) (1 # 10000000) (pc_ext k) /\
  steady (at_inlet E c m) (1 # 10000000) (pc_mid k) /\
  steady (at_inlet E c m) (1 # 10000000) (pc_near k).
Proof.
  intros (NM & GS) (branch & H). unfold curve_from_inlet in H. destruct (GS m (e_set E m (e_inlet E c m))) as (GC & _).
  fold (at_inlet E c m) in GC.
  pose proof (steady_final _ _ _ _ _ _ NM _ _ _ _ GC default_ok H) as (_ & S1 & S2 & S3).
  split; [|auto].
  destruct NM as (A1 & A2 & A3 & A4 & A5 & A6).
  destruct (length_final _ _ _ _ _ _ (conj A1 (conj A2 (conj A3 (conj A4 (conj A5 A6))))) _ _ _ _ GC default_ok H)
    as (_ & _ & r & R).
  destruct (extinction_final _ _ _ _ _ _ (conj A1 (conj A2 (conj A3 (conj A4 (conj A5 A6))))) _ _ _ _ GC default_ok eq_refl H)
    as (front & tm & tl & i & B & _ & _ & (L & FS) & OB & _).
  assert (nth i (map fst branch) NaN = pp_tau (pc_ext k)) as N.
  { unfold on_branch in OB. rewrite (nth_error_nth (map fst branch) i (x := pp_tau (pc_ext k)) NaN); [reflexivity|].
    rewrite nth_error_map, OB. reflexivity. }
  destruct (trace_inv (e_norm E) (e_exp E) (e_log E) (e_sqrt E) (e_solve E) (e_root E) (at_inlet E c m) default_args) with (branch := branch) (c := k)
    as (st & i' & j & k' & rest & lst & RS & BR & _ & K & _); auto.
  - exact default_ok.
  - rewrite BR, map_fst_combine in N, L, R, FS by apply (r_temps _ _ _ _ RS).
    pose proof (r_pos _ _ _ _ RS) as POS. rewrite Forall_forall in POS.
    destruct (POS (nth i (m_taus st) NaN)) as (t & ET & PT); [apply nth_In; exact L|].
    rewrite N in ET. exists t. split; [exact ET|]. split; [exact PT|].
    specialize (FS 1%nat). rewrite N, R in FS. cbn [nth length] in FS.
    destruct FS as (FS & _); [lia|]. rewrite ET in FS. apply xle_fin in FS. exact FS.
Qed.


Lemma metrics_means {CA : calc} E c m o k l d : works E -> obj_setup E c m = Ok o ->
  fst (obj_call E k o) = Ok (l, d) ->
  (no_curve E c m /\ k = CallCalculate /\ l = [Fin 0; Fin 0; Fin 0] /\ d = None) \/
  exists tau T2 T3 p1 p2 p3, l = [Fin tau; Fin T2; Fin T3] /\ (0 < tau <= 1 # 2)%Q /\ (0 < T2)%Q /\ (0 < T3)%Q /\
    pp_tau p1 = Fin tau /\ pp_T p2 = Fin T2 /\ pp_T p3 = Fin T3 /\
    Forall (steady (at_inlet E c m) (1 # 10000000)) [p1; p2; p3] /\
    Forall (fun p => length (pp_Y p) = n_species m) [p1; p2; p3] /\
    ((k <> CallProcess false /\ d = None) \/
     (k = CallProcess false /\ d = Some [row_of c p1; row_of c p2; row_of c p3])).
Proof.
  intros W S H. pose proof (call_of E c m k o (setup_of_case _ _ _ _ S)) as X.
  destruct (obj_call E k o) as [r o']. destruct X as (_ & A & _). cbn [fst] in H. subst r.
  assert (forall q, has_curve E c m q ->
    exists tau T2 T3, three q = [Fin tau; Fin T2; Fin T3] /\ (0 < tau <= 1 # 2)%Q /\ (0 < T2)%Q /\ (0 < T3)%Q /\
      pp_tau (pc_ext q) = Fin tau /\ pp_T (pc_mid q) = Fin T2 /\ pp_T (pc_near q) = Fin T3 /\
      Forall (steady (at_inlet E c m) (1 # 10000000)) [pc_ext q; pc_mid q; pc_near q] /\
      Forall (fun p => length (pp_Y p) = n_species m) [pc_ext q; pc_mid q; pc_near q]) as P.
  { intros q C. destruct (curve_points E c m q W C) as ((tau & ET & BT) & S1 & S2 & S3).
    pose proof S2 as ((T2 & E2 & P2) & _). pose proof S3 as ((T3 & E3 & P3) & _).
    destruct W as (_ & GS). destruct (GS m (e_set E m (e_inlet E c m))) as (_ & GN). fold (at_inlet E c m) in GN.
    exists tau, T2, T3. unfold three. rewrite ET, E2, E3.
    split; [reflexivity|]. split; [exact BT|]. do 2 (split; [assumption|]). do 3 (split; [reflexivity|]).
    split; [constructor; [exact S1|constructor; [exact S2|constructor; [exact S3|constructor]]]|].
    destruct S1 as (_ & L1 & _), S2 as (_ & L2 & _), S3 as (_ & L3 & _).
    constructor; [congruence|constructor; [congruence|constructor; [congruence|constructor]]]. }
  inversion A as [call q C N|q C|C|?|?|?]; subst.
  - right. destruct (P q C) as (tau & T2 & T3 & Q). exists tau, T2, T3, (pc_ext q), (pc_mid q), (pc_near q). tauto.
  - right. destruct (P q C) as (tau & T2 & T3 & Q). exists tau, T2, T3, (pc_ext q), (pc_mid q), (pc_near q).
    repeat (split; [tauto|]). right. auto.
  - left. auto.
Qed.

Lemma zero_iff E c m o l : works E -> obj_setup E c m = Ok o -> fst (obj_calculate E o) = Ok l ->
  ((exists x, In x l /\ xeq x (Fin 0) = true) <-> no_curve E c m).
Proof.
  intros W S H.
  assert (fst (obj_call E CallCalculate o) = Ok (l, None)) as C.
  { cbn [obj_call]. destruct (obj_calculate E o) as [r o']. cbn [fst] in *. subst r. reflexivity. }
  split.
  - destruct (metrics_means E c m o CallCalculate l None W S C) as [(N & _)|X]; [tauto|].
    destruct X as (tau & T2 & T3 & p1 & p2 & p3 & -> & B1 & B2 & B3 & _).
    intros (x & [<-|[<-|[<-|[]]]] & Z); apply xeq_fin in Z; lra.
  - intros N. pose proof (call_of E c m CallCalculate o (setup_of_case _ _ _ _ S)) as X.
    destruct (obj_call E CallCalculate o) as [r o']. destruct X as (_ & A & _). cbn [fst] in C. subst r.
    inversion A as [call q (b & Q) NN|q Q|_|?|?|?]; subst.
    + destruct N as [N|N]; rewrite N in Q; discriminate.
    + exists (Fin 0). split; [left; reflexivity|reflexivity].
Qed.
