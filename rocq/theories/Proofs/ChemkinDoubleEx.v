(** Examples for the export with doubles. *)
From Coq Require Import String Ascii List Bool Arith ZArith QArith Qabs Qpower Lqa Lia.
From Coq Require Import Floats.SpecFloat.
From Verif.Base Require Import Py Num XNum Paths Text B64.
From Verif.Model Require Import Chem Compare Chemkin FloatDrivers SaveText ChemkinDouble.
From Verif.Spec Require Import FloatMatrixSpec TextSpec ChemkinSpec CardSpec ExportSpec CompareSpec CompareDoubleSpec ChemkinDoubleSpec
  CompareSamples CompareDoubleSamples ExportSamples ChemkinDoubleSamples.
From Verif.Proofs Require Import ChemkinFacts ExportMain ExportEx.
Import ListNotations.
Local Open Scope string_scope.

Lemma nearest_power_good : good_power nearest_power.
Proof.
  intros k z E H. unfold nearest_power. rewrite (thousand_Z _ k z E).
  assert (z = -15 \/ z = -14 \/ z = -13 \/ z = -12 \/ z = -11 \/ z = -10 \/ z = -9 \/ z = -8 \/ z = -7 \/ z = -6 \/ z = -5 \/ z = -4 \/
          z = -3 \/ z = -2 \/ z = -1 \/ z = 0 \/ z = 1 \/ z = 2 \/ z = 3 \/ z = 4 \/ z = 5 \/ z = 6 \/ z = 7 \/ z = 8 \/ z = 9 \/ z = 10 \/
          z = 11 \/ z = 12 \/ z = 13 \/ z = 14 \/ z = 15)%Z as D by lia.
  repeat destruct D as [->|D]; try subst z; (split; [vm_compute; auto|apply Qle_bool_iff; vm_compute; reflexivity]).
Qed.

Definition moderateb (x : xnum) : bool :=
  match x with
  | Fin q => match b64_of_Q false q with S754_zero _ => true | S754_finite s m e => bounded 53 1024 m e | _ => false end &&
             Qeq_bool (b64_val (b64_of_Q false q)) q &&
             (Qeq_bool q 0 || (Qle_bool ((2 # 1) ^ (-800)) (Qabs q) && Qle_bool (Qabs q) ((2 # 1) ^ 800)))
  | _ => true
  end.
Lemma moderateb_ok x : moderateb x = true -> moderate_number x.
Proof.
  destruct x as [q| | |]; try (intros _; exact I). unfold moderateb. intros H. apply andb_prop in H. destruct H as [H R].
  apply andb_prop in H. destruct H as [F E]. split.
  - exists (b64_of_Q false q). split; [|apply Qeq_bool_iff, E]. destruct (b64_of_Q false q); try discriminate; exact I || exact F.
  - apply orb_prop in R. destruct R as [R|R]; [left; apply Qeq_bool_iff, R|right]. apply andb_prop in R. destruct R as [L U].
    split; apply Qle_bool_iff; assumption.
Qed.
Lemma moderate_all l : forallb moderateb l = true -> forall x, In x l -> moderate_number x.
Proof. intros H x I. rewrite forallb_forall in H. apply moderateb_ok, H, I. Qed.

Lemma even_arr_fin A : finite_arr (even_arr A).
Proof. repeat split; fin. Qed.
Lemma even_h2_o_usable A : usable_reaction (even_h2_o A).
Proof. split; [equation|split; [|effs]]. eapply (x_arrhenius _ 2); [left; reflexivity|reflexivity|reflexivity|apply even_arr_fin]. Qed.
Lemma even_h_h_m_usable : usable_reaction even_h_h_m.
Proof. split; [equation|split; [|effs]]. eapply (x_arrhenius _ 2); [right; reflexivity|reflexivity|reflexivity|apply even_arr_fin]. Qed.
Lemma even_h_oh_usable : usable_reaction even_h_oh.
Proof.
  split; [equation|split; [|effs]]. eapply (x_falloff _ 2); [left; exists "Troe"; reflexivity|reflexivity|reflexivity|reflexivity|apply even_arr_fin|apply even_arr_fin|].
  eexists. split; [reflexivity|]. split; [repeat constructor; fin|]. right. left. split; reflexivity.
Qed.
Lemma even_activated_usable : usable_reaction even_activated.
Proof.
  split; [equation|split; [|effs]]. eapply (x_falloff _ 2); [right; exists "-Lindemann"; reflexivity|reflexivity|reflexivity|reflexivity|apply even_arr_fin|apply even_arr_fin|].
  exists []. split; [reflexivity|]. split; [constructor|]. left. reflexivity.
Qed.
Lemma even_oh_usable : usable_reaction even_oh.
Proof.
  split; [equation|split; [|effs]]. eapply (x_plog _ 1); [reflexivity|reflexivity|reflexivity|discriminate|].
  repeat constructor; cbn [snd]; fin.
Qed.
Lemma even_chebyshev_usable : usable_reaction even_chebyshev.
Proof.
  split; [equation|split; [|effs]]. eapply (x_chebyshev _ _ _ _ _ _ 2); [reflexivity|reflexivity|reflexivity|reflexivity| |discriminate|].
  - cbn. intros row [<-|[<-|[]]]; reflexivity.
  - repeat constructor; fin.
Qed.
Lemma even_kinds_usable : usable_model even_kinds.
Proof.
  constructor.
  - cbn. auto.
  - apply names_ok. reflexivity.
  - apply names_ok. reflexivity.
  - repeat (constructor; [first [apply even_h2_o_usable|apply even_h_h_m_usable|apply even_h_oh_usable|apply even_activated_usable|apply even_oh_usable|apply even_chebyshev_usable]|]). constructor.
Qed.

Lemma order_unique r n m : order r n -> order r m -> n = m.
Proof. unfold order. intros A B. rewrite A in B. unfold Qeq in B. simpl in B. lia. Qed.
Lemma even_kinds_double : double_rates even_kinds.
Proof.
  intros r I. cbn [so_reactions even_kinds with_reactions In] in I.
  repeat destruct I as [<-|I]; try contradiction;
    (split; [apply moderate_all; vm_compute; reflexivity|]; intros n O;
     first [assert (n = 2)%Z by (eapply order_unique; [exact O|reflexivity])|assert (n = 1)%Z by (eapply order_unique; [exact O|reflexivity])]; lia).
Qed.

Lemma double_export_case : prints show /\ good_power nearest_power /\ directory "out" /\ stem "gas" /\ usable_model even_kinds /\ double_rates even_kinds.
Proof.
  split; [exact show_prints|]. split; [exact nearest_power_good|]. split; [exact dir_out|]. split; [exact stem_gas|]. split; [exact even_kinds_usable|exact even_kinds_double].
Qed.

Lemma even_hydrogen_fits : Forall (fits_by roomy) (so_species even_hydrogen).
Proof.
  constructor; [|constructor]; (split; [apply tokenb; reflexivity|]); eexists _, _, _, _, _, _; (split; [eexists; repeat split; reflexivity|]);
    unfold roomy; repeat match goal with |- _ /\ _ => split end; vm_compute; discriminate.
Qed.
Lemma even_hydrogen_double : double_transport even_hydrogen.
Proof.
  intros x t a v [<-|[]] T D. injection T as <-. apply moderateb_ok. cbn [dget] in D.
  repeat (match type of D with context [String.eqb a ?k] => destruct (String.eqb a k) end; [first [discriminate D|injection D as <-; vm_compute; reflexivity]|]).
  discriminate D.
Qed.
Lemma double_transport_case : directory "out" /\ stem "gas" /\ Forall writable (so_reactions even_hydrogen) /\
  Forall (fun x => cs_coeffs x <> nil) (so_species even_hydrogen) /\ Forall (fits_by roomy) (so_species even_hydrogen) /\ double_transport even_hydrogen.
Proof.
  split; [exact dir_out|]. split; [exact stem_gas|]. split; [constructor; [apply usable_writable, even_h_h_m_usable|constructor]|].
  split; [repeat constructor; discriminate|]. split; [exact even_hydrogen_fits|exact even_hydrogen_double].
Qed.

Lemma digits_refuted : exists s t1 r1 t2 r2 e1 e2,
  usable_model s /\ double_rates s /\
  fst (write show (double_arith nearest_power) s "gas.inp" "" true true) = ("gas.inp", t1) :: r1 /\
  fst (write show no_rounding s "gas.inp" "" true true) = ("gas.inp", t2) :: r2 /\
  read_reactions t1 = Some [e1] /\ read_reactions t2 = Some [e2] /\
  Forall2 Qeq (e_rate e1) [10070 # 10; 0; 0] /\ Forall2 Qeq (e_rate e2) [10071 # 10; 0; 0].
Proof.
  exists edge_gas. eexists _, _, _, _, _, _. split; [|split; [|split; [vm_compute; reflexivity|split; [vm_compute; reflexivity|split; [vm_compute; reflexivity|split; [vm_compute; reflexivity|]]]]]].
  - constructor; [cbn; auto|apply names_ok; reflexivity|apply names_ok; reflexivity|].
    constructor; [|constructor]. split; [equation|split; [|effs]]. eapply (x_arrhenius _ 2); [left; reflexivity|reflexivity|reflexivity|repeat split; fin].
  - intros r [<-|[]]. split; [apply moderate_all; vm_compute; reflexivity|]. intros n O.
    assert (n = 2)%Z by (eapply order_unique; [exact O|reflexivity]). lia.
  - split; repeat constructor; vm_compute; reflexivity.
Qed.
