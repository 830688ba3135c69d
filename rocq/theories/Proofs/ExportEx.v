(** Examples and refutations about the Chemkin export. *)
From Coq Require Import String Ascii List Bool Arith ZArith QArith Qabs Qpower Lqa Lia.
From Verif.Base Require Import Py Num XNum Paths Text.
From Verif.Model Require Import Chem Compare Chemkin.
From Verif.Spec Require Import TextSpec ChemkinSpec CardSpec ExportSpec CompareSamples ExportSamples.
From Verif.Proofs Require Import FormatFacts TextFacts WrapFacts ChemkinFacts CardFacts ExportFacts ExportMain.
Import ListNotations.
Local Open Scope string_scope.

Lemma show_prints : prints show.
Proof.
  intros q. unfold show. cbn [xsci xformat]. split; [apply sci_token|].
  destruct (read_sci 17 q) as [v [R D]]. exists v. split; [exact R|].
  unfold precise, to_digits in *. eapply Qle_trans; [exact D|]. rewrite (Qmult_comm (Qabs q) (1 # _)), (Qmult_comm (Qabs q)).
  apply Qmult_le_compat_r; [|apply Qabs_nonneg]. vm_compute. discriminate.
Qed.

(** Deciding the assumptions on names. *)
Fixpoint freeb (p : ascii -> bool) (s : string) : bool :=
  match s with EmptyString => true | String c t => negb (p c) && freeb p t end.
Lemma freeb_ok p s : freeb p s = true -> free p s.
Proof.
  induction s as [|c s IH]; cbn; [auto|]. intros H. apply andb_true_iff in H. destruct H as [H1 H2].
  apply negb_true_iff in H1. auto.
Qed.
Definition nameb (s : string) : bool :=
  negb (String.eqb s "") && freeb bad s && negb (existsb (String.eqb s) (section_keywords ++ data_keywords)).
Lemma nameb_ok s : nameb s = true -> usable_name s.
Proof.
  unfold nameb. intros H. apply andb_true_iff in H. destruct H as [H N]. apply andb_true_iff in H. destruct H as [E F].
  apply negb_true_iff in E, N. apply String.eqb_neq in E. split; [split; [exact E|apply freeb_ok, F]|].
  intros I. assert (X : existsb (String.eqb s) (section_keywords ++ data_keywords) = true) by (apply existsb_exists; exists s; split; [exact I|apply String.eqb_refl]).
  congruence.
Qed.
Lemma names_ok l : forallb nameb l = true -> Forall usable_name l.
Proof. intros H. rewrite forallb_forall in H. apply Forall_forall. intros x X. apply nameb_ok, H, X. Qed.
Lemma stem_gas : stem "gas".
Proof. split; [discriminate|]. split; cbn; auto 10. Qed.
Lemma dir_here : directory "".
Proof. intros t H. destruct t; discriminate. Qed.
Lemma dir_out : directory "out".
Proof. intros t H. destruct t as [|a [|b [|c [|d t]]]]; cbn in H; try discriminate; injection H; intros; subst; try discriminate. Qed.

Ltac fin := eexists; reflexivity.
Ltac equation := split; [cbn; auto 100|split; [cbn; auto 100|cbn; lia]].
Ltac effs := intros c H; cbn in H; first [discriminate | injection H as <-; repeat constructor; fin].
Lemma arr_fin A : finite_arr (plain_arr A).
Proof. repeat split; fin. Qed.

Lemma h2_o_usable A : usable_reaction (h2_o A).
Proof. split; [equation|split; [|effs]]. eapply (x_arrhenius _ 2); [left; reflexivity|reflexivity|reflexivity|apply arr_fin]. Qed.
Lemma h_h_m_usable : usable_reaction h_h_m.
Proof. split; [equation|split; [|effs]]. eapply (x_arrhenius _ 2); [right; reflexivity|reflexivity|reflexivity|apply arr_fin]. Qed.
Lemma h_oh_usable : usable_reaction (h_oh troe4).
Proof.
  split; [equation|split; [|effs]]. eapply (x_falloff _ 2); [left; exists "Troe"; reflexivity|reflexivity|reflexivity|reflexivity|apply arr_fin|apply arr_fin|].
  exists troe4. split; [reflexivity|]. split; [repeat constructor; fin|]. right. left. split; reflexivity.
Qed.
Lemma activated_usable : usable_reaction activated.
Proof.
  split; [equation|split; [|effs]]. eapply (x_falloff _ 2); [right; exists "-Lindemann"; reflexivity|reflexivity|reflexivity|reflexivity|apply arr_fin|apply arr_fin|].
  exists []. split; [reflexivity|]. split; [constructor|]. left. reflexivity.
Qed.
Lemma by_pressure_usable : usable_reaction by_pressure.
Proof.
  split; [equation|split; [|effs]]. eapply (x_plog _ 2); [reflexivity|reflexivity|reflexivity|discriminate|].
  repeat constructor; cbn [snd]; fin.
Qed.
Lemma by_chebyshev_usable : usable_reaction by_chebyshev.
Proof.
  split; [equation|split; [|effs]]. eapply (x_chebyshev _ _ _ _ _ _ 2); [reflexivity|reflexivity|reflexivity|reflexivity| |discriminate|].
  - cbn. intros row [<-|[<-|[]]]; reflexivity.
  - repeat constructor; fin.
Qed.
Lemma all_kinds_usable : usable_model all_kinds.
Proof.
  constructor.
  - cbn. auto.
  - apply names_ok. reflexivity.
  - apply names_ok. reflexivity.
  - repeat (constructor; [first [apply h2_o_usable|apply h_h_m_usable|apply h_oh_usable|apply activated_usable|apply by_pressure_usable|apply by_chebyshev_usable]|]). constructor.
Qed.
Lemma export_case : prints show /\ directory "out" /\ stem "gas" /\ usable_model all_kinds.
Proof. split; [exact show_prints|]. split; [exact dir_out|]. split; [exact stem_gas|exact all_kinds_usable]. Qed.

(** ** Thermodynamic data *)
Lemma temperature_ok n q : (0 <= q <= inject_Z (10 ^ n - 1))%Q -> temperature n (Fin q).
Proof. intros H. exists q. auto. Qed.
Lemma exponent_ok q : (Qeq_bool q 0 || (Qle_bool (Qpower 10 (-99)) (Qabs q) && negb (Qle_bool (Qpower 10 99) (Qabs q)))) = true -> two_digit_exponent (Fin q).
Proof.
  intros H. exists q. split; [reflexivity|]. apply orb_true_iff in H. destruct H as [H|H]; [left; apply Qeq_bool_iff, H|].
  right. apply andb_true_iff in H. destruct H as [H1 H2]. apply negb_true_iff in H2. split; [apply Qle_bool_iff, H1|].
  apply Qnot_le_lt. intros X. apply Qle_bool_iff in X. congruence.
Qed.
Lemma sp_fits n comp h t : token n -> (String.length n <= 18)%nat -> (length comp <= 4)%nat ->
  Forall (fun e => token (fst e) /\ (String.length (fst e) <= 2)%nat /\ exists z, (snd e == inject_Z z)%Q /\ (-99 <= z <= 999)%Z) comp ->
  fits_card (sp n comp h t).
Proof.
  intros T L C E. constructor; cbn [sp cs_name cs_comp cs_min cs_max cs_coeffs].
  - auto.
  - exact C.
  - exact E.
  - apply temperature_ok. split; vm_compute; discriminate.
  - apply temperature_ok. split; vm_compute; discriminate.
  - eexists _, _. split; [reflexivity|]. split; [reflexivity|]. split; [apply temperature_ok; split; vm_compute; discriminate|].
    cbn [map]. repeat (constructor; [apply exponent_ok; vm_compute; reflexivity|]). constructor.
Qed.
Lemma tokenb s : nameb s = true -> token s.
Proof. intros H. exact (proj1 (nameb_ok s H)). Qed.
Ltac card := apply sp_fits; [apply tokenb; reflexivity|cbn; lia|cbn; lia|];
  repeat (constructor; [cbn [fst snd]; split; [apply tokenb; reflexivity|split; [cbn; lia|]]|]); try constructor.
Lemma all_kinds_cards : Forall fits_card (so_species all_kinds).
Proof.
  repeat (constructor; [card|]); try constructor; try (exists 2%Z; split; [reflexivity|lia]); try (exists 1%Z; split; [reflexivity|lia]).
Qed.
Lemma usable_writable r : usable_reaction r -> writable r.
Proof.
  intros [_ [E _]]. destruct E as [n a T O R F|n lo hi T O L H _ _ [c [RC [_ B]]]|n l T O R N F|c t0 t1 p0 p1 cols T R HT HP _ _ _].
  - apply w_arrhenius; [exact T|congruence].
  - apply w_falloff; [exact T|congruence|congruence|]. exists c. split; [exact RC|]. destruct B as [B|[[B1 B2]|[B1 B2]]]; auto.
    + right. left. split; [exact B1|lia].
    + right. right. split; [exact B1|lia].
  - destruct l as [|e l]; [congruence|]. exact (w_plog r e l T R).
  - apply (w_chebyshev r c T R); [rewrite HT|rewrite HP]; cbn; lia.
Qed.
Lemma all_kinds_writable : Forall writable (so_reactions all_kinds).
Proof. eapply Forall_impl; [apply usable_writable|]. apply us_reactions, all_kinds_usable. Qed.

Lemma thermo_case : directory "out" /\ stem "gas" /\ Forall writable (so_reactions all_kinds) /\ Forall fits_card (so_species all_kinds).
Proof. split; [exact dir_out|]. split; [exact stem_gas|]. split; [exact all_kinds_writable|exact all_kinds_cards]. Qed.

(** ** Transport data *)
Lemma hydrogen_fits : Forall fits_transport (so_species hydrogen).
Proof.
  constructor; [|constructor; [|constructor]]; (split; [apply tokenb; reflexivity|]); eexists _, _, _, _, _, _; (split; [eexists; repeat split; reflexivity|]);
    unfold narrow; repeat match goal with |- _ /\ _ => split end; vm_compute; discriminate.
Qed.
Lemma hydrogen_writable : Forall writable (so_reactions hydrogen).
Proof. constructor; [apply usable_writable, h_h_m_usable|constructor]. Qed.
Lemma hydrogen_coeffs : Forall (fun x => cs_coeffs x <> nil) (so_species hydrogen).
Proof. repeat constructor; discriminate. Qed.
Lemma transport_case : directory "out" /\ stem "gas" /\ Forall writable (so_reactions hydrogen) /\
  Forall (fun x => cs_coeffs x <> nil) (so_species hydrogen) /\ Forall fits_transport (so_species hydrogen).
Proof. split; [exact dir_out|]. split; [exact stem_gas|]. split; [exact hydrogen_writable|]. split; [exact hydrogen_coeffs|exact hydrogen_fits]. Qed.

(** ** Files *)
Lemma success_case :
  snd (write show no_rounding hydrogen "gas.inp" "out" false false) = Ok ["out/gas.inp"; "out/gas_thermo.dat"; "out/gas_transport.dat"] /\
  snd (write show no_rounding all_kinds "gas.inp" "" true false) = Ok ["gas.inp"] /\
  snd (write show no_rounding (two_species h2_t h) "gas.inp" "" false false) = Ok ["gas.inp"; "gas_thermo.dat"] /\
  snd (write show no_rounding (two_species h2_t h2) "gas.inp" "" false false) = Ok ["gas.inp"; "gas_thermo.dat"; "gas_transport.dat"] /\
  snd (write show no_rounding with_surface "gas.inp" "" false false) = Raise NotImplementedErr /\
  snd (write show no_rounding with_troe3 "gas.inp" "" false false) = Raise IndexError.
Proof. repeat split; vm_compute; reflexivity. Qed.

Lemma surface_unknown : ~ known_type (cr_type surface).
Proof. intros [H|[[w H]|[w H]]]; [cbn in H; intuition discriminate|discriminate|discriminate]. Qed.
Lemma troe3_not_writable : ~ writable (h_oh troe3).
Proof. intros W. apply (writable_iff show no_rounding nil) in W. destruct W as [s W]. vm_compute in W. discriminate. Qed.
Lemma stops_case :
  directory "" /\ stem "gas" /\
  (so_reactions with_surface = [h2_o 38700] ++ surface :: [h_oh troe4])%list /\ Forall writable [h2_o 38700] /\ ~ writable surface /\ ~ known_type (cr_type surface) /\
  (so_reactions with_troe3 = [h2_o 38700] ++ h_oh troe3 :: [activated])%list /\ ~ writable (h_oh troe3) /\
  starts "falloff-" (cr_type (h_oh troe3)).
Proof.
  split; [exact dir_here|]. split; [exact stem_gas|]. split; [reflexivity|]. split; [constructor; [apply usable_writable, h2_o_usable|constructor]|].
  split; [apply (unknown_not_writable show no_rounding), surface_unknown|]. split; [exact surface_unknown|].
  split; [reflexivity|]. split; [exact troe3_not_writable|]. exists "Troe". reflexivity.
Qed.

(** ** Names *)
Lemma names_case :
  directory "" /\ stem "gas" /\ free is_newline (so_name (names_gas long_names)) /\ Forall usable_name (so_elements (names_gas long_names)) /\
  Forall usable_name (map cs_name (so_species (names_gas long_names))) /\
  section "SPECIES" (snd (hd ("", "") (fst (write show no_rounding (names_gas long_names) "gas.inp" "" true true)))) =
    ["CH2CHO  HCCOH  C3H8  N-C3H7  SINGLET-METHYLENE"; "A-VERY-LONG-SPECIES-NAME-OF-MORE-THAN-SIXTY-CHARACTERS-IN-ONE-WORD"; "CH2  AR"].
Proof.
  split; [exact dir_here|]. split; [exact stem_gas|]. split; [cbn; auto|]. split; [apply names_ok; reflexivity|].
  split; [apply names_ok; vm_compute; reflexivity|]. vm_compute. reflexivity.
Qed.

(** ** What the file does not hold *)
Lemma default_lost repr ar x s f d st sp :
  write repr ar (only_reactions (map (set_default x) (so_reactions s)) s) f d st sp = write repr ar s f d st sp.
Proof.
  assert (R : forall names l, write_each (reaction_text repr ar names) (map (set_default x) l) = write_each (reaction_text repr ar names) l).
  { intros names l. induction l as [|r l IH]; [reflexivity|]. cbn [map write_each]. rewrite IH.
    assert (E : reaction_text repr ar names (set_default x r) = reaction_text repr ar names r).
    { unfold reaction_text, main_line, auxiliary, order_of, plog_text, efficiencies_text. cbn [set_default cr_type cr_rate cr_reactants cr_equation cr_duplicate cr_third].
      destruct (cr_third r); reflexivity. }
    rewrite E. reflexivity. }
  assert (M : model_text repr ar (only_reactions (map (set_default x) (so_reactions s)) s) = model_text repr ar s).
  { unfold model_text. cbn [only_reactions so_reactions so_species]. rewrite R. reflexivity. }
  unfold write. rewrite M. reflexivity.
Qed.

(** An equation of 51 characters. *)
Definition long_equation : creaction :=
  mkCRx "C6H5CH2CH2OH + C6H5CHCH2 <=> C6H5CHCH3 + C6H5CHCHOH" "Arrhenius" [("C6H5CH2CH2OH", 1%Q); ("C6H5CHCH2", 1%Q)]
    [("C6H5CHCH3", 1%Q); ("C6H5CHCHOH", 1%Q)] false (arrhenius (plain_arr 38700)) None.
Lemma long_refuted :
  exists s r text rest,
    so_reactions s = [r] /\ exportable r /\ free is_newline (cr_equation r) /\ free is_slash (cr_equation r) /\ (String.length (cr_equation r) = 51)%nat /\
    Forall usable_name (so_elements s) /\ Forall usable_name (map cs_name (so_species s)) /\
    write show no_rounding s "gas.inp" "" true true = ((("gas.inp", text) :: rest), Ok ["gas.inp"]) /\ read_reactions text = None.
Proof.
  exists (mkCSol "gas" ["H"; "O"] [sp "C6H5CH2CH2OH" [] 0 None; sp "C6H5CHCH2" [] 0 None; sp "C6H5CHCH3" [] 0 None; sp "C6H5CHCHOH" [] 0 None] [long_equation]), long_equation.
  eexists _, _. split; [reflexivity|]. split; [eapply (x_arrhenius _ 2); [left; reflexivity|reflexivity|reflexivity|apply arr_fin]|].
  split; [apply freeb_ok; vm_compute; reflexivity|]. split; [apply freeb_ok; vm_compute; reflexivity|]. split; [vm_compute; reflexivity|].
  split; [apply names_ok; reflexivity|]. split; [apply names_ok; vm_compute; reflexivity|].
  split; [vm_compute; reflexivity|]. vm_compute. reflexivity.
Qed.

(** ** Chebyshev coefficients *)
(** log10 of the rate is [a] at all temperatures and pressures. *)
Definition constant_chebyshev (a : Q) : creaction :=
  mkCRx "H + O <=> OH" "Chebyshev" [("H", 1%Q); ("O", 1%Q)] [("OH", 1%Q)] false
    (chebyshev (mkCheb [Fin 300; Fin 2500] [Fin 1000; Fin 1000000] [[Fin a]])) None.
Lemma chebyshev_refuted :
  exists s r c a text rest e t p n v,
    usable_model s /\ so_reactions s = [r] /\ order r 2 /\ rt_cheb (cr_rate r) = Some c /\ ch_data c = [[Fin a]] /\
    fst (write show no_rounding s "gas.inp" "" true true) = (("gas.inp", text) :: rest) /\ read_reactions text = Some [e] /\
    e_aux e = [Data "TCHEB" t; Data "PCHEB" p; Data "CHEB" n; Data "CHEB" [v]] /\
    (v == a)%Q /\ ~ (v == a + 3)%Q.
Proof.
  exists (with_reactions [constant_chebyshev 8]), (constant_chebyshev 8). eexists _, 8%Q, _, _, _, _, _, _, _.
  split.
  { constructor; [cbn; auto|apply names_ok; reflexivity|apply names_ok; reflexivity|]. constructor; [|constructor].
    split; [equation|split; [|effs]]. eapply (x_chebyshev _ _ _ _ _ _ 1); [reflexivity|reflexivity|reflexivity|reflexivity| |discriminate|].
    - cbn. intros row [<-|[]]; reflexivity.
    - repeat constructor; fin. }
  split; [reflexivity|]. split; [reflexivity|]. split; [reflexivity|]. split; [reflexivity|].
  split; [vm_compute; reflexivity|]. split; [vm_compute; reflexivity|]. split; [reflexivity|].
  split; [vm_compute; reflexivity|]. vm_compute. discriminate.
Qed.

(** ** Precision *)
Lemma precision_refuted :
  exists A A' text rest e,
    let s := with_reactions [h2_o A] in
    usable_model s /\ fst (write show no_rounding s "gas.inp" "" true true) = (("gas.inp", text) :: rest) /\
    read_reactions text = Some [e] /\ Forall2 Qeq [A' * 1000; 27 # 10; 26150000 / 4184]%Q (e_rate e) /\
    compare_models s s = Ok true /\ compare_models s (with_reactions [h2_o A']) = Ok false.
Proof.
  exists (387004 # 10)%Q, 38700%Q. eexists _, _, _. cbv zeta. split.
  { constructor; [cbn; auto|apply names_ok; reflexivity|apply names_ok; reflexivity|]. constructor; [apply h2_o_usable|constructor]. }
  split; [vm_compute; reflexivity|]. split; [vm_compute; reflexivity|].
  split; [repeat constructor|]. split; vm_compute; reflexivity.
Qed.

Definition falloff_energy (E : Q) : creaction :=
  mkCRx "H + O (+M) <=> OH (+M)" "falloff-Lindemann" [("H", 1%Q); ("O", 1%Q)] [("OH", 1%Q)] false
    (mkRate "LindemannRate" "Lindemann" None (Some (energetic E)) (Some (energetic E)) (Some []) None None) None.
Lemma energy_refuted :
  exists s r a text rest e vA vb vE,
    usable_model s /\ so_reactions s = [r] /\ rt_high (cr_rate r) = Some (energetic a) /\
    fst (write show no_rounding s "gas.inp" "" true true) = (("gas.inp", text) :: rest) /\
    read_reactions text = Some [e] /\ e_rate e = [vA; vb; vE] /\ (Qabs (vE - cal_per_mol a) > (4 # 10000) * cal_per_mol a)%Q.
Proof.
  exists (with_reactions [falloff_energy (4184 * (100049 # 10))]), (falloff_energy (4184 * (100049 # 10))). eexists _, _, _, _, _, _, _. split.
  { constructor; [cbn; auto|apply names_ok; reflexivity|apply names_ok; reflexivity|]. constructor; [|constructor].
    split; [equation|split; [|effs]]. eapply (x_falloff _ 2); [left; exists "Lindemann"; reflexivity|reflexivity|reflexivity|reflexivity|repeat split; fin|repeat split; fin|].
    exists []. split; [reflexivity|]. split; [constructor|]. left. reflexivity. }
  split; [reflexivity|]. split; [reflexivity|]. split; [vm_compute; reflexivity|]. split; [vm_compute; reflexivity|].
  split; [reflexivity|]. vm_compute. reflexivity.
Qed.

(** ** Thermodynamic data that do not fit *)
Lemma elements_refuted :
  exists s x text rest, so_species s = [x] /\ length (cs_comp x) = 5%nat /\
    Forall (fun e => token (fst e) /\ (String.length (fst e) <= 2)%nat /\ (snd e == 1)%Q) (cs_comp x) /\
    write show no_rounding s "gas.inp" "" false true = ([rest; ("gas_thermo.dat", text)], Ok ["gas.inp"; "gas_thermo.dat"]) /\
    read_thermo text = None.
Proof.
  exists (with_species [sp "HCNOS" [("H", 1%Q); ("C", 1%Q); ("N", 1%Q); ("O", 1%Q); ("S", 1%Q)] 0 None]).
  eexists _, _, _. split; [reflexivity|]. split; [reflexivity|].
  split; [repeat (constructor; [cbn [fst snd]; split; [apply tokenb; reflexivity|split; [cbn; lia|reflexivity]]|]); constructor|].
  split; [vm_compute; reflexivity|]. vm_compute. reflexivity.
Qed.
Lemma fraction_refuted :
  exists s x text rest c, so_species s = [x] /\ cs_comp x = [("C", (15 # 2)%Q)] /\
    fst (write show no_rounding s "gas.inp" "" false true) = [rest; ("gas_thermo.dat", text)] /\
    read_thermo text = Some [c] /\ cd_elements c = [("C", 7%Q)].
Proof.
  exists (with_species [sp "C7.5" [("C", (15 # 2)%Q)] 0 None]). eexists _, _, _, _. split; [reflexivity|]. split; [reflexivity|].
  split; [vm_compute; reflexivity|]. split; vm_compute; reflexivity.
Qed.
(** [ConstantCp]: reference temperature, enthalpy, entropy and heat capacity. *)
Definition constant_cp : cspecies :=
  mkCSp "AR" [("Ar", 1%Q)] (fun _ => Fin 20786) (fun T => Fin (20786 * T)) (fun _ => Fin 0) (Fin 100) (Fin 5000)
    (map Fin [298; 0; 154845; 20786]) None.
Lemma thermo_refuted :
  exists s x text rest, so_species s = [x] /\ length (cs_coeffs x) = 4%nat /\
    write show no_rounding s "gas.inp" "" false true = ([rest; ("gas_thermo.dat", text)], Ok ["gas.inp"; "gas_thermo.dat"]) /\
    read_thermo text = None.
Proof.
  exists (with_species [constant_cp]). eexists _, _, _. split; [reflexivity|]. split; [reflexivity|].
  split; vm_compute; reflexivity.
Qed.

(** ** [convert] *)
Lemma convert_case load ck2yaml :
  load "mechs/gas.yml" = Ok hydrogen ->
  snd (convert show no_rounding load ck2yaml "mechs/gas.yml" "" "" "out") = Ok (Names ["out/gas.inp"; "out/gas_thermo.dat"; "out/gas_transport.dat"]) /\
  (ck2yaml ["--input=mechs/gas.txt"; "--transport=tr.dat"; "--output=gas.yaml"; "--permissive"] = Ok tt ->
   convert show no_rounding load ck2yaml "mechs/gas.txt" "" "tr.dat" "" = (nil, Ok (Name "gas.yaml"))).
Proof.
  intros L. split.
  - unfold convert. replace (str_in _ _) with true by reflexivity. rewrite L. vm_compute. reflexivity.
  - intros C. unfold convert. replace (str_in _ _) with false by reflexivity.
    match goal with |- (nil, bind (ck2yaml ?l) _) = _ => replace l with ["--input=mechs/gas.txt"; "--transport=tr.dat"; "--output=gas.yaml"; "--permissive"] by reflexivity end.
    rewrite C. reflexivity.
Qed.
