(** Property theorems about the objects for stirred reactors (C91). *)
From Coq Require Import String List QArith ZArith Bool Arith.
From Verif.Base Require Import Py Num XNum Paths.
From Verif.Model Require Import Mech World Metrics Drivers Sensitivity Simulation Sampling Psr PsrCase Main.
From Verif.Spec Require Import TrimSpec MetricSpec DriverSpec SimSpec SamplingSpec MainSpec Samples DriverSamples SimSamples SamplingSamples
  MainSamples PsrSpec PsrSamples PsrCaseSpec PsrCaseSamples.
From Verif.Proofs Require Import MainCli PsrCaseFacts PsrCaseMain.
Import ListNotations.
Local Open Scope string_scope.

(** C91: after [setup_case], methods called in any order and any number of
    times answer by the curve traced from the inlet, whatever state the
    earlier calls left the gas in. *)
Theorem psr_calls_repeat :
  forall (A : calc) E c m o ks rs o',
    obj_setup E c m = Ok o -> obj_calls E ks o = (rs, o') -> Forall2 (answers E c m) ks rs.
Proof. exact @calls_repeat. Qed.
Print Assumptions psr_calls_repeat.

(** A gas that is left at 2000 K, where it does not burn, by each call; and a
    model without the species that burns. *)
Example psr_calls_repeat_case :
  let answers_of E ks :=
    match obj_setup E (mkPSR 300 1 (mix "N2")) one_species with
    | Ok o => map rounded (fst (obj_calls E ks o))
    | _ => []
    end in
  answers_of (toy_engine "N2" 9) [CallCalculate; CallProcess true] =
    [Ok ([444656; 1489100670; 1489100670], None); Ok ([444656; 1489100670; 1489100670], None)]%Z /\
  answers_of (toy_engine "N2" 50) [CallProcess false] =
    [Ok ([81025; 1558298360; 1699110425],
         Some [[1443766537; 101325000000; 443767]; [1558298360; 101325000000; 558298];
               [1699110425; 101325000000; 699110]])]%Z /\
  answers_of (toy_engine "O2" 50) [CallCalculate; CallProcess false; CallRun; CallCalculate] =
    [Ok ([0; 0; 0], None); Raise RuntimeError; Raise RuntimeError; Ok ([0; 0; 0], None)]%Z.
Proof. vm_compute. split; [|split]; reflexivity. Qed.

(** C91: the attributes [psr_metrics] and [sampled_data] hold what the last
    call returned. *)
Theorem psr_attributes :
  forall (A : calc) E c m o ks k rs l d o',
    obj_setup E c m = Ok o -> obj_calls E (ks ++ [k]) o = ((rs ++ [Ok (l, d)])%list, o') ->
    po_metrics o' = Some l /\ forall x, d = Some x -> po_data o' = Some x.
Proof. exact @attributes. Qed.
Print Assumptions psr_attributes.

(** C91: metrics are zero if there is no curve and only [calculate] returns
    them then; otherwise they are a positive residence time of at most half a
    second and two positive temperatures, taken from three points that solve
    the steady equations, which are also the sampled ones. *)
Theorem psr_metrics_mean :
  forall (A : calc) E c m o k l d, works E -> obj_setup E c m = Ok o -> fst (obj_call E k o) = Ok (l, d) ->
    (no_curve E c m /\ k = CallCalculate /\ l = [Fin 0; Fin 0; Fin 0] /\ d = None) \/
    exists tau T2 T3 p1 p2 p3, l = [Fin tau; Fin T2; Fin T3] /\ (0 < tau <= 1 # 2)%Q /\ (0 < T2)%Q /\ (0 < T3)%Q /\
      pp_tau p1 = Fin tau /\ pp_T p2 = Fin T2 /\ pp_T p3 = Fin T3 /\
      Forall (steady (at_inlet E c m) (1 # 10000000)) [p1; p2; p3] /\
      Forall (fun p => length (pp_Y p) = n_species m) [p1; p2; p3] /\
      ((k <> CallProcess false /\ d = None) \/
       (k = CallProcess false /\ d = Some [row_of c p1; row_of c p2; row_of c p3])).
Proof. exact @metrics_means. Qed.
Print Assumptions psr_metrics_mean.

(** C91: a zero among the metrics of a candidate says that it has no curve. *)
Theorem psr_zero_means_no_curve :
  forall E c m o l, works E -> obj_setup E c m = Ok o -> fst (obj_calculate E o) = Ok l ->
    ((exists x, In x l /\ xeq x (Fin 0) = true) <-> no_curve E c m).
Proof. exact zero_iff. Qed.
Print Assumptions psr_zero_means_no_curve.

(** The engine of the examples, with which both alternatives occur above. *)
Example psr_metrics_mean_case : works (toy_engine "N2" 50) /\ works (toy_engine "O2" 50).
Proof. split; apply toy_works. Qed.

(** C91: this is what the other parts of the model simulate. *)
Theorem psr_objects_are_conditions :
  forall E Ph c m,
    psr_cond (with_engine E Ph) c m = bind (obj_setup E c m) (fun o => fst (obj_calculate E o)) /\
    forall o, obj_setup E c m = Ok o ->
      fst (obj_process (A := ph_calc Ph) E false o) =
      bind (psr_process (A := ph_calc Ph) (ps_P c) (ph_psr (with_engine E Ph) c m)) (fun x => Ok (fst x, Some (snd x))).
Proof. exact (fun E Ph c m => conj (as_condition E Ph c m) (as_sample E Ph c m)). Qed.
Print Assumptions psr_objects_are_conditions.

(** C91: a run of the program with a limit below 100 percent keeps the
    extinction curve of every stirred reactor, and the three numbers within
    the limit. *)
Theorem main_keeps_extinction_curves :
  forall K E Ph floor C a B w sol me r w' l,
    k_physics K = with_engine E Ph ->
    prepared K C a w sol -> a_method a = method_name me -> well_posed K floor C sol ->
    (a_sa a = true -> temps_ok w (a_path a) B) -> a_limit a = Fin l -> (l < 100)%Q -> r_error r <> NaN ->
    main_on exactA floor5 floor6 B K floor C a w = (Ok r, w') ->
    forall c, In c (ca_psr C) ->
    exists k k', has_curve E c sol k /\ has_curve E c (r_model r) k' /\
      within l (pp_tau (pc_ext k)) (pp_tau (pc_ext k')) /\
      within l (pp_T (pc_mid k)) (pp_T (pc_mid k')) /\
      within l (pp_T (pc_near k)) (pp_T (pc_near k')).
Proof. exact main_curves. Qed.
Print Assumptions main_keeps_extinction_curves.

(** A run on a reactor that burns with H2 only. *)
Example main_keeps_extinction_curves_case :
  prepared (psr_machine "H2") (psr_cases "N2") (toy_main "DRGEP" ["N2"] false (Some 1)) toy_world toy /\
  well_posed (psr_machine "H2") None (psr_cases "N2") toy /\
  match main_on exactA floor5 floor6 toy_limits (psr_machine "H2") None (psr_cases "N2")
          (toy_main "DRGEP" ["N2"] false (Some 1)) toy_world with
  | (Ok r, _) => Some (species_names (r_model r), xeq (r_error r) (Fin 0))
  | _ => None
  end = Some (["H"; "O2"; "HO2"; "H2"; "N2"], true).
Proof. split; [apply psr_prepared|]. split; [apply psr_posed|vm_compute; reflexivity]. Qed.
