(** Stirred reactors in runs of the whole program, for the examples. *)
From Coq Require Import String List QArith Qabs Bool Arith ZArith.
From Verif.Base Require Import Py Num XNum.
From Verif.Model Require Import Mech Simulation Sampling Psr PsrCase Main.
From Verif.Spec Require Import Samples SimSamples SamplingSamples PsrSpec PsrSamples PsrCaseSpec MainSpec MainSamples.
Import ListNotations.
Local Open Scope string_scope.
Local Open Scope Q_scope.

(** Points of the curves for k = 50 and k = 9 at the steps that the default
    arguments make. *)
Definition default_points : list vec :=
  [ [Fin 0.979583152; Fin 1979.583152331]; [Fin 0.958257569; Fin 1958.257569496];
    [Fin 0.937879334; Fin 1.937879334; Fin (-0.191308445)];
    [Fin 0.912333418; Fin 1.912333418; Fin (-0.299905761)];
    [Fin 0.879837495; Fin 1.879837495; Fin (-0.428617388)];
    [Fin 0.837610636; Fin 1.837610636; Fin (-0.580095293)];
    [Fin 0.780792640; Fin 1.780792640; Fin (-0.755777465)];
    [Fin 0.699110425; Fin 1.699110425; Fin (-0.951775194)];
    [Fin 0.558298360; Fin 1.558298360; Fin (-1.133006506)];
    [Fin 0.443766537; Fin 1.443766537; Fin (-1.134188988)];
    [Fin 0.335655596; Fin 1.335655596; Fin (-1.014954585)];
    [Fin 0.872677996; Fin 1872.677996250]; [Fin 0.666666667; Fin 1666.666666667];
    [Fin 0.619609286; Fin 1.619609286; Fin (-0.112124257)];
    [Fin 0.560838850; Fin 1.560838850; Fin (-0.121668771)];
    [Fin 0.489100670; Fin 1.489100670; Fin (-0.124893084)];
    [Fin 0.402510847; Fin 1.402510847; Fin (-0.116446279)] ].

(** The same for a gas with further species, which stay at zero: the point
    with as many zeros behind the first entry as make it [len] long. *)
Definition padded (len : nat) (x : vec) : vec :=
  match x with
  | [] => []
  | y :: t => y :: repeat (Fin 0) (len - length x) ++ t
  end.
Fixpoint look_near (f : vec -> vec) (x0 : vec) (l : list vec) : option vec :=
  match l with
  | [] => None
  | x :: t =>
      if (length x =? length x0)%nat && xlt (xabs (xsub (vget x 0) (vget x0 0))) (Fin (1 # 4))
         && xlt (sup_norm (f x)) (Fin (1 # 20000000))
      then Some x
      else look_near f x0 t
  end.
Definition pad_root (f : vec -> vec) (x0 : vec) : res (bool * vec * vec) :=
  match look_near f x0 (map (padded (length x0)) default_points) with
  | Some x => Ok (true, x, f x)
  | None => Ok (false, x0, f x0)
  end.

(** [n] species, the first of which reacts as in [toy_gas]. *)
Definition wide_gas (n : nat) (k : Q) : gas :=
  mkGas n (repeat (Fin 0) n) (Fin 1000) (Fin 1) (repeat (Fin 1) n)
    (Ok (match n with O => [] | S n' => Fin 1 :: repeat (Fin 0) n' end, Fin 2000))
    (fun Y T => match n, Y, T with
                | S n', Fin y :: _, Fin t => Some (Fin (k * y * y * (1 - y)) :: repeat (Fin 0) n', Fin 1)
                | _, _, _ => None
                end)
    (fun Y T => match Y, T with Fin y :: _, Fin t => Fin (t - 1000 * y) | _, _ => NaN end).

(** The gas burns with the constant [k] if the model has the species [s] and
    the gas is at 300 K; the solver leaves the gas at 2000 K. *)
Definition toy_engine (s : string) (k : Q) : engine :=
  mkEngine sup_norm rat_exp rat_log rat_sqrt no_solve pad_root
    (fun m g => wide_gas (n_species m) (if str_in s (species_names m) && xeq (gs_T g) (Fin 300) then k else 0))
    (fun c m => mkGState (Fin (ps_T c)) (Fin (ps_P c)) (repeat (Fin 0) (n_species m)))
    (fun m g => g)
    (fun m g => mkGState (Fin 2000) (gs_P g) (gs_Y g)).

(** Millionths, for the metrics. *)
Definition rounded (r : res (list xnum * option (list (list xnum)))) : res (list Z * option (list (list Z))) :=
  bind r (fun x => Ok (map micro (fst x), option_map (map (map micro)) (snd x))).

(** A machine with this engine, and a case for stirred reactors at 300 K and
    one atmosphere. *)
Definition psr_machine (s : string) : machine :=
  mkMachine whole 50 (with_engine (toy_engine s 9) (late_without s)) (fun _ _ => Ok [2; 0; 3; (-2); 4]).
Definition psr_cases (mx : string) : cases := mkCases nil [mkPSR 300 1 (mix mx)] nil.

(** A model with one species. *)
Definition one_species : mech := mkMech "gas" [sp "N2" 0] [] "mixture-averaged" (300, 101325).
