(** The order in which sensitivity analysis removes species, without its loop. *)
From Coq Require Import String List QArith Qabs Bool.
From Verif.Base Require Import Py Num XNum B64.
From Verif.Model Require Import Mech World Metrics Drivers Sensitivity FloatDrivers DoubleError.
From Verif.Spec Require Import TrimSpec Samples DriverSpec FloatMatrixSpec SensitivitySpec SaSamples.
Import ListNotations.
Local Open Scope string_scope.

(** Species with the error of the model without each of them. *)
Definition scores := list (string * xnum).
Definition scored_on (K : sa_job) (ref : list xnum) (m : mech) (l : list string) (sc : scores) : Prop :=
  map fst sc = l /\ forall s e, In (s, e) sc -> error_without K ref m s e.

(** How far the score of a candidate is from the error [now]. *)
Definition away (K : sa_job) (now : xnum) (x : string * xnum) : xnum := s_far K (snd x) now.

(** The candidate [s] comes next: the first one whose distance is not a number;
    if all are numbers, the first one of those with the least distance. *)
Definition next_tried (K : sa_job) (now : xnum) (sc : scores) (s : string) (others : scores) : Prop :=
  exists before e after, sc = (before ++ (s, e) :: after)%list /\ others = (before ++ after)%list /\
    (forall x, In x before -> away K now x <> NaN) /\
    (away K now (s, e) = NaN \/
     (forall x, In x sc -> away K now x <> NaN) /\
     (forall x, In x before -> xlt (away K now (s, e)) (away K now x) = true) /\
     (forall x, In x after -> xle (away K now (s, e)) (away K now x) = true)).

(** The greedy algorithm ends: the first of the new scores is over the limit,
    and none of the others is within it. *)
Definition all_over (limit : xnum) (sc : scores) : Prop :=
  (exists s e t, sc = (s, e) :: t /\ xgt e limit = true) /\ forall s e, In (s, e) sc -> xle e limit = false.

(** From the model [m] with the error [now] and the scores [sc], the analysis
    comes to the model [m'] with the error [now']. *)
Inductive course (K : sa_job) (ref : list xnum) : mech -> xnum -> scores -> mech -> xnum -> Prop :=
| co_nothing_left m now : course K ref m now [] m now
| co_refused m now sc s others e :
    next_tried K now sc s others -> error_without K ref m s e -> xgt e (s_limit K) = true ->
    course K ref m now sc m now
| co_old_scores m now sc s others m1 e m' now' :
    s_alg K = Initial -> next_tried K now sc s others ->
    removals (s_phase K) m [s] m1 -> error_of (s_conds K) ref m1 = Ok e -> xgt e (s_limit K) = false ->
    course K ref m1 e others m' now' -> course K ref m now sc m' now'
| co_new_scores m now sc s others m1 e sc1 m' now' :
    s_alg K = Greedy -> next_tried K now sc s others ->
    removals (s_phase K) m [s] m1 -> error_of (s_conds K) ref m1 = Ok e -> xgt e (s_limit K) = false ->
    scored_on K ref m1 (map fst others) sc1 -> sc1 <> [] -> ~ all_over (s_limit K) sc1 ->
    course K ref m1 e sc1 m' now' -> course K ref m now sc m' now'
| co_all_over m now sc s others m1 e sc1 :
    s_alg K = Greedy -> next_tried K now sc s others ->
    removals (s_phase K) m [s] m1 -> error_of (s_conds K) ref m1 = Ok e -> xgt e (s_limit K) = false ->
    scored_on K ref m1 (map fst others) sc1 -> all_over (s_limit K) sc1 ->
    course K ref m now sc m1 e.

(** An error that is a double, far from overflow. *)
Definition double_value (x : xnum) (q : Q) : Prop :=
  exists d, x = Fin q /\ b64_finite d /\ (b64_val d == q)%Q /\ (Qabs q <= (2 # 1) ^ 900)%Q.

(** An error that is such a double, infinite or not a number. *)
Definition any_value (x : xnum) : Prop := (exists q, double_value x q) \/ x = NaN \/ x = PInf \/ x = NInf.

(** A simulation that gives 100; the next double if C is missing; 200 if B is
    missing too. *)
Definition fragile : cond := fun m =>
  Ok [Fin (if str_in "C" (species_names m) then 100
           else if str_in "B" (species_names m) then (7036874417766401 # 70368744177664) else 200)%Q].

(** Sensitivity analysis of [fan] with that simulation, B and C being
    candidates; errors with doubles, [far] gives the distance. *)
Definition fragile_sa (alg : algorithm) (far : xnum -> xnum -> xnum) : sa_job :=
  mkSAWith "mech.yaml" "" "" (Fin 1000) (mkCondsWith [fragile] nil nil double_error) (Fin 5) ["A"] alg (Own ["B"; "C"]) far.

(** The species that are left at the end of a run. *)
Definition returned_names (x : res rmodel * world) : res (list string) :=
  match fst x with Ok r => Ok (species_names (r_model r)) | Raise e => Raise e | NoFuel => NoFuel end.
