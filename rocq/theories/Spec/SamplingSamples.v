(** Simulators and directories used in the examples about sampling. *)
From Coq Require Import String List QArith ZArith Bool Arith.
From Verif.Base Require Import Py Num XNum.
From Verif.Model Require Import Mech World Metrics Drivers Simulation Sampling.
From Verif.Spec Require Import Samples SimSpec SimSamples DriverSamples SamplingSpec.
Import ListNotations.
Local Open Scope string_scope.

(** A state with one mass fraction per species. *)
Definition wide (m : mech) (t T : Q) : point := mkPoint t T 101325 (map (fun _ => 1) (m_species m)).
Definition wide_pp (m : mech) (tau T : Q) : psr_point := mkPP (Fin tau) (Fin T) (map (fun _ => Fin 1) (m_species m)).

(** Everything burns; the case's temperature is reached at once. *)
Definition full_physics : physics := mkPhysics exact_calc
  (fun c m => mkReactor (wide m 0 (ig_T c))
                (fun k => Some (wide m (Z.of_nat k # 10) (if Nat.ltb k 3 then ig_T c else 2000)))
                (fun k => Nat.leb 8 k))
  (fun _ m => Ok (Fin (2 # 5), [wide m 0 300; wide m 1 2000]))
  (fun _ m => Ok (mkCurve (wide_pp m (1 # 100) 1200) (wide_pp m 1 1500) (wide_pp m 10 1800))).

Lemma full_shaped C m : shaped full_physics C m.
Proof.
  constructor; simpl.
  - intros c _. split; [apply map_length|]. intros k p E. injection E as <-. apply map_length.
  - intros c k _ E. injection E as <-. simpl. intros p [<-|[<-|[<-|[]]]]; apply map_length.
  - intros c v ps _ E. injection E as <- <-. simpl. intros p [<-|[<-|[]]]; apply map_length.
Qed.
Lemma full_starts C m : starts_right full_physics C m.
Proof. intros c _. split; [reflexivity|]. cbn. apply Qplus_lt_r with (z := (- ig_T c)%Q). ring_simplify. reflexivity. Qed.

(** Two ignition cases, one PSR, one flame. *)
Definition two_ign : list in_ign := [ign 1 0; mkIgn "constant pressure" 1100 10 1 0 (mix "O2")].
Definition full_cases : cases := mkCases two_ign [mkPSR 300 1 (mix "O2")] [mkFlame 300 1 (1 # 10) (mix "O2")].
Definition ign_cases : cases := mkCases two_ign nil nil.

Lemma toy_fresh : fresh toy_world.
Proof. intros f I. unfold sample_files in I. simpl in I. intuition (subst; reflexivity). Qed.

(** A number cut short in its exponent, as 1.000e-02 to 1.000e-0. *)
Definition cut_exponent (x : xnum) : list xnum :=
  match x with Fin q => [Fin (q * 100)] | _ => nil end.
Definition whole (x : xnum) : list xnum := nil.

(** The samples of a smaller model, left in the directory. *)
Definition old_world : world :=
  set_file data_ignition (Some (FTable (repeat [Fin 1; Fin 1; Fin 1] 40)))
    (set_file output_ignition (Some (FNums [Fin 7; Fin 8])) toy_world).
