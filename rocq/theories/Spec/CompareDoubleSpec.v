(** Models whose numbers are doubles. *)
From Coq Require Import String List QArith Qabs.
From Verif.Base Require Import Py XNum B64.
From Verif.Model Require Import Chem FloatDrivers.
From Verif.Spec Require Import FloatMatrixSpec CompareSpec.
Import ListNotations.

(** A double of at most 2^900, an infinity or NaN. *)
Definition double_number (x : xnum) : Prop :=
  match x with
  | Fin q => exists d, b64_finite d /\ (b64_val d == q)%Q /\ (Qabs q <= (2 # 1) ^ 900)%Q
  | _ => True
  end.

(** The numbers of a model that are compared by their distance. *)
Definition thermo_values (s : cspecies) : list xnum :=
  concat (map (fun T => [cs_cp s T; cs_h s T; cs_s s T]) [500; 1000; 2000]%Q).
Definition rate_values (r : rate) : list xnum :=
  (opt arr_numbers (rt_low r) ++ opt arr_numbers (rt_high r) ++ opt id (rt_falloff r) ++
   opt (fun t => concat (map (fun e => Fin (fst e) :: arr_numbers (snd e)) t)) (rt_plog r) ++
   opt (fun c => ch_P c ++ ch_T c ++ concat (ch_data c)) (rt_cheb r) ++ opt arr_numbers (rt_arr r))%list.
Definition double_values (m : csolution) : Prop :=
  (forall s x, In s (so_species m) -> In x (thermo_values s) -> double_number x) /\
  (forall r x, In r (so_reactions m) -> In x (rate_values (cr_rate r)) -> double_number x).
