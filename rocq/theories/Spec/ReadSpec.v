(** Vocabulary for reading saved metrics. *)
From Coq Require Import String List QArith Bool.
From Verif.Base Require Import Py Num XNum.
From Verif.Model Require Import Mech World Metrics.
From Verif.Spec Require Import Samples.
Import ListNotations.
Local Open Scope string_scope.

(** The metrics [l] are saved for the conditions [cs] of one kind; for no
    conditions there are none, whatever the file. *)
Definition kept_for (cs : list cond) (w : world) (out : string) (l : list xnum) : Prop :=
  match cs with nil => l = nil | _ => w_fs w out = Some (FNums l) end.

(** A file that is there has numbers. *)
Definition numbers (w : world) (out : string) : Prop := w_fs w out = None \/ exists l, w_fs w out = Some (FNums l).

(** There are conditions of a kind, but no file for it. *)
Definition missing_for (cs : list cond) (w : world) (out : string) : Prop := cs <> nil /\ w_fs w out = None.

(** Samples: one number saved, and two conditions. *)
Definition short_world : world :=
  mkWorld (fun f => if String.eqb f output_ignition then Some (FNums [Fin 7])
                    else if String.eqb f "mech.yaml" then Some (FMech [toy]) else None) nil.
Definition two_ones : conds := mkConds [fun _ => Ok [Fin 1]; fun _ => Ok [Fin 2]] nil nil.
