(** Files for the examples about writing and reading back. *)
From Coq Require Import String List.
From Verif.Model Require Import Mech World.
From Verif.Spec Require Import Samples.
Import ListNotations.
Local Open Scope string_scope.

(** Two model files; the second is in the way of what the examples write. *)
Definition disk : world :=
  mkWorld (fun f => if String.eqb f "mechs/a.yaml" then Some (FMech [toy])
                    else if String.eqb f "out/gas.yaml" then Some (FMech [toy2]) else None) nil.
