(** Vocabulary for the properties of the text of saved samples. *)
From Coq Require Import String Ascii List Bool Arith ZArith QArith.
From Coq Require Import Floats.SpecFloat.
From Verif.Base Require Import Num XNum Text B64.
From Verif.Model Require Import FloatDrivers SaveText.
From Verif.Spec Require Import TextSpec.
Import ListNotations.
Local Open Scope string_scope.

(** [x] is one of the numbers that a double can hold, infinities, NaN and both
    zeros included. *)
Definition is_double (x : b64) : Prop := valid_binary 53 1024 x = true.

(** A table that can be saved: doubles only, and no row is empty. *)
Definition table (rows : list (list b64)) : Prop :=
  forall r, In r rows -> r <> nil /\ Forall is_double r.

(** [p] is the beginning of [s]. *)
Definition begins (p s : string) : Prop := exists rest, s = p ++ rest.

(** How many lines are complete. *)
Fixpoint line_breaks (s : string) : nat :=
  match s with
  | EmptyString => 0
  | String c t => ((if is_newline c then 1 else 0) + line_breaks t)%nat
  end.

(** What is left of a table if only [n] rows are complete: those, and perhaps
    of the next row some numbers and the beginning of one more. *)
Definition left_over (rows : list (list b64)) (n : nat) (found : list (list b64)) : Prop :=
  found = firstn n rows \/
  exists r pre x post p,
    nth_error rows n = Some r /\ r = (pre ++ x :: post)%list /\
    begins p (print_b64 x) /\ found = (firstn n rows ++ [pre ++ [read_b64 p]])%list.

(** The number that the rest of the model works with. *)
Definition x_of_b64 (x : b64) : xnum :=
  match x with
  | S754_nan => NaN
  | S754_infinity s => if s then NInf else PInf
  | _ => Fin (b64_val x)
  end.

(** All beginnings of a text. *)
Fixpoint beginnings (s : string) : list string :=
  "" :: match s with EmptyString => nil | String c t => map (String c) (beginnings t) end.

(** What the beginnings of a printed number read as. *)
Definition torn_text (x : xnum) : list xnum :=
  map (fun s => x_of_b64 (read_b64 s))
      (beginnings (xsci 18 x) ++
       match x with Fin q => if Qeq_bool q 0 then beginnings ("-" ++ sci 18 0) else nil | _ => nil end)%list.
