(** Words for what is written by [soln2yaml.write] and read back. *)
From Coq Require Import String List.
From Verif.Base Require Import Py.
From Verif.Model Require Import Mech World.
From Verif.Spec Require Import TextSpec ExportSpec.
Import ListNotations.
Local Open Scope string_scope.

(** The phase that a reader asking for [phase] finds among [phases]: the first
    one, or the first one of that name. *)
Definition finds (phases : list mech) (phase : string) (m : mech) : Prop :=
  (phase = "" /\ exists l, phases = m :: l) \/
  (phase <> "" /\ m_name m = phase /\
   exists a b, phases = (a ++ m :: b)%list /\ forall x, In x a -> m_name x <> phase).

(** The model file [f] holds [m] under the name [phase]. *)
Definition model_in (w : world) (f phase : string) (m : mech) : Prop :=
  exists phases, w_fs w f = Some (FMech phases) /\ finds phases phase m.

(** The only difference between the two states is that [f] now holds the
    model [m] and nothing else. *)
Definition replaced (w : world) (f : string) (m : mech) (w' : world) : Prop :=
  w_fs w' f = Some (FMech [m]) /\
  (forall g, g <> f -> w_fs w' g = w_fs w g) /\
  w_shared w' = w_shared w.

(** A file name that does not start at the root. *)
Definition relative (f : string) : Prop := f <> "" /\ forall t, f <> "/" ++ t.

(** The name of the file that a model goes to: the one asked for, or the name
    of the model with the extension of YAML files. *)
Inductive goes_to (m : mech) : string -> string -> Prop :=
| goes_asked f : f <> "" -> goes_to m f f
| goes_default : goes_to m "" (m_name m ++ ".yaml").
