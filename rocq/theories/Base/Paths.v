(** The two functions of [os.path] (posix) that pyMARS uses on names. *)
From Coq Require Import String Ascii List Bool Arith.
Import ListNotations.
Local Open Scope string_scope.

Definition slash : ascii := "/"%char.
Definition dot : ascii := "."%char.

Fixpoint last_char (s : string) : option ascii :=
  match s with
  | EmptyString => None
  | String c EmptyString => Some c
  | String _ t => last_char t
  end.

(** [os.path.join(a, b)] for two components (posixpath.py, join). *)
Definition path_join (a b : string) : string :=
  match b with
  | String c _ =>
      if Ascii.eqb c slash then b
      else match last_char a with
           | None => b
           | Some l => if Ascii.eqb l slash then a ++ b else a ++ "/" ++ b
           end
  | EmptyString =>
      match last_char a with
      | None => b
      | Some l => if Ascii.eqb l slash then a ++ b else a ++ "/" ++ b
      end
  end.

(** Split a list of characters at its last occurrence of [c]: the part before
    and the part from [c] on. *)
Fixpoint rsplit (c : ascii) (l : list ascii) : option (list ascii * list ascii) :=
  match l with
  | nil => None
  | x :: t =>
      match rsplit c t with
      | Some (a, b) => Some (x :: a, b)
      | None => if Ascii.eqb x c then Some (nil, x :: t) else None
      end
  end.

Definition all_dots (l : list ascii) : bool := forallb (Ascii.eqb dot) l.

(** The base name: characters after the last slash. *)
Definition after_slash (l : list ascii) : list ascii :=
  match rsplit slash l with
  | Some (_, b) => tl b
  | None => l
  end.

(** [os.path.splitext(p)] (genericpath.py, _splitext): the extension starts at
    the last dot of the base name, unless only dots precede that dot. *)
Definition splitext (p : string) : string * string :=
  let l := list_ascii_of_string p in
  let base := after_slash l in
  match rsplit dot base with
  | Some (b, e) =>
      if all_dots b then (p, "")
      else (string_of_list_ascii (firstn (length l - length e) l),
            string_of_list_ascii e)
  | None => (p, "")
  end.

Example splitext_ex1 : splitext "reduced_a.b/gri30.yaml" = ("reduced_a.b/gri30", ".yaml").
Proof. reflexivity. Qed.
Example splitext_ex2 : splitext "x.y/.cti" = ("x.y/.cti", "").
Proof. reflexivity. Qed.
Example join_ex : path_join "out" "m.yaml" = "out/m.yaml" /\ path_join "" "m.yaml" = "m.yaml"
  /\ path_join "o/" "m" = "o/m" /\ path_join "o" "/m" = "/m".
Proof. repeat split. Qed.
