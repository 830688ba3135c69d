(** Reading text: words, lines and decimal numbers. *)
From Coq Require Import String Ascii List Bool ZArith QArith Qabs.
Import ListNotations.
Local Open Scope string_scope.

Fixpoint split_on (p : ascii -> bool) (s : string) : list string :=
  match s with
  | EmptyString => [""]
  | String c t =>
      if p c then "" :: split_on p t
      else match split_on p t with
           | w :: r => String c w :: r
           | nil => [String c ""]
           end
  end.

Definition is_newline (c : ascii) : bool := Ascii.eqb c (ascii_of_nat 10).
Definition is_blank (c : ascii) : bool := Ascii.eqb c " " || is_newline c.
Definition is_slash (c : ascii) : bool := Ascii.eqb c "/".

Definition lines (s : string) : list string := split_on is_newline s.
Definition words (s : string) : list string :=
  filter (fun w => negb (String.eqb w "")) (split_on is_blank s).

(** No character of [s] satisfies [p]. *)
Fixpoint free (p : ascii -> bool) (s : string) : Prop :=
  match s with EmptyString => True | String c t => p c = false /\ free p t end.

(** ** Numbers: [-] digits [. digits] [e [+-] digits] *)
Definition digit_of (c : ascii) : option Z :=
  let n := Z.of_N (N_of_ascii c) in
  if ((48 <=? n) && (n <=? 57))%Z then Some (n - 48)%Z else None.

(** The digits at the start of [s] appended to the number [v], how many there
    are added to [n], and the rest. *)
Fixpoint take_digits (s : string) (v n : Z) : Z * Z * string :=
  match s with
  | String c t => match digit_of c with
                  | Some d => take_digits t (10 * v + d) (n + 1)
                  | None => (v, n, s)
                  end
  | EmptyString => (v, n, s)
  end.

Definition take_sign (s : string) : Z * string :=
  match s with
  | String "-" t => ((-1)%Z, t)
  | String "+" t => (1%Z, t)
  | _ => (1%Z, s)
  end.

Definition read_exponent (s : string) : option Z :=
  match s with
  | EmptyString => Some 0%Z
  | String c t =>
      if Ascii.eqb c "e" || Ascii.eqb c "E" then
        let '(sg, u) := take_sign t in
        let '(v, n, rest) := take_digits u 0 0 in
        if ((0 <? n)%Z && String.eqb rest "")%bool then Some (sg * v)%Z else None
      else None
  end.

Definition read_num (s : string) : option Q :=
  let '(sg, s1) := take_sign s in
  let '(v1, n, s2) := take_digits s1 0 0 in
  let '(v, m, s3) := match s2 with
                     | String "." t => take_digits t v1 0
                     | _ => (v1, 0%Z, s2)
                     end in
  if (n + m =? 0)%Z then None
  else match read_exponent s3 with
       | Some e => Some (inject_Z (sg * v) * Qpower 10 (e - m))%Q
       | None => None
       end.

(** [v] is [x] rounded to [k] decimals, or to [k+1] significant digits. *)
Definition to_decimals (k : Z) (x v : Q) : Prop := (Qabs (v - x) <= (1 # 2) * Qpower 10 (- k))%Q.
Definition to_digits (k : Z) (x v : Q) : Prop := (Qabs (v - x) <= Qabs x * ((1 # 2) * Qpower 10 (- k)))%Q.

(** A line is within the width or is one word. *)
Definition fits (width : nat) (line : string) : Prop :=
  (String.length line <= width)%nat \/ words line = [line].
