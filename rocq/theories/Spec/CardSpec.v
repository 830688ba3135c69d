(** Readers of Chemkin files of thermodynamic and transport data, by columns
    and by words, and what should be read for a species. *)
From Coq Require Import String Ascii List Bool Arith ZArith QArith Qabs.
From Verif.Base Require Import Py XNum.
From Verif.Model Require Import Chem.
From Verif.Spec Require Import TextSpec ChemkinSpec.
Import ListNotations.
Local Open Scope string_scope.

(** The [n] columns after the first [i]. *)
Definition columns (i n : nat) (line : string) : string := String.substring i n line.
Definition num_field (i n : nat) (line : string) : option Q :=
  match words (columns i n line) with [w] => read_num w | _ => None end.

(** [n] numbers of 15 columns each. *)
Fixpoint wide_fields (n i : nat) (line : string) : option (list Q) :=
  match n with
  | O => Some nil
  | S k => match num_field i 15 line, wide_fields k (i + 15) line with
           | Some v, Some r => Some (v :: r)
           | _, _ => None
           end
  end.

(** [n] elements: a symbol in two columns and a count in three. *)
Fixpoint element_fields (n i : nat) (line : string) : option (list (string * Q)) :=
  match n with
  | O => Some nil
  | S k =>
      match words (columns i 5 line) with
      | nil => element_fields k (i + 5) line
      | _ => match words (columns i 2 line), num_field (i + 2) 3 line, element_fields k (i + 5) line with
             | [e], Some v, Some r => Some ((e, v) :: r)
             | _, _, _ => None
             end
      end
  end.

Record card := mkCard {
  cd_name : string; cd_elements : list (string * Q); cd_phase : string;
  cd_low : Q; cd_high : Q; cd_mid : Q;
  cd_upper : list Q;   (* coefficients above the middle temperature *)
  cd_lower : list Q
}.

(** Four lines of 80 columns, numbered in the last one. *)
Definition read_card (l1 l2 l3 l4 : string) : option card :=
  if forallb (fun x => Nat.eqb (String.length (fst x)) 80 && String.eqb (columns 79 1 (fst x)) (snd x))
             [(l1, "1"); (l2, "2"); (l3, "3"); (l4, "4")]
  then
    match words (columns 0 18 l1), element_fields 4 24 l1, num_field 45 10 l1, num_field 55 10 l1, num_field 65 8 l1 with
    | [name], Some el, Some low, Some high, Some mid =>
        match wide_fields 5 0 l2, wide_fields 2 0 l3, wide_fields 3 30 l3, wide_fields 4 0 l4 with
        | Some a, Some b, Some c, Some d => Some (mkCard name el (columns 44 1 l1) low high mid (a ++ b) (c ++ d))
        | _, _, _, _ => None
        end
    | _, _, _, _, _ => None
    end
  else None.

Fixpoint read_cards (l : list string) : option (list card) :=
  match l with
  | nil => None
  | a :: r =>
      if String.eqb a "END" then Some nil
      else match r with
           | b :: c :: d :: t =>
               match read_card a b c d, read_cards t with
               | Some x, Some xs => Some (x :: xs)
               | _, _ => None
               end
           | _ => None
           end
  end.
(** THERMO, a line of default temperatures, the cards and END. *)
Definition read_thermo (text : string) : option (list card) :=
  match lines text with
  | k :: _ :: l => if String.eqb k "THERMO" then read_cards l else None
  | _ => None
  end.

Definition shown (rounding : Q -> Q -> Prop) (x : xnum) (v : Q) : Prop := exists q, x = Fin q /\ rounding q v.

(** Cantera keeps the middle temperature first, then seven coefficients above
    and seven below it. *)
Record card_of (s : cspecies) (c : card) : Prop := {
  co_name : cd_name c = cs_name s;
  co_elements : Forall2 (fun e f => fst e = fst f /\ (snd e == snd f)%Q) (cs_comp s) (cd_elements c);
  co_phase : cd_phase c = "G";
  co_low : shown (to_decimals 3) (cs_min s) (cd_low c);
  co_high : shown (to_decimals 3) (cs_max s) (cd_high c);
  co_coeffs : exists mid upper lower, cs_coeffs s = (mid :: upper ++ lower)%list /\
    shown (to_decimals 2) mid (cd_mid c) /\
    length upper = 7%nat /\ Forall2 (shown (to_digits 8)) upper (cd_upper c) /\
    length lower = 7%nat /\ Forall2 (shown (to_digits 8)) lower (cd_lower c)
}.

(** What fits the columns. *)
Definition temperature (digits : Z) (x : xnum) : Prop :=
  exists q, x = Fin q /\ (0 <= q <= inject_Z (10 ^ digits - 1))%Q.
Definition two_digit_exponent (x : xnum) : Prop :=
  exists q, x = Fin q /\ ((q == 0)%Q \/ (Qpower 10 (-99) <= Qabs q /\ Qabs q < Qpower 10 99)%Q).
Record fits_card (s : cspecies) : Prop := {
  fc_name : token (cs_name s) /\ (String.length (cs_name s) <= 18)%nat;
  fc_elements : (length (cs_comp s) <= 4)%nat;
  fc_element : Forall (fun e => token (fst e) /\ (String.length (fst e) <= 2)%nat /\
                        exists z, (snd e == inject_Z z)%Q /\ (-99 <= z <= 999)%Z) (cs_comp s);
  fc_low : temperature 6 (cs_min s);
  fc_high : temperature 6 (cs_max s);
  fc_coeffs : exists mid l, cs_coeffs s = mid :: l /\ length l = 14%nat /\
    temperature 5 mid /\ Forall two_digit_exponent l
}.

(** ** Transport data: seven words per species *)
Definition transport := (string * list Q)%type.
Definition read_transport_line (line : string) : option transport :=
  match words line with
  | [n; g; e; d; m; p; z] => match read_nums [g; e; d; m; p; z] with Some v => Some (n, v) | None => None end
  | _ => None
  end.
Fixpoint read_transport_lines (l : list string) : option (list transport) :=
  match l with
  | nil => Some nil
  | x :: t =>
      match words x with
      | nil => read_transport_lines t
      | _ => match read_transport_line x, read_transport_lines t with
             | Some a, Some r => Some (a :: r)
             | _, _ => None
             end
      end
  end.
Definition read_transport (text : string) : option (list transport) := read_transport_lines (lines text).

(** Kelvin, Angstrom, Debye and cubic Angstrom. *)
Definition kelvin (e : Q) : Q := (e / (1380649 * Qpower 10 (-29)))%Q.
Definition angstrom (d : Q) : Q := (d / Qpower 10 (-10))%Q.
Definition debyes (m : Q) : Q := (m / (333564 * Qpower 10 (-35)))%Q.
Definition cubic_angstrom (p : Q) : Q := (p / Qpower 10 (-30))%Q.
Definition shape (geometry : string) : option Q :=
  if String.eqb geometry "atom" then Some 0%Q
  else if String.eqb geometry "linear" then Some 1%Q
  else if String.eqb geometry "nonlinear" then Some 2%Q else None.

(** The attributes that are exported. *)
Definition has_transport (s : cspecies) (g : string) (e d m p z : Q) : Prop :=
  exists t, cs_transport s = Some t /\
    dget "geometry" t = Some (TText g) /\ dget "well_depth" t = Some (TNum (Fin e)) /\
    dget "diameter" t = Some (TNum (Fin d)) /\ dget "dipole" t = Some (TNum (Fin m)) /\
    dget "polarizability" t = Some (TNum (Fin p)) /\ dget "rotational_relaxation" t = Some (TNum (Fin z)).
(** [conv x y]: [y] will do for the converted number [x]. *)
Definition transport_by (conv : Q -> Q -> Prop) (s : cspecies) (t : transport) : Prop :=
  exists g e d m p z c1 c2 c3 c4 v0 v1 v2 v3 v4 v5,
    has_transport s g e d m p z /\ t = (cs_name s, [v0; v1; v2; v3; v4; v5]) /\
    (exists n, shape g = Some n /\ (v0 == n)%Q) /\
    conv (kelvin e) c1 /\ conv (angstrom d) c2 /\ conv (debyes m) c3 /\ conv (cubic_angstrom p) c4 /\
    to_decimals 3 c1 v1 /\ to_decimals 3 c2 v2 /\ to_decimals 3 c3 v3 /\ to_decimals 3 c4 v4 /\ to_decimals 3 z v5.
Definition transport_of : cspecies -> transport -> Prop := transport_by Qeq.
(** Nine columns are enough for each number. *)
Definition narrow (x : Q) : Prop := (-(9999) <= x <= 99999)%Q.
Definition fits_by (narrow : Q -> Prop) (s : cspecies) : Prop :=
  token (cs_name s) /\
  exists g e d m p z, has_transport s g e d m p z /\ shape g <> None /\
    narrow (kelvin e) /\ narrow (angstrom d) /\ narrow (debyes m) /\ narrow (cubic_angstrom p) /\ narrow z.
Definition fits_transport : cspecies -> Prop := fits_by narrow.
