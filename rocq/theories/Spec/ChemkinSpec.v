(** A small reader of Chemkin model files, and when a reaction that was read
    describes a reaction of a model.

    The reader follows the format as the Chemkin manual and Cantera's
    [ck2yaml] describe it: sections between a keyword and END; in the section
    of reactions a line without slash gives equation, A, b and E, and lines
    with slashes or the word DUPLICATE belong to the equation before them. *)
From Coq Require Import String Ascii List Bool ZArith QArith Qabs.
From Verif.Base Require Import Py XNum.
From Verif.Model Require Import Chem.
From Verif.Spec Require Import TextSpec.
Import ListNotations.
Local Open Scope string_scope.

(** ** Sections *)
Fixpoint before (stop : string) (l : list string) : list string :=
  match l with
  | nil => nil
  | x :: t => if String.eqb x stop then nil else x :: before stop t
  end.
Fixpoint after (start : string) (l : list string) : list string :=
  match l with
  | nil => nil
  | x :: t => if String.eqb x start then t else after start t
  end.
Definition section (keyword text : string) : list string := before "END" (after keyword (lines text)).

Definition names_in (keyword text : string) : list string := concat (map words (section keyword text)).

(** ** Reactions *)
Inductive aux : Type :=
| Duplicate
| Data (keyword : string) (numbers : list Q)
| Efficiencies (l : list (string * Q)).

(** Equation without blanks, the three numbers beside it, and what follows. *)
Record entry := mkEntry { e_equation : string; e_rate : list Q; e_aux : list aux }.

Fixpoint read_nums (l : list string) : option (list Q) :=
  match l with
  | nil => Some nil
  | w :: t => match read_num w, read_nums t with Some v, Some vs => Some (v :: vs) | _, _ => None end
  end.

Definition squeeze (s : string) : string := String.concat "" (words s).

Definition read_main (line : string) : option (string * list Q) :=
  match rev (words line) with
  | E :: b :: A :: eq =>
      match read_nums [A; b; E] with
      | Some v => Some (String.concat "" (rev eq), v)
      | None => None
      end
  | _ => None
  end.

Definition data_keywords : list string := ["LOW"; "HIGH"; "TROE"; "SRI"; "PLOG"; "TCHEB"; "PCHEB"; "CHEB"].

(** Name and number in turn, and nothing after the last slash. *)
Fixpoint read_pairs (l : list string) : option (list (string * Q)) :=
  match l with
  | [e] => match words e with nil => Some nil | _ => None end
  | n :: v :: t =>
      match words n, words v with
      | [n], [v] => match read_num v, read_pairs t with
                    | Some x, Some r => Some ((n, x) :: r)
                    | _, _ => None
                    end
      | _, _ => None
      end
  | nil => None
  end.

Definition read_aux (line : string) : option aux :=
  if String.eqb line "DUPLICATE" then Some Duplicate
  else
    let parts := split_on is_slash line in
    let efficiencies := match read_pairs parts with Some l => Some (Efficiencies l) | None => None end in
    match parts with
    | [k; body; e] =>
        match words k, words e with
        | [k], nil => if str_in k data_keywords
                      then match read_nums (words body) with Some v => Some (Data k v) | None => None end
                      else efficiencies
        | _, _ => efficiencies
        end
    | _ => efficiencies
    end.

Definition is_aux (line : string) : bool :=
  String.eqb line "DUPLICATE" || match split_on is_slash line with [_] => false | _ => true end.

(** The auxiliary lines before the first equation, and the entries. *)
Fixpoint group (l : list string) : option (list aux * list entry) :=
  match l with
  | nil => Some (nil, nil)
  | x :: t =>
      match group t with
      | None => None
      | Some (pending, es) =>
          if is_aux x
          then match read_aux x with Some a => Some (a :: pending, es) | None => None end
          else match read_main x with Some (eq, v) => Some (nil, mkEntry eq v pending :: es) | None => None end
      end
  end.
Definition read_reactions (text : string) : option (list entry) :=
  match group (section "REACTIONS" text) with
  | Some (nil, es) => Some es
  | _ => None
  end.

(** ** What a reaction should look like in the file *)

(** Chemkin uses mol, cm and cal, the model kmol, m and J: an A factor of a
    reaction of molecularity [m] is in (m^3/kmol)^(m-1)/s. *)
Definition cgs (m : Z) (A : Q) : Q := (A * Qpower (1000000 / 1000) (m - 1))%Q.
Definition cal_per_mol (E : Q) : Q := (E / (1000 * (4184 # 1000)))%Q.
Definition atm (p : Q) : Q := (p / 101325)%Q.

(** Numbers written by [str]: 15 digits. *)
Definition precise (x v : Q) : Prop := (Qabs (v - x) <= Qabs x * (1 # 1000000000000000))%Q.
Definition precise_x (x : xnum) (v : Q) : Prop := exists q, x = Fin q /\ precise q v.
Definition precise_all (l : list xnum) (v : list Q) : Prop := Forall2 precise_x l v.

(** Sum of the coefficients of the reactants. *)
Definition order (r : creaction) (n : Z) : Prop :=
  (fold_right (fun e s => snd e + s) 0 (cr_reactants r) == inject_Z n)%Q.

(** [w] is what follows the prefix [p]. *)
Definition starts (p s : string) : Prop := exists w, s = p ++ w.

(** The data of the broadening function, if there are any. *)
Inductive broadening (k : rate) : list aux -> Prop :=
| no_broadening : rt_falloff k = Some nil -> broadening k nil
| troe : forall c v, rt_falloff k = Some c -> rt_sub k = "Troe" -> precise_all c v -> broadening k [Data "TROE" v]
| sri : forall c v, rt_falloff k = Some c -> rt_sub k = "SRI" -> precise_all c v -> broadening k [Data "SRI" v].

Section Conversion.
(** [conv x y]: [y] will do for the converted number [x]. *)
Variable conv : Q -> Q -> Prop.

(** [v] shows the rate [a]: A to 5 digits, b to 3 decimals and E as
    [energy] says. *)
Definition shows (m : Z) (energy : Q -> Q -> Prop) (a : arr) (v : list Q) : Prop :=
  exists A b E cA cE vA vb vE,
    a = mkArr (Fin A) (Fin b) (Fin E) /\ v = [vA; vb; vE] /\ conv (cgs m A) cA /\ conv (cal_per_mol E) cE /\
    to_digits 4 cA vA /\ to_decimals 3 b vb /\ energy cE vE.

(** The kinetics of [r] as numbers beside the equation and auxiliary data.
    Chebyshev coefficients are those of the model, which is not what Chemkin
    expects: see [chebyshev_units_refuted]. *)
Inductive kinetics (r : creaction) : list Q -> list aux -> Prop :=
| k_arrhenius : forall n a v,
    cr_type r = "Arrhenius" -> order r n -> rt_arr (cr_rate r) = Some a ->
    shows n (to_decimals 2) a v -> kinetics r v nil
| k_three_body : forall n a v,
    cr_type r = "three-body-Arrhenius" -> order r n -> rt_arr (cr_rate r) = Some a ->
    shows (n + 1) (to_decimals 2) a v -> kinetics r v nil
| k_falloff : forall n low high v w x,
    starts "falloff-" (cr_type r) -> order r n ->
    rt_low (cr_rate r) = Some low -> rt_high (cr_rate r) = Some high ->
    shows n (to_digits 3) high v -> shows (n + 1) (to_digits 3) low w ->
    broadening (cr_rate r) x -> kinetics r v (Data "LOW" w :: x)
| k_activated : forall n low high v w x,
    starts "chemically-activated" (cr_type r) -> order r n ->
    rt_low (cr_rate r) = Some low -> rt_high (cr_rate r) = Some high ->
    shows n (to_digits 3) low v -> shows (n - 1) (to_digits 3) high w ->
    broadening (cr_rate r) x -> kinetics r v (Data "HIGH" w :: x)
| k_plog : forall n p a t v l,
    cr_type r = "pressure-dependent-Arrhenius" -> order r n -> rt_plog (cr_rate r) = Some ((p, a) :: t) ->
    shows n (to_decimals 2) a v ->
    Forall2 (fun e x => exists cp vp w, x = Data "PLOG" (vp :: w) /\
               conv (atm (fst e)) cp /\ precise cp vp /\ shows n (to_decimals 2) (snd e) w) ((p, a) :: t) l ->
    kinetics r v l
| k_chebyshev : forall c t0 t1 p0 p1 cols v vt cp vp vn rows,
    cr_type r = "Chebyshev" -> rt_cheb (cr_rate r) = Some c ->
    ch_T c = [Fin t0; Fin t1] -> ch_P c = [Fin p0; Fin p1] ->
    (forall row, In row (ch_data c) -> length row = cols) -> ch_data c <> nil ->
    Forall2 Qeq [1; 0; 0]%Q v -> Forall2 precise [t0; t1] vt ->
    Forall2 conv [atm p0; atm p1] cp -> Forall2 precise cp vp ->
    Forall2 Qeq [inject_Z (Z.of_nat (length (ch_data c))); inject_Z (Z.of_nat cols)] vn ->
    Forall2 (fun row x => exists v, x = Data "CHEB" v /\
               Forall2 (fun c y => exists q, c = Fin q /\ to_digits 6 q y) row v) (ch_data c) rows ->
    kinetics r v (Data "TCHEB" vt :: Data "PCHEB" vp :: Data "CHEB" vn :: rows).

(** The efficiencies of species of the model. *)
Definition third (names : list string) (t : option collider) (x : list aux) : Prop :=
  match t with
  | None => x = nil
  | Some c =>
      exists l, Forall2 (fun e f => fst e = fst f /\ precise_x (snd e) (snd f))
                        (filter (fun e => if in_dec string_dec (fst e) names then true else false) (co_effs c)) l /\
                x = match l with nil => nil | _ => [Efficiencies l] end
  end.

Definition describes_by (names : list string) (r : creaction) (e : entry) : Prop :=
  exists effs data,
    e_equation e = squeeze (cr_equation r) /\
    third names (cr_third r) effs /\ kinetics r (e_rate e) data /\
    e_aux e = (effs ++ data ++ (if cr_duplicate r then [Duplicate] else []))%list.
End Conversion.

(** Converted without error. *)
Definition describes : list string -> creaction -> entry -> Prop := describes_by Qeq.

(** ** Assumptions *)

(** A name or number: one word without slash. *)
Definition bad (c : ascii) : bool := is_blank c || is_slash c.
Definition token (s : string) : Prop := s <> "" /\ free bad s.
Definition section_keywords : list string := ["ELEMENTS"; "SPECIES"; "REACTIONS"; "END"].
Definition usable_name (s : string) : Prop := token s /\ ~ In s (section_keywords ++ data_keywords).

(** An equation that fits the columns before the numbers. *)
Definition usable_equation (s : string) : Prop :=
  free is_newline s /\ free is_slash s /\ (String.length s < 51)%nat.

(** [str] of a number is a word that reads back. *)
Definition prints (str : xnum -> string) : Prop :=
  forall q, token (str (Fin q)) /\ exists v, read_num (str (Fin q)) = Some v /\ precise q v.

Definition finite (x : xnum) : Prop := exists q, x = Fin q.
Definition finite_arr (a : arr) : Prop := finite (a_A a) /\ finite (a_b a) /\ finite (a_E a).

(** A falloff reaction whose broadening function has no data, or those that
    Chemkin expects for it. *)
Definition whole_broadening (k : rate) : Prop :=
  exists c, rt_falloff k = Some c /\ Forall finite c /\
    (c = nil \/ rt_sub k = "Troe" /\ length c = 4%nat \/ rt_sub k = "SRI" /\ length c = 5%nat).

(** The reactions that the file can hold: rate data of their type, all numbers
    finite. *)
Inductive exportable (r : creaction) : Prop :=
| x_arrhenius : forall n a, cr_type r = "Arrhenius" \/ cr_type r = "three-body-Arrhenius" ->
    order r n -> rt_arr (cr_rate r) = Some a -> finite_arr a -> exportable r
| x_falloff : forall n low high, starts "falloff-" (cr_type r) \/ starts "chemically-activated" (cr_type r) ->
    order r n -> rt_low (cr_rate r) = Some low -> rt_high (cr_rate r) = Some high ->
    finite_arr low -> finite_arr high -> whole_broadening (cr_rate r) -> exportable r
| x_plog : forall n l, cr_type r = "pressure-dependent-Arrhenius" -> order r n ->
    rt_plog (cr_rate r) = Some l -> l <> nil -> Forall (fun e => finite_arr (snd e)) l -> exportable r
| x_chebyshev : forall c t0 t1 p0 p1 cols, cr_type r = "Chebyshev" -> rt_cheb (cr_rate r) = Some c ->
    ch_T c = [Fin t0; Fin t1] -> ch_P c = [Fin p0; Fin p1] ->
    (forall row, In row (ch_data c) -> length row = cols) -> ch_data c <> nil ->
    Forall (Forall finite) (ch_data c) -> exportable r.

Definition usable_reaction (r : creaction) : Prop :=
  usable_equation (cr_equation r) /\ exportable r /\
  (forall c, cr_third r = Some c -> Forall (fun e => finite (snd e)) (co_effs c)).

Record usable_model (s : csolution) : Prop := {
  us_name : free is_newline (so_name s);
  us_elements : Forall usable_name (so_elements s);
  us_species : Forall usable_name (map cs_name (so_species s));
  us_reactions : Forall usable_reaction (so_reactions s)
}.
