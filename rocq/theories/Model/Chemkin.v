(** [soln2ck]: writing a model as Chemkin text, and [tools.convert]. *)
From Coq Require Import String Ascii List Bool Arith ZArith QArith.
From Verif.Base Require Import Py Num XNum Paths Text.
From Verif.Model Require Import Chem Compare.
Import ListNotations.
Local Open Scope string_scope.

(** ** [textwrap.fill] (Python standard library) *)

Definition blank (c : ascii) : bool := Ascii.eqb c " ".

(** [TextWrapper._split] with [break_on_hyphens=False]: alternating words and
    runs of spaces.  Tabs and line breaks, which are replaced by spaces first,
    are not modelled: species names contain none. *)
Fixpoint chunks (s : string) : list string :=
  match s with
  | EmptyString => nil
  | String c t =>
      match chunks t with
      | String d w :: r => if Bool.eqb (blank c) (blank d) then String c (String d w) :: r
                           else String c EmptyString :: String d w :: r
      | r => String c EmptyString :: r
      end
  end.

(** [chunk.strip() == ""] *)
Fixpoint all_blank (s : string) : bool :=
  match s with EmptyString => true | String c t => blank c && all_blank t end.

(** The inner loop of [TextWrapper._wrap_chunks]: chunks that still fit. *)
Fixpoint take_line (width len : nat) (cs : list string) : list string * list string :=
  match cs with
  | nil => (nil, nil)
  | c :: t => if Nat.leb (len + String.length c) width
              then let '(a, b) := take_line width (len + String.length c) t in (c :: a, b)
              else (nil, cs)
  end.

Fixpoint drop_last_blank (l : list string) : list string :=
  match l with
  | nil => nil
  | [c] => if all_blank c then nil else [c]
  | c :: t => c :: drop_last_blank t
  end.

(** [TextWrapper._wrap_chunks] with [break_long_words=False]; [first] says that
    no line has been made yet.  Every round consumes a chunk. *)
Fixpoint wrap_chunks (fuel width : nat) (first : bool) (cs : list string) : list string :=
  match fuel with
  | O => nil
  | S f =>
      match cs with
      | nil => nil
      | c :: t =>
          let cs1 := if all_blank c && negb first then t else cs in
          let '(line, rest) := take_line width 0 cs1 in
          let '(line, rest) := match rest with
                               | c :: r => if Nat.ltb width (String.length c)
                                           then match line with nil => ([c], r) | _ => (line, rest) end
                                           else (line, rest)
                               | nil => (line, rest)
                               end in
          match drop_last_blank line with
          | nil => wrap_chunks f width first rest
          | l => String.concat "" l :: wrap_chunks f width false rest
          end
      end
  end.
Definition fill (width : nat) (s : string) : string :=
  let cs := chunks s in String.concat newline (wrap_chunks (S (length cs)) width true cs).

(** ** Rates *)

(** The arithmetic of the conversions of units: [x * y], [x / y] and
    [1e3 ** k]. *)
Record arith := mkArith { times : xnum -> xnum -> xnum; over : xnum -> xnum -> xnum; kilo : Q -> xnum }.

(** [1e3 ** x], exact for integers; [fpow] gives it for other [x]. *)
Definition thousand (fpow : Q -> Q) (x : Q) : Q :=
  let y := Qred x in
  match Qden y with xH => Qpower 1000 (Qnum y) | _ => fpow x end.

(** Without rounding. *)
Definition exact_arith (fpow : Q -> Q) : arith := mkArith xmul xdiv (fun k => Fin (thousand fpow k)).

Section Numbers.
(** [repr] is [str] of a number (the shortest text that reads back).  The sum of
    the coefficients ([order_of]) is exact. *)
Variable repr : xnum -> string.
Variable ar : arith.

(** soln2ck.py:12 *)
Definition calories : Q := 4184.

(** soln2ck.py:54-59 and 106-111 — the three numbers joined. *)
Definition arrhenius_text (A b E : string) : string := A ++ "  " ++ b ++ "  " ++ E.

(** soln2ck.py:18-59 — [build_arrhenius]. *)
Definition build_arrhenius (r : arr) (order : Q) (type : string) : res string :=
  let text := fun k => Ok (arrhenius_text (xsci 4 (times ar (a_A r) (kilo ar k))) (xfixed 3 (a_b r))
                                          (xfixed 2 (over ar (a_E r) (Fin calories)))) in
  if str_in type ["Arrhenius"; "pressure-dependent-Arrhenius"] then text (order - 1)
  else if String.eqb type "three-body-Arrhenius" then text order
  else if String.prefix "falloff-" type || String.prefix "chemically-activated" type then Raise ValueError
  else Raise NotImplementedErr.

(** soln2ck.py:62-111 — [build_falloff_arrhenius]; [low] says which of the two
    pressure limits. *)
Definition build_falloff_arrhenius (r : arr) (order : Q) (type : string) (low : bool) : res string :=
  let text := fun k => Ok (arrhenius_text (xsci 4 (times ar (a_A r) (kilo ar k))) (xfixed 3 (a_b r))
                                          (xsci 3 (over ar (a_E r) (Fin calories)))) in
  if String.prefix "falloff-" type then text (if low then order else order - 1)
  else if String.prefix "chemically-activated" type then text (if low then order - 1 else order - 2)
  else Raise ValueError.

(** [l[i]] *)
Definition item {A} (l : list A) (i : nat) : res A :=
  match nth_error l i with Some a => Ok a | None => Raise IndexError end.

(** soln2ck.py:114-144 — [build_falloff]. *)
Definition build_falloff (c : list xnum) (function : string) : res string :=
  if String.eqb function "Troe" then
    bind (mapM (item c) [0; 1; 2; 3]%nat) (fun p =>
      Ok ("TROE / " ++ String.concat "  " (map repr p) ++ " /" ++ newline))
  else if String.eqb function "SRI" then
    bind (mapM (item c) [0; 1; 2; 3; 4]%nat) (fun p =>
      Ok ("SRI / " ++ String.concat "  " (map repr p) ++ " /" ++ newline))
  else Raise NotImplementedErr.

(** [ct.one_atm] *)
Definition one_atm : Q := 101325.

(** [sum(reaction.reactants.values())] *)
Definition order_of (r : creaction) : Q := sumQ (map snd (cr_reactants r)).

(** soln2ck.py:302-335 — the numbers on the main line. *)
Definition main_line (r : creaction) : res string :=
  let t := cr_type r in
  let k := cr_rate r in
  if str_in t ["Arrhenius"; "three-body-Arrhenius"] then
    bind (attr (rt_arr k)) (fun a => build_arrhenius a (order_of r) t)
  else if String.prefix "falloff-" t then
    bind (attr (rt_high k)) (fun a => build_falloff_arrhenius a (order_of r) t false)
  else if String.prefix "chemically-activated" t then
    bind (attr (rt_low k)) (fun a => build_falloff_arrhenius a (order_of r) t true)
  else if String.eqb t "Chebyshev" then Ok "1.0e0  0.0  0.0"
  else if String.eqb t "pressure-dependent-Arrhenius" then
    bind (attr (rt_plog k)) (fun l => bind (item l 0) (fun e =>
      build_arrhenius (snd e) (order_of r) "pressure-dependent-Arrhenius"))
  else Raise NotImplementedErr.

(** soln2ck.py:339-351 — third-body efficiencies of the species present. *)
Definition efficiencies_text (names : list string) (t : option collider) : string :=
  match t with
  | None => ""
  | Some c =>
      let kept := filter (fun e => str_in (fst e) names) (co_effs c) in
      let s := String.concat "  " (map (fun e => fst e ++ "/" ++ repr (snd e) ++ "/") kept) in
      if String.eqb s "" then "" else s ++ newline
  end.

(** soln2ck.py:363-367, 378-382 *)
Definition falloff_text (k : rate) : res string :=
  bind (attr (rt_falloff k)) (fun c =>
    if Nat.ltb 0 (length c) then build_falloff c (rt_sub k) else Ok "").

(** soln2ck.py:384-392 *)
Definition plog_text (r : creaction) (l : list (Q * arr)) : res string :=
  bind (mapM (fun e =>
          bind (build_arrhenius (snd e) (order_of r) "pressure-dependent-Arrhenius") (fun s =>
          Ok ("PLOG / " ++ repr (over ar (Fin (fst e)) (Fin one_atm)) ++ " " ++ s ++ " /" ++ newline))) l)
    (fun ls => Ok (String.concat "" ls)).

(** soln2ck.py:394-404 *)
Definition cheb_text (c : cheb) : res string :=
  bind (item (ch_T c) 0) (fun t0 => bind (item (ch_T c) 1) (fun t1 =>
  bind (item (ch_P c) 0) (fun p0 => bind (item (ch_P c) 1) (fun p1 =>
    let atm := fun x => over ar x (Fin one_atm) in
    let cols := match ch_data c with r :: _ => length r | nil => 0%nat end in
    Ok ("TCHEB / " ++ repr t0 ++ "  " ++ repr t1 ++ " /" ++ newline
        ++ "PCHEB / " ++ repr (atm p0) ++ "  " ++ repr (atm p1) ++ " /" ++ newline
        ++ "CHEB / " ++ str_int (Z.of_nat (length (ch_data c))) ++ "  " ++ str_int (Z.of_nat cols) ++ " /" ++ newline
        ++ String.concat "" (map (fun row => "CHEB / " ++ String.concat " " (map (xsci 6) row) ++ " /" ++ newline)
                                 (ch_data c))))))).

(** soln2ck.py:353-404 — the auxiliary lines. *)
Definition auxiliary (r : creaction) : res string :=
  let t := cr_type r in
  let k := cr_rate r in
  if String.prefix "falloff-" t then
    bind (attr (rt_low k)) (fun a =>
    bind (build_falloff_arrhenius a (order_of r) t true) (fun s =>
    bind (falloff_text k) (fun f => Ok ("LOW / " ++ s ++ " /" ++ newline ++ f))))
  else if String.prefix "chemically-activated" t then
    bind (attr (rt_high k)) (fun a =>
    bind (build_falloff_arrhenius a (order_of r) t false) (fun s =>
    bind (falloff_text k) (fun f => Ok ("HIGH / " ++ s ++ " /" ++ newline ++ f))))
  else if String.eqb t "pressure-dependent-Arrhenius" then
    bind (attr (rt_plog k)) (plog_text r)
  else if String.eqb t "Chebyshev" then bind (attr (rt_cheb k)) cheb_text
  else Ok "".

(** soln2ck.py:295-409 — the text of one reaction. *)
Definition reaction_text (names : list string) (r : creaction) : res string :=
  bind (main_line r) (fun a =>
  bind (auxiliary r) (fun x =>
    Ok (ljust 51 (cr_equation r) ++ a ++ newline
        ++ efficiencies_text names (cr_third r) ++ x
        ++ (if cr_duplicate r then "DUPLICATE" ++ newline else "")))).

(** A [for] loop that writes one text per element to an open file: what has
    been written, and the exception that ended it. *)
Fixpoint write_each {A} (f : A -> res string) (l : list A) : string * res unit :=
  match l with
  | nil => ("", Ok tt)
  | x :: t =>
      match f x with
      | Ok s => let '(u, r) := write_each f t in (s ++ u, r)
      | Raise e => ("", Raise e)
      | NoFuel => ("", NoFuel)
      end
  end.

(** soln2ck.py:274-411 — the content of the model file. *)
Definition model_header (s : csolution) : string :=
  "!Chemkin file converted from solution object: " ++ so_name s ++ newline ++ newline
  ++ "ELEMENTS" ++ newline ++ String.concat "  " (so_elements s) ++ newline ++ "END" ++ newline ++ newline
  ++ "SPECIES" ++ newline ++ fill 60 (String.concat "  " (map cs_name (so_species s))) ++ newline
  ++ "END" ++ newline ++ newline
  ++ "REACTIONS" ++ newline.
Definition model_text (s : csolution) : string * res unit :=
  let '(t, r) := write_each (reaction_text (map cs_name (so_species s))) (so_reactions s) in
  match r with
  | Ok _ => (model_header s ++ t ++ "END", Ok tt)
  | _ => (model_header s ++ t, r)
  end.

(** ** Thermodynamic and transport data *)

(** soln2ck.py:165-167; [int] truncates. *)
Definition composition_text (c : dict Q) : string :=
  String.concat "" (map (fun e => ljust 2 (fst e) ++ rjust 3 (str_int (Z.quot (Qnum (snd e)) (Zpos (Qden (snd e)))))) c).

(** [l[i:j]] for [i <= j] *)
Definition slice {A} (l : list A) (i j : nat) : list A := firstn (j - i) (skipn i l).

(** soln2ck.py:163-200 — the four lines of one species. *)
Definition coeff_text (l : list xnum) : string := String.concat "" (map (fun c => rjust 15 (xsci 8 c)) l).
Definition thermo_entry (s : cspecies) : res string :=
  bind (item (cs_coeffs s) 0) (fun mid =>
    Ok (ljust 18 (cs_name s) ++ spaces 6 ++ ljust 20 (composition_text (cs_comp s)) ++ "G"
        ++ rjust 10 (xfixed 3 (cs_min s)) ++ rjust 10 (xfixed 3 (cs_max s)) ++ rjust 8 (xfixed 2 mid)
        ++ spaces 6 ++ "1" ++ newline
        ++ coeff_text (slice (cs_coeffs s) 1 6) ++ "    " ++ "2" ++ newline
        ++ coeff_text (slice (cs_coeffs s) 6 8) ++ coeff_text (slice (cs_coeffs s) 8 11) ++ "    " ++ "3" ++ newline
        ++ coeff_text (slice (cs_coeffs s) 11 15) ++ spaces 19 ++ "4" ++ newline)).

(** soln2ck.py:147-202 — [write_thermo_data]. *)
Definition thermo_text (l : list cspecies) : string * res unit :=
  let head := "THERMO" ++ newline ++ "   300.000  1000.000  5000.000" ++ newline in
  let '(t, r) := write_each thermo_entry l in
  match r with
  | Ok _ => (head ++ t ++ "END" ++ newline, Ok tt)
  | _ => (head ++ t, r)
  end.

(** soln2ck.py:15 and [ct.boltzmann] *)
Definition debye : Q := 333564 # (10 ^ 35).
Definition boltzmann : Q := 1380649 # (10 ^ 29).

(** soln2ck.py:205-233 — [write_transport_data]. *)
Definition geometries : dict string := [("atom", "0"); ("linear", "1"); ("nonlinear", "2")].
Definition get_attr (a : string) (t : option (dict tval)) : res tval :=
  match t with Some d => attr (dget a d) | None => Raise AttributeError end.
Definition get_number (a : string) (t : option (dict tval)) : res xnum :=
  bind (get_attr a t) (fun v => match v with TNum x => Ok x | _ => Raise TypeError end).
Definition transport_entry (s : cspecies) : res string :=
  let t := cs_transport s in
  bind (get_attr "geometry" t) (fun g =>
  bind (match g with
        | TText n => match dget n geometries with Some d => Ok d | None => Raise KeyError end
        | _ => Raise KeyError
        end) (fun g =>
  bind (get_number "well_depth" t) (fun w =>
  bind (get_number "diameter" t) (fun d =>
  bind (get_number "dipole" t) (fun m =>
  bind (get_number "polarizability" t) (fun p =>
  bind (get_number "rotational_relaxation" t) (fun z =>
    Ok (ljust 16 (cs_name s) ++ rjust 4 g
        ++ rjust 10 (xfixed 3 (over ar w (Fin boltzmann)))
        ++ rjust 10 (xfixed 3 (times ar d (Fin (inject_Z (10 ^ 10)))))
        ++ rjust 10 (xfixed 3 (over ar m (Fin debye)))
        ++ rjust 10 (xfixed 3 (times ar p (Fin (inject_Z (10 ^ 30)))))
        ++ rjust 10 (xfixed 3 z) ++ newline)))))))).
Definition transport_text (l : list cspecies) : string * res unit := write_each transport_entry l.

(** soln2ck.py:236-425 — [write]: the files written, in order, with their
    contents, and the outcome. *)
Definition write (s : csolution) (output_filename path : string) (skip_thermo skip_transport : bool)
  : list (string * string) * res (list string) :=
  let name := path_join path (if String.eqb output_filename "" then so_name s ++ ".inp" else output_filename) in
  let '(model, r) := model_text s in
  let files := [(name, model)] in
  match r with
  | Raise e => (files, Raise e)
  | NoFuel => (files, NoFuel)
  | Ok _ =>
      let base := fst (splitext name) in
      let '(th, rt) := if skip_thermo then (nil, Ok tt)
                       else let '(x, r) := thermo_text (so_species s) in ([(base ++ "_thermo.dat", x)], r) in
      match rt with
      | Raise e => ((files ++ th)%list, Raise e)
      | NoFuel => ((files ++ th)%list, NoFuel)
      | Ok _ =>
          let '(tr, rr) := if negb skip_transport && forallb (fun sp => match cs_transport sp with Some _ => true | None => false end) (so_species s)
                           then let '(x, r) := transport_text (so_species s) in ([(base ++ "_transport.dat", x)], r)
                           else (nil, Ok tt) in
          let all := (files ++ th ++ tr)%list in
          match rr with
          | Raise e => (all, Raise e)
          | NoFuel => (all, NoFuel)
          | Ok _ => (all, Ok (map fst all))
          end
      end
  end.

(** tools.py:169-228 — [convert]: the files written and what is returned, a
    list of names or one name.  [load] is [ct.Solution], [ck2yaml] is
    [ck2yaml.main], which writes the file named by [--output]. *)
Inductive converted := Names (l : list string) | Name (s : string).
Definition basename (p : string) : string := string_of_list_ascii (after_slash (list_ascii_of_string p)).
Definition given (prefix : string) (f : string) : list string := if String.eqb f "" then nil else [prefix ++ f].
Definition convert (load : string -> res csolution) (ck2yaml : list string -> res unit)
           (model_file thermo_file transport_file path : string) : list (string * string) * res converted :=
  let base := fst (splitext (basename model_file)) in
  let ext := snd (splitext (basename model_file)) in
  if str_in ext [".yaml"; ".yml"; ".cti"] then
    match load model_file with
    | Ok s => let '(files, r) := write s (base ++ ".inp") path false false in
              (files, bind r (fun l => Ok (Names l)))
    | Raise e => (nil, Raise e)
    | NoFuel => (nil, NoFuel)
    end
  else
    let out := path_join path (base ++ ".yaml") in
    let args := app ["--input=" ++ model_file] (app (given "--thermo=" thermo_file)
                 (app (given "--transport=" transport_file) ["--output=" ++ out; "--permissive"])) in
    (nil, bind (ck2yaml args) (fun _ => Ok (Name out))).
End Numbers.
