(** Reading and checking inputs: sampling.py:714-1001, pymars.py:29-149. *)
From Coq Require Import String Ascii List QArith ZArith Bool Arith.
From Verif.Base Require Import Py Num XNum Paths.
From Verif.Model Require Import Mech World Metrics Simulation.
Import ListNotations.
Local Open Scope string_scope.

(** What [yaml.safe_load] produces: None, booleans, integers, floats, strings,
    lists and dictionaries (dates, sets and byte strings are left out).  Keys
    of a dictionary need not be strings; they are distinct. *)
Inductive yval : Type :=
| YNull
| YBool (b : bool)
| YInt (z : Z)
| YNum (x : xnum)
| YStr (s : string)
| YList (l : list yval)
| YDict (d : list (yval * yval)).

(** Python truth. *)
Definition ytrue (v : yval) : bool :=
  match v with
  | YNull => false
  | YBool b => b
  | YInt z => negb (Z.eqb z 0)
  | YNum (Fin q) => Qnz q
  | YNum _ => true
  | YStr s => negb (String.eqb s "")
  | YList l => match l with nil => false | _ => true end
  | YDict d => match d with nil => false | _ => true end
  end.

(** The number that a comparison with a number sees: booleans are 0 and 1. *)
Definition ynum (v : yval) : option xnum :=
  match v with
  | YBool b => Some (Fin (if b then 1 else 0))
  | YInt z => Some (Fin (inject_Z z))
  | YNum x => Some x
  | _ => None
  end.

(** [v > 0]; other types cannot be compared with a number. *)
Definition ygt0 (v : yval) : res bool :=
  match ynum v with Some x => Ok (xgt x (Fin 0)) | None => Raise TypeError end.

(** [v == s] for a string [s]. *)
Definition is_str (s : string) (v : yval) : bool :=
  match v with YStr t => String.eqb t s | _ => false end.

(** [d.get(key, default)]; only dictionaries have the method. *)
Definition dlook (key : string) (d : list (yval * yval)) : option yval :=
  match find (fun kv => is_str key (fst kv)) d with Some kv => Some (snd kv) | None => None end.
Definition yget (key : string) (default : yval) (v : yval) : res yval :=
  match v with
  | YDict d => Ok (match dlook key d with Some x => x | None => default end)
  | _ => Raise AttributeError
  end.

(** [for x in v], [list(v)]: the elements, the keys, the characters. *)
Definition yiter (v : yval) : res (list yval) :=
  match v with
  | YList l => Ok l
  | YDict d => Ok (map fst d)
  | YStr s => Ok (map (fun c => YStr (String c "")) (list_ascii_of_string s))
  | _ => Raise TypeError
  end.

(** [v in names] for a list of strings. *)
Definition name_in (v : yval) (names : list string) : bool :=
  match v with YStr s => str_in s names | _ => false end.

(** A failing assertion whose message is [pre + … + entry]: a TypeError if
    [entry] is not a string. *)
Definition fail_entry {A} (entry : yval) : res A :=
  match entry with YStr _ => Raise AssertionError | _ => Raise TypeError end.

Definition check (b : bool) : res unit := if b then Ok tt else Raise AssertionError.

Fixpoint each {A} (f : A -> res unit) (l : list A) : res unit :=
  match l with nil => Ok tt | x :: t => bind (f x) (fun _ => each f t) end.

(** sampling.py:766-770, 773-779, 782-788 (and the copies at 861-883,
    956-978): [for entry in v: assert v[entry] > 0; assert entry in names], for
    [v] true.  A list is indexed with its own first element; whatever comes
    out, the message of the failing assertion cannot be built. *)
Definition check_entries (names : list string) (v : yval) : res unit :=
  match v with
  | YDict d => each (fun kv => bind (ygt0 (snd kv)) (fun b =>
                 if b && name_in (fst kv) names then Ok tt else fail_entry (fst kv))) d
  | YList (YInt z :: _ as l) =>
      let n := Z.of_nat (length l) in
      if Z.leb (- n) z && Z.ltb z n then Raise TypeError else Raise IndexError
  | YList (YBool true :: nil) => Raise IndexError
  | _ => Raise TypeError
  end.

(** The fields of the three input classes that give the composition, as they
    were read. *)
Record raw_mix := mkRM_ { rm_ratio : yval; rm_fuel : yval; rm_oxidizer : yval; rm_reactants : yval; rm_type : yval }.

(** sampling.py:752-796 (847-891, 942-986): the composition of a case. *)
Definition parse_mix (names : list string) (case : yval) : res raw_mix :=
  bind (yget "equivalence-ratio" (YNum (Fin 0)) case) (fun ratio =>
  bind (yget "fuel" (YList nil) case) (fun fuel =>
  bind (yget "oxidizer" (YList nil) case) (fun oxidizer =>
  bind (yget "reactants" (YList nil) case) (fun reactants =>
  let by_ratio := ytrue ratio || ytrue fuel || ytrue oxidizer in
  bind (check (xorb by_ratio (ytrue reactants))) (fun _ =>
  bind (if by_ratio then
          bind (ygt0 ratio) (fun b => bind (check b) (fun _ =>
          bind (check (ytrue fuel)) (fun _ =>
          bind (check_entries names fuel) (fun _ =>
          bind (check (ytrue oxidizer)) (fun _ =>
          check_entries names oxidizer)))))
        else Ok tt) (fun _ =>
  bind (if ytrue reactants then check_entries names reactants else Ok tt) (fun _ =>
  bind (yget "composition-type" (YStr "mole") case) (fun ctype =>
  bind (check (is_str "mole" ctype || is_str "mass" ctype)) (fun _ =>
  bind (check (negb (is_str "mass" ctype && ytrue ratio))) (fun _ =>
  Ok (mkRM_ ratio fuel oxidizer reactants ctype))))))))))).

(** The input classes (sampling.py:23-72) with values as they were read. *)
Record raw_ign := mkRI { ri_kind : yval; ri_T : yval; ri_P : yval; ri_end : yval; ri_steps : yval; ri_mix : raw_mix }.
Record raw_psr := mkRP { rp_T : yval; rp_P : yval; rp_mix : raw_mix }.
Record raw_flame := mkRF { rf_T : yval; rf_P : yval; rf_width : yval; rf_mix : raw_mix }.

Definition check_pos (v : yval) : res unit := bind (ygt0 v) check.

(** sampling.py:736-811 — one case of [parse_ignition_inputs]. *)
Definition parse_ign (names : list string) (case : yval) : res raw_ign :=
  bind (yget "kind" (YStr "") case) (fun kind =>
  bind (yget "temperature" (YNum (Fin 0)) case) (fun T =>
  bind (yget "pressure" (YNum (Fin 0)) case) (fun P =>
  bind (check (is_str "constant volume" kind || is_str "constant pressure" kind)) (fun _ =>
  bind (check_pos T) (fun _ =>
  bind (check_pos P) (fun _ =>
  bind (yget "end-time" (YInt 0) case) (fun tend =>
  bind (yget "max-steps" (YInt 10000) case) (fun steps =>
  bind (parse_mix names case) (fun x =>
  Ok (mkRI kind T P tend steps x)))))))))).

(** sampling.py:838-903 — one case of [parse_psr_inputs]. *)
Definition parse_psr (names : list string) (case : yval) : res raw_psr :=
  bind (yget "temperature" (YNum (Fin 0)) case) (fun T =>
  bind (yget "pressure" (YNum (Fin 0)) case) (fun P =>
  bind (check_pos T) (fun _ =>
  bind (check_pos P) (fun _ =>
  bind (parse_mix names case) (fun x =>
  Ok (mkRP T P x)))))).

(** sampling.py:930-999 — one case of [parse_flame_inputs].  The default width
    is the double nearest to 0.1; the model takes 1/10. *)
Definition parse_flame (names : list string) (case : yval) : res raw_flame :=
  bind (yget "temperature" (YNum (Fin 0)) case) (fun T =>
  bind (yget "pressure" (YNum (Fin 0)) case) (fun P =>
  bind (check_pos T) (fun _ =>
  bind (check_pos P) (fun _ =>
  bind (yget "width" (YNum (Fin (1 # 10))) case) (fun width =>
  bind (check_pos width) (fun _ =>
  bind (parse_mix names case) (fun x =>
  Ok (mkRF T P width x)))))))).

(** sampling.py:714-813, 816-905, 908-1001: load the model, go through the
    cases. *)
Definition parse_cases {A} (parse : list string -> yval -> res A) (model phase : string) (conditions : yval)
  : M (list A) :=
  gas <- load model phase ;;
  cs <- mlift (yiter conditions) ;;
  mlift (mapM (parse (species_names gas)) cs).
Definition parse_ignition_inputs := parse_cases parse_ign.
Definition parse_psr_inputs := parse_cases parse_psr.
Definition parse_flame_inputs := parse_cases parse_flame.

(** pymars.py:29-46 — [ReductionInputs]. *)
Record inputs := mkInputs {
  in_model : string;
  in_error : yval;
  in_ign : list raw_ign;
  in_psr : list raw_psr;
  in_flame : list raw_flame;
  in_method : yval;
  in_targets : yval;
  in_safe : yval;
  in_sa : yval;
  in_upper : yval;
  in_type : yval;
  in_phase : string;
  in_floor : yval
}.

(** [sp in v]: an element, a key, a substring. *)
Definition yin (sp v : yval) : res bool :=
  match v with
  | YList l => Ok (existsb (fun x => match sp with YStr s => is_str s x | _ => false end) l)
  | YDict d => Ok (existsb (fun kv => match sp with YStr s => is_str s (fst kv) | _ => false end) d)
  | YStr t => match sp with
              | YStr s => Ok (match index 0 s t with Some _ => true | None => false end)
              | _ => Raise TypeError
              end
  | _ => Raise TypeError
  end.

(** [v.append(sp)] *)
Definition yappend (v sp : yval) : res yval :=
  match v with YList l => Ok (YList (l ++ [sp])) | _ => Raise AttributeError end.

(** [list(case.fuel) + list(case.oxidizer) + list(case.reactants)] *)
Definition mix_species (x : raw_mix) : res (list yval) :=
  bind (yiter (rm_fuel x)) (fun a => bind (yiter (rm_oxidizer x)) (fun b =>
  bind (yiter (rm_reactants x)) (fun c => Ok (a ++ b ++ c)%list))).

(** pymars.py:130-133 *)
Fixpoint retain (targets safe : yval) (sps : list yval) : res yval :=
  match sps with
  | nil => Ok safe
  | sp :: t =>
      bind (yin sp targets) (fun a =>
      if a then retain targets safe t
      else bind (yin sp safe) (fun b =>
           if b then retain targets safe t
           else bind (yappend safe sp) (fun safe => retain targets safe t)))
  end.
Fixpoint retain_all (targets safe : yval) (cases : list raw_mix) : res yval :=
  match cases with
  | nil => Ok safe
  | x :: t => bind (mix_species x) (fun sps => bind (retain targets safe sps) (fun safe => retain_all targets safe t))
  end.

(** Assigning to a key that is there. *)
Definition dreplace (key : string) (v : yval) (d : list (yval * yval)) : list (yval * yval) :=
  map (fun kv => if is_str key (fst kv) then (fst kv, v) else kv) d.

(** pymars.py:49-149 — [parse_inputs].  Besides the inputs it gives the
    dictionary as it is afterwards: a list under "retained-species" is extended
    in place (lists that the YAML file shares through an alias are not
    modelled).  Model and phase names that are not strings, which Cantera
    rejects, raise TypeError.  Loading raises CanteraError where lines 100-103
    would turn a ValueError into another one. *)
Definition parse_inputs (dict : yval) : M (inputs * yval) :=
  model <- mlift (yget "model" (YStr "") dict) ;;
  mlift (check (ytrue model)) ;;;
  error <- mlift (yget "error" (YNum (Fin 0)) dict) ;;
  mlift (check (ytrue error)) ;;;
  method <- mlift (yget "method" (YStr "") dict) ;;
  sa <- mlift (yget "sensitivity-analysis" (YBool false) dict) ;;
  mlift (check (ytrue method || ytrue sa)) ;;;
  targets <- mlift (yget "targets" (YList nil) dict) ;;
  (if ytrue method
   then mlift (check (is_str "DRG" method || is_str "DRGEP" method || is_str "PFA" method)) ;;;
        mlift (check (ytrue targets))
   else mret tt) ;;;
  upper <- mlift (yget "upper-threshold" YNull dict) ;;
  let upper := if negb (ytrue upper) && ytrue sa then YNum (Fin (1 # 10)) else upper in
  stype <- mlift (yget "sensitivity-type" (YStr "initial") dict) ;;
  safe <- mlift (yget "retained-species" (YList nil) dict) ;;
  phase <- mlift (yget "phase-name" (YStr "") dict) ;;
  floor <- mlift (yget "min-flame-speed" YNull dict) ;;
  match model, phase with
  | YStr model, YStr phase =>
      gas <- load model phase ;;
      ts <- mlift (yiter targets) ;;
      mlift (each (fun sp => check (name_in sp (species_names gas))) ts) ;;;
      ss <- mlift (yiter safe) ;;
      mlift (each (fun sp => check (name_in sp (species_names gas))) ss) ;;;
      ci <- mlift (yget "autoignition-conditions" (YDict nil) dict) ;;
      cp <- mlift (yget "psr-conditions" (YDict nil) dict) ;;
      cf <- mlift (yget "laminar-flame-conditions" (YDict nil) dict) ;;
      mlift (check (ytrue ci || ytrue cp || ytrue cf)) ;;;
      ri <- parse_ignition_inputs model phase ci ;;
      rp <- parse_psr_inputs model phase cp ;;
      rf <- parse_flame_inputs model phase cf ;;
      safe' <- mlift (retain_all targets safe (map ri_mix ri ++ map rp_mix rp ++ map rf_mix rf)%list) ;;
      let dict' := match dict with YDict d => YDict (dreplace "retained-species" safe' d) | v => v end in
      mret (mkInputs model error ri rp rf method targets safe' sa upper stype phase floor, dict')
  | _, _ => mraise TypeError
  end.

(** ** Typed cases *)

(** A finite number. *)
Definition yfin (v : yval) : option Q := match ynum v with Some (Fin q) => Some q | _ => None end.
(** A dictionary from names to finite numbers; anything false is empty. *)
Fixpoint amounts (d : list (yval * yval)) : option (dict Q) :=
  match d with
  | nil => Some nil
  | (YStr s, v) :: t => match yfin v, amounts t with Some q, Some r => Some ((s, q) :: r) | _, _ => None end
  | _ => None
  end.
Definition yamounts (v : yval) : option (dict Q) :=
  if ytrue v then match v with YDict d => amounts d | _ => None end else Some nil.

(** The same composition with typed fields, if its numbers are finite. *)
Definition typed_mix (x : raw_mix) : option mixture :=
  match (if ytrue (rm_ratio x) then yfin (rm_ratio x) else Some 0%Q), yamounts (rm_fuel x), yamounts (rm_oxidizer x),
        yamounts (rm_reactants x), rm_type x with
  | Some phi, Some f, Some o, Some r, YStr t => Some (mkMix phi f o r t)
  | _, _, _, _, _ => None
  end.

(** Integers, for [max_steps]. *)
Definition yint (v : yval) : option Z := match v with YInt z => Some z | YBool b => Some (if b then 1 else 0)%Z | _ => None end.

Definition typed_ign (x : raw_ign) : option Simulation.in_ign :=
  match ri_kind x, yfin (ri_T x), yfin (ri_P x), (if ytrue (ri_end x) then yfin (ri_end x) else Some 0%Q),
        (if ytrue (ri_steps x) then yint (ri_steps x) else Some 0%Z), typed_mix (ri_mix x) with
  | YStr k, Some T, Some P, Some e, Some n, Some m => Some (mkIgn k T P e n m)
  | _, _, _, _, _, _ => None
  end.
Definition typed_psr (x : raw_psr) : option Simulation.in_psr :=
  match yfin (rp_T x), yfin (rp_P x), typed_mix (rp_mix x) with
  | Some T, Some P, Some m => Some (mkPSR T P m)
  | _, _, _ => None
  end.
Definition typed_flame (x : raw_flame) : option Simulation.in_flame :=
  match yfin (rf_T x), yfin (rf_P x), yfin (rf_width x), typed_mix (rf_mix x) with
  | Some T, Some P, Some w, Some m => Some (mkFlame T P w m)
  | _, _, _, _ => None
  end.

Fixpoint all_some {A B} (f : A -> option B) (l : list A) : option (list B) :=
  match l with
  | nil => Some nil
  | x :: t => match f x, all_some f t with Some y, Some ys => Some (y :: ys) | _, _ => None end
  end.

(** The cases that the drivers get. *)
Definition typed_cases (I : inputs) : option cases :=
  match all_some typed_ign (in_ign I), all_some typed_psr (in_psr I), all_some typed_flame (in_flame I) with
  | Some a, Some b, Some c => Some (mkCases a b c)
  | _, _, _ => None
  end.

(** A list of strings. *)
Definition ystr (v : yval) : option string := match v with YStr s => Some s | _ => None end.
Definition ynames (v : yval) : option (list string) :=
  match v with YList l => all_some ystr l | _ => None end.
