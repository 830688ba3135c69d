(** The command line: __main__.py and the options of [pymars] in pymars.py,
    with the rules of the module argparse (Python 3.11) for a parser that only
    has options.

    Simplifications: messages are not modelled; characters are bytes; an
    argument that starts like an abbreviation of several options makes argparse
    leave at once, as here (since Python 3.12 later). *)
From Coq Require Import String Ascii List ZArith Bool.
Import ListNotations.
Local Open Scope string_scope.

(** pymars.py:297-347 — the options; [OHelp] is added by argparse. *)
Inductive opt := OHelp | OInput | OPath | OThreads | OConvert | OModel | OThermo | OTransport | OVersion.

(** pymars.py:297-347 — the option strings, in the order of the parser. *)
Definition option_strings : list (string * opt) :=
  [("-h", OHelp); ("--help", OHelp); ("-i", OInput); ("--input", OInput); ("--path", OPath);
   ("--num_threads", OThreads); ("--convert", OConvert); ("-m", OModel); ("--model", OModel);
   ("--thermo", OThermo); ("--transport", OTransport); ("-V", OVersion); ("--version", OVersion)].

(** How many arguments an option takes: none ([store_true], [help]), at most
    one ([nargs="?"]), or one. *)
Inductive takes := TakesNone | TakesMaybe | TakesOne.
Definition takes_of (o : opt) : takes :=
  match o with
  | OHelp | OConvert | OVersion => TakesNone
  | OThreads => TakesMaybe
  | _ => TakesOne
  end.

(** The namespace, and pymars.py:297-347 — its defaults. *)
Record settings := mkSettings {
  n_input : option string;
  n_path : string;
  n_threads : Z;
  n_convert : bool;
  n_model : option string;
  n_thermo : option string;
  n_transport : option string;
  n_version : bool
}.
Definition defaults : settings := mkSettings None "" 1 false None None None false.

(** The program leaves with an exit code, or goes on. *)
Inductive outcome (A : Type) := Exits (code : Z) | Goes (a : A).
Arguments Exits {A} code.
Arguments Goes {A} a.
Definition obind {A B} (r : outcome A) (k : A -> outcome B) : outcome B :=
  match r with Exits c => Exits c | Goes a => k a end.

(** [int(s)]: spaces around, a sign, and digits that single underscores may
    separate.  (Python refuses numbers of thousands of digits.) *)
Definition is_space (c : ascii) : bool :=
  let n := N_of_ascii c in (N.eqb n 32 || (N.leb 9 n && N.leb n 13) || (N.leb 28 n && N.leb n 31))%N.
Fixpoint lstrip (s : string) : string :=
  match s with String c t => if is_space c then lstrip t else s | EmptyString => s end.
Fixpoint blank (s : string) : bool :=
  match s with String c t => is_space c && blank t | EmptyString => true end.
Definition digit_of (c : ascii) : option Z :=
  let n := N_of_ascii c in if (N.leb 48 n && N.leb n 57)%N then Some (Z.of_N n - 48)%Z else None.
(** [any]: a digit was read just before. *)
Fixpoint int_digits (acc : Z) (any : bool) (s : string) : option Z :=
  match s with
  | EmptyString => if any then Some acc else None
  | String c t =>
      match digit_of c with
      | Some d => int_digits (10 * acc + d) true t
      | None => if any then
                  if Ascii.eqb c "_" then int_digits acc false t
                  else if blank s then Some acc else None
                else None
      end
  end.
Definition int_of (s : string) : option Z :=
  match lstrip s with
  | String "-" t => option_map Z.opp (int_digits 0 false t)
  | String "+" t => int_digits 0 false t
  | s => int_digits 0 false s
  end.

(** What an option does with its argument: store it, after [int] for the
    number of processes; 2 is the exit code of [parser.error]. *)
Definition store (o : opt) (v : string) (n : settings) : outcome settings :=
  let '(mkSettings i p t c m th tr ve) := n in
  match o with
  | OInput => Goes (mkSettings (Some v) p t c m th tr ve)
  | OPath => Goes (mkSettings i v t c m th tr ve)
  | OThreads => match int_of v with
                | Some z => Goes (mkSettings i p z c m th tr ve)
                | None => Exits 2
                end
  | OModel => Goes (mkSettings i p t c (Some v) th tr ve)
  | OThermo => Goes (mkSettings i p t c m (Some v) tr ve)
  | OTransport => Goes (mkSettings i p t c m th (Some v) ve)
  | _ => Goes n
  end.
(** What an option does without argument: [const=0] for the processes. *)
Definition flag (o : opt) (n : settings) : outcome settings :=
  let '(mkSettings i p t c m th tr ve) := n in
  match o with
  | OHelp => Exits 0
  | OConvert => Goes (mkSettings i p t true m th tr ve)
  | OVersion => Goes (mkSettings i p t c m th tr true)
  | OThreads => Goes (mkSettings i p 0 c m th tr ve)
  | _ => Goes n
  end.
Fixpoint flags (os : list opt) (n : settings) : outcome settings :=
  match os with [] => Goes n | o :: t => obind (flag o n) (flags t) end.

(** [s.startswith(p)] *)
Fixpoint starts (p s : string) : bool :=
  match p, s with
  | EmptyString, _ => true
  | String a p, String b s => Ascii.eqb a b && starts p s
  | _, _ => false
  end.
(** [s.partition("=")]: the part before, and the part after if there is one. *)
Fixpoint partition_eq (s : string) : string * option string :=
  match s with
  | EmptyString => (EmptyString, None)
  | String c t => if Ascii.eqb c "=" then (EmptyString, Some t)
                  else let (a, b) := partition_eq t in (String c a, b)
  end.
Fixpoint look_up (s : string) (l : list (string * opt)) : option opt :=
  match l with [] => None | (k, o) :: t => if String.eqb s k then Some o else look_up s t end.

(** The negative numbers of argparse: digits, or digits around a point. *)
Fixpoint all_digits (s : string) : bool :=
  match s with
  | EmptyString => true
  | String c t => match digit_of c with Some _ => all_digits t | None => false end
  end.
Fixpoint decimal (s : string) : bool :=
  match s with
  | EmptyString => false
  | String c t => if Ascii.eqb c "." then negb (String.eqb t "") && all_digits t
                  else match digit_of c with Some _ => decimal t | None => false end
  end.
Definition negative_number (s : string) : bool :=
  match s with
  | String "-" t => (negb (String.eqb t "") && all_digits t) || decimal t
  | _ => false
  end.
Fixpoint has_space (s : string) : bool :=
  match s with String c t => Ascii.eqb c " " || has_space t | EmptyString => false end.

(** Arguments after classification: an option with one or two dashes, and with
    an argument glued to it (after "=" or not); an unknown option; another
    argument. *)
Inductive token :=
| TOpt (o : opt) (single after_eq : bool) (glued : option string)
| TUnknown
| TArg (v : string).

(** argparse, [_get_option_tuples] and [_parse_optional]; None: ambiguous. *)
Definition classify (s : string) : option token :=
  match s with
  | String "-" (String c rest) =>
      let single := negb (Ascii.eqb c "-") in
      match look_up s option_strings with
      | Some o => Some (TOpt o single false None)
      | None =>
          let (name, value) := partition_eq s in
          match value, look_up name option_strings with
          | Some v, Some o => Some (TOpt o single true (Some v))
          | _, _ =>
              let found :=
                if single then
                  match look_up (String "-" (String c "")) option_strings with
                  | Some o => [TOpt o true false (Some rest)]
                  | None => []
                  end
                else
                  map (fun x => TOpt (snd x) false (match value with Some _ => true | None => false end) value)
                      (filter (fun x => starts name (fst x)) option_strings) in
              match found with
              | [t] => Some t
              | _ :: _ :: _ => None
              | [] => if negative_number s || has_space s then Some (TArg s) else Some TUnknown
              end
          end
      end
  | _ => Some (TArg s)
  end.

(** All arguments; those after "--" are not options.  "--" itself is never
    used by this parser. *)
Fixpoint classify_all (l : list string) : option (list token) :=
  match l with
  | [] => Some []
  | s :: t =>
      if String.eqb s "--" then Some (TUnknown :: map TArg t)
      else match classify s, classify_all t with
           | Some a, Some b => Some (a :: b)
           | _, _ => None
           end
  end.

(** argparse, the loop of [consume_optional] for an option with a glued
    argument: it is its value, or further options of one letter.  The result:
    options without arguments, and then an error, an unknown option, an option
    with its value, or an option that looks at the next argument. *)
Inductive bundle := BError | BUnknown (os : list opt) | BValue (os : list opt) (o : opt) (v : string) | BNext (os : list opt) (o : opt).
Definition before (o : opt) (b : bundle) : bundle :=
  match b with
  | BError => BError
  | BUnknown os => BUnknown (o :: os)
  | BValue os o' v => BValue (o :: os) o' v
  | BNext os o' => BNext (o :: os) o'
  end.
Fixpoint unbundle (s : string) (o : opt) (single after_eq : bool) : bundle :=
  match takes_of o with
  | TakesNone =>
      match s with
      | EmptyString => BError
      | String c rest =>
          if negb single || after_eq || Ascii.eqb c "-" then BError
          else match look_up (String "-" (String c "")) option_strings with
               | None => BUnknown [o]
               | Some o' =>
                   match rest with
                   | EmptyString => BNext [o] o'
                   | String d rest' =>
                       before o (if Ascii.eqb d "=" then unbundle rest' o' true true else unbundle rest o' true false)
                   end
               end
      end
  | _ => BValue [] o s
  end.

(** argparse, [_parse_known_args] and [parse_args]; [extra]: there was an
    argument that is not recognised. *)
Fixpoint consume (l : list token) (n : settings) (extra : bool) : outcome settings :=
  match l with
  | [] => if extra then Exits 2 else Goes n
  | TOpt o single after_eq glued :: t =>
      match (match glued with Some v => unbundle v o single after_eq | None => BNext [] o end) with
      | BError => Exits 2
      | BUnknown os => obind (flags os n) (fun n => consume t n true)
      | BValue os o v => obind (flags os n) (fun n => obind (store o v n) (fun n => consume t n extra))
      | BNext os o =>
          match takes_of o, t with
          | TakesNone, _ => obind (flags os n) (fun n => obind (flag o n) (fun n => consume t n extra))
          | _, TArg v :: t' => obind (flags os n) (fun n => obind (store o v n) (fun n => consume t' n extra))
          | TakesMaybe, _ => obind (flags os n) (fun n => obind (flag o n) (fun n => consume t n extra))
          | TakesOne, _ => Exits 2
          end
      end
  | _ :: t => consume t n true
  end.
Definition parse_args (l : list string) : outcome settings :=
  match classify_all l with
  | Some ts => consume ts defaults false
  | None => Exits 2
  end.

(** What the program then does: a conversion, or a reduction with the inputs
    from a file. *)
Inductive action :=
| Convert (model : string) (thermo transport : option string) (path : string)
| Reduce (input : string) (thermo transport : option string) (path : string) (threads : Z).

(** pymars.py:293-407 — [pymars]; [argv] is its argument, which is not given to
    [parse_args] (line 353), so that the arguments of the process [sys_args]
    are parsed. *)
Definition given (s : option string) : bool := match s with Some v => negb (String.eqb v "") | None => false end.
Definition text (s : option string) : string := match s with Some v => v | None => "" end.
Definition command (argv sys_args : list string) : outcome action :=
  match argv with
  | [] => Exits 1
  | _ =>
      obind (parse_args sys_args) (fun n =>
        if n_version n then Exits 0
        else if n_convert n then
          if given (n_model n) then Goes (Convert (text (n_model n)) (n_thermo n) (n_transport n) (n_path n))
          else Exits 2
        else if given (n_input n) then Goes (Reduce (text (n_input n)) (n_thermo n) (n_transport n) (n_path n) (n_threads n))
        else Exits 2)
  end.

(** __main__.py:8-15 — [main]: nothing is done if it is given arguments. *)
Definition module_main (args : option (list string)) (sys_args : list string) : option (outcome action) :=
  match args with
  | None => Some (command sys_args sys_args)
  | Some _ => None
  end.
