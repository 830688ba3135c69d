(** What a command line means, without the rules of argparse. *)
From Coq Require Import String Ascii List ZArith Bool DecimalString.
From Verif.Model Require Import Cli.
Import ListNotations.
Local Open Scope string_scope.

(** What can be asked for. *)
Inductive setting :=
| SetInput (v : string) | SetPath (v : string) | SetThreads (z : Z) | SetConvert
| SetModel (v : string) | SetThermo (v : string) | SetTransport (v : string) | SetVersion.

(** The long names. *)
Definition long_names : list string :=
  ["--help"; "--input"; "--path"; "--num_threads"; "--convert"; "--model"; "--thermo"; "--transport"; "--version"].
Definition prefix (w s : string) : Prop := exists r, s = w ++ r.
(** [w] is the name [full], or begins like no other one. *)
Definition abbreviates (w full : string) : Prop :=
  In full long_names /\ prefix w full /\ forall other, In other long_names -> prefix w other -> other = full.
(** The letters. *)
Definition letters : list (ascii * string) :=
  [("h"%char, "--help"); ("i"%char, "--input"); ("m"%char, "--model"); ("V"%char, "--version")].

(** An integer as Python reads it: digits with single underscores between them,
    a sign before and white space around. *)
Definition white (s : string) : Prop :=
  forall c, In c (list_ascii_of_string s) -> In (nat_of_ascii c) [9; 10; 11; 12; 13; 28; 29; 30; 31; 32]%nat.
Definition digit (c : ascii) (d : nat) : Prop := String.get d "0123456789" = Some c.
Inductive numeral : string -> Z -> Prop :=
| nu_one c d : digit c d -> numeral (String c "") (Z.of_nat d)
| nu_more s z c d : numeral s z -> digit c d -> numeral (s ++ String c "") (10 * z + Z.of_nat d)
| nu_gap s z c d : numeral s z -> digit c d -> numeral (s ++ "_" ++ String c "") (10 * z + Z.of_nat d).
Inductive integer : string -> Z -> Prop :=
| in_plain a s b z : white a -> numeral s z -> white b -> integer (a ++ s ++ b) z
| in_plus a s b z : white a -> numeral s z -> white b -> integer (a ++ "+" ++ s ++ b) z
| in_minus a s b z : white a -> numeral s z -> white b -> integer (a ++ "-" ++ s ++ b) (- z).

(** The option [full] with the value [v], and without value. *)
Inductive with_value : string -> string -> setting -> Prop :=
| wv_input v : with_value "--input" v (SetInput v)
| wv_path v : with_value "--path" v (SetPath v)
| wv_model v : with_value "--model" v (SetModel v)
| wv_thermo v : with_value "--thermo" v (SetThermo v)
| wv_transport v : with_value "--transport" v (SetTransport v)
| wv_threads v z : integer v z -> with_value "--num_threads" v (SetThreads z).
Inductive without_value : string -> setting -> Prop :=
| wo_threads : without_value "--num_threads" (SetThreads 0)
| wo_convert : without_value "--convert" SetConvert
| wo_version : without_value "--version" SetVersion.

(** A value that stands alone does not look like an option. *)
Fixpoint digits (s : string) : Prop :=
  match s with EmptyString => True | String c t => In c ["0"; "1"; "2"; "3"; "4"; "5"; "6"; "7"; "8"; "9"]%char /\ digits t end.
Fixpoint contains (c : ascii) (s : string) : Prop :=
  match s with EmptyString => False | String d t => c = d \/ contains c t end.
Inductive plain : string -> Prop :=
| plain_empty : plain ""
| plain_text c s : c <> "-"%char -> plain (String c s)
| plain_dash : plain "-"
| plain_whole n : digits n -> n <> "" -> plain ("-" ++ n)
| plain_decimal a b : digits a -> digits b -> b <> "" -> plain ("-" ++ a ++ "." ++ b)
| plain_spaced c s : contains " " (String c s) -> c <> "-"%char -> (forall full, ~ In (c, full) letters) ->
    plain ("-" ++ String c s)
| plain_spaced_long s : contains " " s -> ~ contains "=" s -> (forall full, In full long_names -> ~ prefix ("--" ++ s) full) ->
    plain ("--" ++ s)
| plain_spaced_eq s t : contains " " (s ++ "=" ++ t) -> ~ contains "=" s ->
    (forall full, In full long_names -> ~ prefix ("--" ++ s) full) -> plain ("--" ++ s ++ "=" ++ t).

(** How settings are written.  [in_letters] are the ways after one dash, with
    the arguments that follow. *)
Inductive spelled : list string -> list setting -> Prop :=
| sp_none : spelled [] []
| sp_value w full v s l ss : abbreviates w full -> with_value full v s -> plain v -> spelled l ss ->
    spelled (w :: v :: l) (s :: ss)
| sp_equals w full v s l ss : abbreviates w full -> with_value full v s -> spelled l ss ->
    spelled ((w ++ "=" ++ v) :: l) (s :: ss)
| sp_flag w full s l ss : abbreviates w full -> without_value full s -> spelled l ss -> spelled (w :: l) (s :: ss)
| sp_letters r l ss : in_letters r l ss -> spelled (("-" ++ r) :: l) ss
with in_letters : string -> list string -> list setting -> Prop :=
| le_value c full v s l ss : In (c, full) letters -> with_value full v s -> plain v -> spelled l ss ->
    in_letters (String c "") (v :: l) (s :: ss)
| le_glued c full d v s l ss : In (c, full) letters -> with_value full (String d v) s -> d <> "="%char -> spelled l ss ->
    in_letters (String c (String d v)) l (s :: ss)
| le_equals c full v s l ss : In (c, full) letters -> with_value full v s -> spelled l ss ->
    in_letters (String c ("=" ++ v)) l (s :: ss)
| le_flag l ss : spelled l ss -> in_letters "V" l (SetVersion :: ss)
| le_more r l ss : in_letters r l ss -> in_letters ("V" ++ r) l (SetVersion :: ss).
Scheme spelled_ind2 := Minimality for spelled Sort Prop
  with in_letters_ind2 := Minimality for in_letters Sort Prop.
Combined Scheme spelled_both from spelled_ind2, in_letters_ind2.

(** The last setting of a kind counts. *)
Fixpoint last_of {A} (f : setting -> option A) (ss : list setting) : option A :=
  match ss with
  | [] => None
  | s :: t => match last_of f t with Some a => Some a | None => f s end
  end.
Definition input_of s := match s with SetInput v => Some v | _ => None end.
Definition path_of s := match s with SetPath v => Some v | _ => None end.
Definition threads_of s := match s with SetThreads z => Some z | _ => None end.
Definition model_of s := match s with SetModel v => Some v | _ => None end.
Definition thermo_of s := match s with SetThermo v => Some v | _ => None end.
Definition transport_of s := match s with SetTransport v => Some v | _ => None end.

(** The namespace that settings give. *)
Definition meaning (ss : list setting) : settings :=
  mkSettings (last_of input_of ss) (match last_of path_of ss with Some p => p | None => "" end)
    (match last_of threads_of ss with Some z => z | None => 1%Z end)
    (existsb (fun s => match s with SetConvert => true | _ => false end) ss)
    (last_of model_of ss) (last_of thermo_of ss) (last_of transport_of ss)
    (existsb (fun s => match s with SetVersion => true | _ => false end) ss).

(** Settings ask for an action: a conversion or a reduction, not the version;
    the file that is needed is named. *)
Definition asked (ss : list setting) (a : action) : Prop :=
  ~ In SetVersion ss /\
  match a with
  | Convert m th tr p =>
      In SetConvert ss /\ last_of model_of ss = Some m /\ m <> "" /\
      th = last_of thermo_of ss /\ tr = last_of transport_of ss /\
      p = match last_of path_of ss with Some p => p | None => "" end
  | Reduce i th tr p n =>
      ~ In SetConvert ss /\ last_of input_of ss = Some i /\ i <> "" /\
      th = last_of thermo_of ss /\ tr = last_of transport_of ss /\
      p = match last_of path_of ss with Some p => p | None => "" end /\
      n = match last_of threads_of ss with Some z => z | None => 1%Z end
  end.

(** An argument that asks for help: the option, or its letter after others. *)
Definition asks_help (s : string) : Prop :=
  abbreviates s "--help" \/ exists vs r, s = "-" ++ vs ++ "h" ++ r /\ forall c, contains c vs -> c = "V"%char.

(** An argument that begins like several options. *)
Definition unclear (s : string) : Prop :=
  exists w f g, (s = w \/ exists v, s = w ++ "=" ++ v) /\ prefix "--" w /\ In f long_names /\ In g long_names /\ f <> g /\ prefix w f /\ prefix w g.

(** A number as it is written. *)
Definition decimal_text (z : Z) : string := NilZero.string_of_int (Z.to_int z).
