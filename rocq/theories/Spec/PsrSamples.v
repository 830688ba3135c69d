(** A reactor with one reaction, and simple numerics, for the examples. *)
From Coq Require Import List QArith Qabs Qround Bool Arith ZArith.
From Verif.Base Require Import Py Num XNum.
From Verif.Model Require Import Simulation Psr.
From Verif.Spec Require Import PsrSpec.
Import ListNotations.
Local Open Scope Q_scope.

(** The largest magnitude as the norm. *)
Definition sup_norm (v : vec) : xnum := fold_right (fun x m => xmax (xabs x) m) (Fin 0) v.

(** An increasing function with rational values in place of the exponential,
    and its inverse. *)
Definition rat_exp (x : xnum) : xnum :=
  match x with
  | Fin q => if Qle_bool 0 q then Fin (1 + q) else Fin (/ (1 - 10 * q))
  | _ => NaN
  end.
Definition rat_log (x : xnum) : xnum :=
  match x with
  | Fin t => if Qle_bool 1 t then Fin (t - 1) else Fin ((1 - / t) / 10)
  | _ => NaN
  end.

(** The root of a fraction in lowest terms, exact when it is a square. *)
Definition rat_sqrt (x : xnum) : xnum :=
  match x with
  | Fin q => let r := Qred q in Fin (Z.sqrt (Qnum r) # Z.to_pos (Z.sqrt (Zpos (Qden r))))
  | _ => NaN
  end.

(** Rounding to ten places, for the square root by Newton's iteration. *)
Definition places10 : positive := 10000000000.
Definition rnd (q : Q) : Q := Qfloor (q * (Zpos places10 # 1) + (1 # 2)) # places10.

(** The solution of one equation with one unknown, rounded. *)
Definition one_solve (cols : list vec) (b : vec) : option vec :=
  match cols, b with
  | [[Fin a]], [Fin c] => if Qeq_bool a 0 then None else Some [Fin (rnd (c / a))]
  | _, _ => None
  end.

(** Points of the curves of the reactors below for k = 50 and k = 20, in the
    unknowns of the two seeds and in those of the march, rounded to nine
    places. *)
Definition known_points : list vec :=
  [ [Fin 0.979583152; Fin 1979.583152331]; [Fin 0.958257569; Fin 1958.257569496];
    [Fin 0.925226554; Fin 1.925226554; Fin (-0.245911887)];
    [Fin 0.889893626; Fin 1.889893626; Fin (-0.389914801)];
    [Fin 0.851790645; Fin 1.851790645; Fin (-0.531216709)];
    [Fin 0.810225668; Fin 1.810225668; Fin (-0.668800175)];
    [Fin 0.764200311; Fin 1.764200311; Fin (-0.800990977)];
    [Fin 0.712226646; Fin 1.712226646; Fin (-0.924799253)];
    [Fin 0.652104240; Fin 1.652104240; Fin (-1.034321500)];
    [Fin 0.581491564; Fin 1.581491564; Fin (-1.116795625)];
    [Fin 0.507289108; Fin 1.507289108; Fin (-1.149734345)];
    [Fin 0.420298524; Fin 1.420298524; Fin (-1.118238374)];
    [Fin 0.398815867; Fin 1.398815867; Fin (-1.098808857)];
    [Fin 0.382097597; Fin 1.382097597; Fin (-1.080495117)];
    [Fin 0.947213595; Fin 1947.213595500]; [Fin 0.887298335; Fin 1887.298334621];
    [Fin 0.887298335; Fin 1.887298335; Fin (-0.1)];
    [Fin 0.826360409; Fin 1.826360409; Fin (-0.186977766)];
    [Fin 0.764411507; Fin 1.764411507; Fin (-0.260173109)];
    [Fin 0.703542819; Fin 1.703542819; Fin (-0.317140642)];
    [Fin 0.643141046; Fin 1.643141046; Fin (-0.359021282)];
    [Fin 0.573592524; Fin 1.573592524; Fin (-0.389168281)];
    [Fin 0.495932951; Fin 1.495932951; Fin (-0.399966918)];
    [Fin 0.414928927; Fin 1.414928927; Fin (-0.385525825)] ].

(** A solver that looks up a known point that is not far from the guess and
    for which the residual is small. *)
Fixpoint look_up (f : vec -> vec) (x0 : vec) (l : list vec) : option vec :=
  match l with
  | [] => None
  | x :: t =>
      if (length x =? length x0)%nat && xlt (xabs (xsub (vget x 0) (vget x0 0))) (Fin (1 # 8))
         && xlt (sup_norm (f x)) (Fin (1 # 20000000))
      then Some x
      else look_up f x0 t
  end.
Definition toy_root (f : vec -> vec) (x0 : vec) : res (bool * vec * vec) :=
  match look_up f x0 known_points with
  | Some x => Ok (true, x, f x)
  | None => Ok (false, x0, f x0)
  end.

(** A linear solver that always fails, so that the fallback does. *)
Definition no_solve (cols : list vec) (b : vec) : option vec := None.

(** One species that is formed at the rate k Y^2 (1 - Y), with an
    enthalpy of formation of -1000 in units in which the heat capacity is 1.
    The curve is tau = 1 / (k Y (1 - Y)), T = 1000 (1 + Y), and the turning
    point is at Y = 1/2, tau = 4 / k. *)
Definition toy_gas (k : Q) : gas :=
  mkGas 1 [Fin 0] (Fin 1000) (Fin 1) [Fin 1] (Ok ([Fin 1], Fin 2000))
    (fun Y T => match Y, T with
                | [Fin y], Fin t => Some ([Fin (k * y * y * (1 - y))], Fin 1)
                | _, _ => None
                end)
    (fun Y T => match Y, T with [Fin y], Fin t => Fin (t - 1000 * y) | _, _ => NaN end).

Definition toy_args (stop : bool) (steps : nat) : psr_args :=
  mkArgs stop (4 # 25) (1 # 1000) (4 # 25) 1 (1 # 2) steps.
(** Seeds in ascending order. *)
Definition swapped_args : psr_args := mkArgs true (4 # 25) (1 # 1000) (4 # 25) (1 # 2) 1 20.
(** Steps of 1e-11. *)
Definition tiny_args : psr_args :=
  mkArgs true (1 # 100000000000) (1 # 1000000000000) (2 # 5) 1 (1 # 2) 20.
Definition toy_trace (k : Q) (A : psr_args) :=
  trace_extinction_curve sup_norm rat_exp rat_log rat_sqrt no_solve toy_root (toy_gas k) A.

(** A result in millionths of a second: the residence times of the branch, and
    those of the points "extinction", "near_0.1s" and "log_mid". *)
Definition micro (x : xnum) : Z := match x with Fin q => Qfloor (q * 1000000 + (1 # 2)) | _ => 0%Z end.
Definition summary (r : res (list (xnum * xnum) * psr_curve)) : option (list Z * list Z) :=
  match r with
  | Ok (b, c) => Some (map (fun p => micro (fst p)) b, map (fun p => micro (pp_tau p)) [pc_ext c; pc_near c; pc_mid c])
  | _ => None
  end.

(** The equation x^2 = c, rounded. *)
Definition square_eq (c : Q) (u : vec) : vec := match u with [Fin q] => [Fin (rnd (q * q - c))] | _ => [NaN] end.
