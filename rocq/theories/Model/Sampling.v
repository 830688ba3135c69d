(** Sampling: sampling.py:75-281, 505-711.

    The code is given as programs whose file accesses are explicit, so that
    they can be interleaved with those of other processes and cut off by a
    crash. *)
From Coq Require Import String List QArith ZArith Bool Arith Permutation.
From Verif.Base Require Import Py Num XNum Paths.
From Verif.Model Require Import Mech World Metrics Drivers Simulation.
Import ListNotations.
Local Open Scope string_scope.

(** A program: finished, or a look at a file, or a change of a file (None:
    deletion), followed by the rest. *)
Inductive prog (A : Type) : Type :=
| Ret (r : res A)
| Get (f : string) (k : option file -> prog A)
| Put (f : string) (c : option file) (k : prog A).
Arguments Ret {A} r.
Arguments Get {A} f k.
Arguments Put {A} f c k.

Fixpoint pbind {A B} (p : prog A) (k : A -> prog B) : prog B :=
  match p with
  | Ret (Ok a) => k a
  | Ret (Raise e) => Ret (Raise e)
  | Ret NoFuel => Ret NoFuel
  | Get f g => Get f (fun c => pbind (g c) k)
  | Put f c p => Put f c (pbind p k)
  end.

Notation "x <~ p ;; k" := (pbind p (fun x => k)) (at level 61, p at next level, right associativity).
Notation "p ~;; k" := (pbind p (fun _ => k)) (at level 61, right associativity).

Definition pret {A} (a : A) : prog A := Ret (Ok a).

Fixpoint pmap {A B} (f : A -> prog B) (l : list A) : prog (list B) :=
  match l with
  | nil => pret nil
  | x :: t => y <~ f x ;; ys <~ pmap f t ;; pret (y :: ys)
  end.

Definition set_file (f : string) (c : option file) (w : world) : world :=
  mkWorld (fs_set f c (w_fs w)) (w_shared w).

(** Running a program without interruption. *)
Fixpoint exec {A} (p : prog A) : M A := fun w =>
  match p with
  | Ret r => (r, w)
  | Get f k => exec (k (w_fs w f)) w
  | Put f c p => exec p (set_file f c w)
  end.

(** All states of the files during that run, the first one included: where a
    crash can leave them. *)
Fixpoint states {A} (p : prog A) (w : world) : list world :=
  match p with
  | Ret _ => [w]
  | Get f k => states (k (w_fs w f)) w
  | Put f c p => w :: states p (set_file f c w)
  end.

(** Several processes: any of them makes its next file access. *)
Inductive step {A} : list (prog A) * world -> list (prog A) * world -> Prop :=
| step_get l r f k w : step (l ++ Get f k :: r, w)%list (l ++ k (w_fs w f) :: r, w)%list
| step_put l r f c p w : step (l ++ Put f c p :: r, w)%list (l ++ p :: r, set_file f c w)%list.

Inductive steps {A} : list (prog A) * world -> list (prog A) * world -> Prop :=
| steps_refl s : steps s s
| steps_more s t u : step s t -> steps t u -> steps s u.

(** ** Workers *)

(** [ct.Solution(model, phase)] in [_setup_gas]. *)
Definition pload (model phase : string) : prog mech :=
  Get model (fun c => Ret (match c with
                           | Some (FMech phases) => pick_phase phases phase
                           | _ => Raise CanteraError
                           end)).

Section Calculations.
Context {A : calc}.

(** simulation.py:240-366 — [run_case] as a program.  Opening the file empties
    it, closing it completes it. *)
Definition prun_case (fuel : nat) (R : reactor) (c : in_ign) (save_file : string) : prog Q :=
  match integrate fuel R c with
  | Ok s => Put save_file (Some FOther) (Put save_file (Some (FProfile (rs_points s)))
              (Ret (if rs_flag s then Ok (rs_delay s) else Raise RuntimeError)))
  | Raise e => Ret (Raise e)
  | NoFuel => Ret NoFuel
  end.

(** simulation.py:420-457 — [process_results]. *)
Definition pprocess (save_file : string) : prog (Q * list (list Q)) :=
  Get save_file (fun c => Ret
    (match c with
     | None => Raise FileNotFoundError
     | Some (FProfile ps) =>
         match ps with
         | nil => Raise IndexError
         | p0 :: _ => bind (sample_profile ps) (fun rows => Ok (first_hot (p_T p0) ps, rows))
         end
     | Some _ => Raise FileNotFoundError
     end)).

End Calculations.

(** What a sampling worker returns: the metrics of the case and its rows. *)
Definition case_result := (list xnum * list (list xnum))%type.
Definition fin_rows (rows : list (list Q)) : list (list xnum) := map (map Fin) rows.

(** sampling.py:75-102 — [ignition_sample_worker]. *)
Definition ign_sample_worker (fuel : nat) (Ph : physics) (model phase path : string) (job : nat * in_ign)
  : prog case_result :=
  let '(idx, c) := job in
  let f := h5_name path idx in
  m <~ pload model phase ;;
  Ret (setup_gas (ig_mix c) m) ~;;
  prun_case (A := ph_calc Ph) fuel (ph_reactor Ph c m) c f ~;;
  r <~ pprocess (A := ph_calc Ph) f ;;
  Put f None (pret ([Fin (fst r)], fin_rows (snd r))).

(** sampling.py:165-186 — [psr_sample_worker]. *)
Definition psr_sample_worker (Ph : physics) (model phase : string) (job : nat * in_psr) : prog case_result :=
  let c := snd job in
  m <~ pload model phase ;;
  Ret (setup_gas (ps_mix c) m) ~;;
  Ret (psr_process (A := ph_calc Ph) (ps_P c) (ph_psr Ph c m)).

(** sampling.py:125-142 — [flame_sample_worker]. *)
Definition flame_sample_worker (Ph : physics) (floor : option Q) (model phase : string) (job : nat * in_flame)
  : prog case_result :=
  let c := snd job in
  m <~ pload model phase ;;
  Ret (setup_gas (fl_mix c) m) ~;;
  r <~ Ret (flame_process (A := ph_calc Ph) (flame_floor floor) (ph_flame Ph c m)) ;;
  pret ([fst r], fin_rows (snd r)).

(** sampling.py:105-122, 145-162, 189-206 — the workers for candidates: load
    the model, evaluate the condition. *)
Definition metric_worker (model phase : string) (job : nat * cond) : prog (list xnum) :=
  m <~ pload model phase ;; Ret (snd job m).

(** ** Merging: sampling.py:209-281 *)

(** The dict comprehension of [_run_workers] over the list of results, each a
    dict with one entry; a later entry for the same key replaces an earlier
    one. *)
Definition nget {A} (i : nat) (results : list (nat * A)) : option A :=
  fold_left (fun a r => if Nat.eqb (fst r) i then Some (snd r) else a) results None.

(** [results[idx] for idx in range(len(results))]; [n] is the number of keys. *)
Definition in_case_order {A} (n : nat) (results : list (nat * A)) : res (list A) :=
  mapM (fun i => match nget i results with Some a => Ok a | None => Raise KeyError end) (seq 0 n).

Definition n_keys {A} (results : list (nat * A)) : nat := length (nodup Nat.eq_dec (map fst results)).

(** sampling.py:254-262 and 279-281 after the workers. *)
Definition collect {A} (results : list (nat * A)) : res (list A) := in_case_order (n_keys results) results.
Definition collect_samples (results : list (nat * case_result)) : res case_result :=
  bind (collect results) (fun rs => Ok (concat (map fst rs), concat (map snd rs))).

(** The jobs of a list of cases: [enumerate]. *)
Definition jobs_of {A} (cases : list A) : list (nat * A) := combine (seq 0 (length cases)) cases.

(** [num_threads == 1] (sampling.py:228-229): the workers one after another. *)
Definition run_serial {A B} (worker : nat * A -> prog B) (jobs : list (nat * A)) : prog (list (nat * B)) :=
  pmap (fun j => r <~ worker j ;; pret (fst j, r)) jobs.

(** [num_threads] other than 1 (sampling.py:230-234): the workers run in
    several processes, in any interleaving; the results may come in any order
    (in the order of the jobs, for [pool.map]). *)
Definition pool_run {A B} (worker : nat * A -> prog B) (jobs : list (nat * A)) (w : world)
           (results : list (nat * B)) (w' : world) : Prop :=
  exists rs, steps (map worker jobs, w) (map (fun r => Ret (Ok r)) rs, w') /\
             Permutation results (combine (map fst jobs) rs).

(** ** Saved samples *)

(** [np.genfromtxt(f, delimiter=",")] *)
Definition genfromtxt (f : string) : prog txtarr :=
  Get f (fun c => Ret (match c with Some c => text_array c | None => Raise FileNotFoundError end)).

Definition arr_size (a : txtarr) : nat := match a with Arr1 l => length l | Arr2 rows => length (concat rows) end.
Definition shape0 (a : txtarr) : nat := match a with Arr1 l => length l | Arr2 rows => length rows end.
(** [shape[1]] *)
Definition shape1 (a : txtarr) : res nat :=
  match a with
  | Arr1 _ => Raise IndexError
  | Arr2 rows => Ok (match rows with nil => 0%nat | r :: _ => length r end)
  end.
Definition rows_of (a : txtarr) : list (list xnum) := match a with Arr1 _ => nil | Arr2 rows => rows end.

(** [np.savetxt]: the contents that the file goes through.  [torn x] are the
    numbers that a proper prefix of the text of [x] reads as. *)
Fixpoint nums_states (torn : xnum -> list xnum) (done l : list xnum) : list file :=
  match l with
  | nil => nil
  | x :: t => (map (fun y => FNums (done ++ [y])) (torn x) ++
               FNums (done ++ [x]) :: nums_states torn (done ++ [x]) t)%list
  end.
Fixpoint row_states (torn : xnum -> list xnum) (done : list (list xnum)) (pre r : list xnum) : list file :=
  match r with
  | nil => nil
  | x :: t => (map (fun y => FTable (done ++ [pre ++ [y]])) (torn x) ++
               FTable (done ++ [pre ++ [x]]) :: row_states torn done (pre ++ [x]) t)%list
  end.
Fixpoint rows_states (torn : xnum -> list xnum) (done rows : list (list xnum)) : list file :=
  match rows with
  | nil => nil
  | r :: t => (row_states torn done nil r ++ FTable (done ++ [r]) :: rows_states torn (done ++ [r]) t)%list
  end.
Fixpoint puts {A} (f : string) (cs : list file) (k : prog A) : prog A :=
  match cs with nil => k | c :: t => Put f (Some c) (puts f t k) end.
Definition save_nums (torn : xnum -> list xnum) (f : string) (l : list xnum) : prog unit :=
  puts f (FNums nil :: nums_states torn nil l) (pret tt).
Definition save_rows (torn : xnum -> list xnum) (f : string) (rows : list (list xnum)) : prog unit :=
  puts f (FTable nil :: rows_states torn nil rows) (pret tt).

(** [os.path.isfile] *)
Definition pis_file (f : string) : prog bool :=
  Get f (fun c => pret (match c with Some _ => true | None => false end)).

(** One of the three parts of [sample] (sampling.py:550-598, 602-645,
    647-700): [per_case] rows per case, [n_metrics] metrics in all. *)
Definition sample_part (torn : xnum -> list xnum) (model phase data output : string)
           (n_metrics n_cases per_case : nat) (jobs : prog case_result) : prog case_result :=
  ed <~ pis_file data ;;
  eo <~ pis_file output ;;
  saved <~ (if ed && eo then
              o <~ genfromtxt output ;;
              d <~ genfromtxt data ;;
              let matches_number := Nat.eqb (arr_size o) n_metrics && Nat.eqb (shape0 d) (per_case * n_cases) in
              gas <~ pload model phase ;;
              c <~ Ret (shape1 d) ;;
              let matches_shape := Nat.eqb c (2 + n_species gas) in
              if matches_number && matches_shape
              then l <~ Ret (flat o) ;; pret (Some (l, rows_of d))
              else pret None
            else pret None) ;;
  match saved with
  | Some r => pret r
  | None =>
      r <~ jobs ;;
      save_rows torn data (snd r) ~;;
      save_nums torn output (fst r) ~;;
      pret r
  end.

(** The three simulations of [sample], one worker at a time. *)
Definition ign_jobs (fuel : nat) (Ph : physics) (model phase path : string) (cs : list in_ign) : prog case_result :=
  rs <~ run_serial (ign_sample_worker fuel Ph model phase path) (jobs_of cs) ;; Ret (collect_samples rs).
Definition psr_jobs (Ph : physics) (model phase : string) (cs : list in_psr) : prog case_result :=
  rs <~ run_serial (psr_sample_worker Ph model phase) (jobs_of cs) ;; Ret (collect_samples rs).
Definition flame_jobs (Ph : physics) (floor : option Q) (model phase : string) (cs : list in_flame) : prog case_result :=
  rs <~ run_serial (flame_sample_worker Ph floor model phase) (jobs_of cs) ;; Ret (collect_samples rs).

Definition if_any {A} (cs : list A) (p : prog case_result) : prog case_result :=
  match cs with nil => pret (nil, nil) | _ => p end.

(** sampling.py:505-711 — [sample] with one worker.  The parts are stacked in
    the order ignition, PSR, flame. *)
Definition sample (torn : xnum -> list xnum) (fuel : nat) (Ph : physics) (floor : option Q)
           (model phase path : string) (C : cases) : prog case_result :=
  i <~ if_any (ca_ign C)
         (sample_part torn model phase data_ignition output_ignition
            (length (ca_ign C)) (length (ca_ign C)) 20 (ign_jobs fuel Ph model phase path (ca_ign C))) ;;
  p <~ if_any (ca_psr C)
         (sample_part torn model phase data_psr output_psr
            (3 * length (ca_psr C)) (length (ca_psr C)) 3 (psr_jobs Ph model phase (ca_psr C))) ;;
  f <~ if_any (ca_flame C)
         (sample_part torn model phase data_flame output_flame
            (length (ca_flame C)) (length (ca_flame C)) 20 (flame_jobs Ph floor model phase (ca_flame C))) ;;
  pret (fst i ++ fst p ++ fst f, snd i ++ snd p ++ snd f)%list.

(** What the drivers do with [sample]: for each sampled state the net rates of
    progress (drg.py:298-312, pfa.py:324-338, drgep.py:431-449), which Cantera
    computes from temperature, pressure and mass fractions. *)
Definition sampler_of {R : Type} (torn : xnum -> list xnum) (fuel : nat) (Ph : physics)
           (rates : mech -> list xnum -> res R) (floor : option Q)
           (model phase path : string) (C : cases) (sol : mech) : M (list xnum * list R) :=
  r <- exec (sample torn fuel Ph floor model phase path C) ;;
  rops <- mlift (mapM (rates sol) (snd r)) ;;
  mret (fst r, rops).
