(** Sampling with a given number of processes: sampling.py:209-235, 404-405,
    505-711. *)
From Coq Require Import String List QArith ZArith Bool Arith.
From Verif.Base Require Import Py Num XNum Paths.
From Verif.Model Require Import Mech World Metrics Simulation Sampling.
Import ListNotations.
Local Open Scope Z_scope.

(** sampling.py:404-405, 547-548 — [cpus] is [multiprocessing.cpu_count()]. *)
Definition processes (cpus threads : Z) : Z :=
  if threads =? 0 then if cpus - 1 =? 0 then 1 else cpus - 1 else threads.

(** sampling.py:209-235 — [_run_workers] up to the merge: how it can end.
    [Pool] raises ValueError for less than one process.  [pool.map] raises the
    exception of one of the workers that fail; which one, and what the others
    have done by then, is open. *)
Inductive run_workers {A B} (n : Z) (worker : nat * A -> prog B) (jobs : list (nat * A)) (w : world)
  : res (list (nat * B)) -> world -> Prop :=
| rw_one r w' : n = 1 -> exec (run_serial worker jobs) w = (r, w') -> run_workers n worker jobs w r w'
| rw_refused : n < 1 -> run_workers n worker jobs w (Raise ValueError) w
| rw_all results w' : 1 < n -> pool_run worker jobs w results w' -> run_workers n worker jobs w (Ok results) w'
| rw_some ps e w' : 1 < n -> steps (map worker jobs, w) (ps, w') -> In (Ret (Raise e)) ps ->
    run_workers n worker jobs w (Raise e) w'.

(** How something can end when it is started in a state of the files. *)
Definition ends (A : Type) : Type := world -> res A -> world -> Prop.
Definition of_prog {A} (p : prog A) : ends A := fun w r w' => exec p w = (r, w').
Inductive ethen {A B} (e : ends A) (k : A -> ends B) (w : world) : res B -> world -> Prop :=
| et_ok a w1 r w2 : e w (Ok a) w1 -> k a w1 r w2 -> ethen e k w r w2
| et_raise x w1 : e w (Raise x) w1 -> ethen e k w (Raise x) w1
| et_fuel w1 : e w NoFuel w1 -> ethen e k w NoFuel w1.

(** sampling.py:550-576, 602-622, 647-677 — the part of [sample] that looks for
    saved samples (the first half of [sample_part]). *)
Definition saved_samples (model phase data output : string) (n_metrics n_cases per_case : nat) : prog (option case_result) :=
  ed <~ pis_file data ;;
  eo <~ pis_file output ;;
  if ed && eo then
    o <~ genfromtxt output ;;
    d <~ genfromtxt data ;;
    let matches_number := Nat.eqb (arr_size o) n_metrics && Nat.eqb (shape0 d) (per_case * n_cases) in
    gas <~ pload model phase ;;
    c <~ Ret (shape1 d) ;;
    let matches_shape := Nat.eqb c (2 + n_species gas) in
    if matches_number && matches_shape
    then l <~ Ret (flat o) ;; pret (Some (l, rows_of d))
    else pret None
  else pret None.

(** sampling.py:238-262 — [_run_sampling_jobs]. *)
Definition sampling_jobs {A} (n : Z) (worker : nat * A -> prog case_result) (cs : list A) : ends case_result :=
  ethen (run_workers n worker (jobs_of cs)) (fun rs => of_prog (Ret (collect_samples rs))).

(** sampling.py:550-598, 602-643, 647-697 — one of the three parts, with [n]
    processes. *)
Definition part_with {A} (n : Z) (torn : xnum -> list xnum) (model phase data output : string)
           (n_metrics per_case : nat) (worker : nat * A -> prog case_result) (cs : list A) : ends case_result :=
  match cs with
  | nil => of_prog (pret (nil, nil))
  | _ =>
      ethen (of_prog (saved_samples model phase data output n_metrics (length cs) per_case)) (fun s =>
        match s with
        | Some r => of_prog (pret r)
        | None =>
            ethen (sampling_jobs n worker cs) (fun r =>
              of_prog (save_rows torn data (snd r) ~;; save_nums torn output (fst r) ~;; pret r))
        end)
  end.

(** sampling.py:505-711 — [sample] on a machine with [cpus] processors, with
    the argument [num_threads]. *)
Definition sample_with (cpus threads : Z) (torn : xnum -> list xnum) (fuel : nat) (Ph : physics) (floor : option Q)
           (model phase path : string) (C : cases) : ends case_result :=
  let n := processes cpus threads in
  ethen (part_with n torn model phase data_ignition output_ignition (length (ca_ign C)) 20
           (ign_sample_worker fuel Ph model phase path) (ca_ign C)) (fun i =>
  ethen (part_with n torn model phase data_psr output_psr (3 * length (ca_psr C)) 3
           (psr_sample_worker Ph model phase) (ca_psr C)) (fun p =>
  ethen (part_with n torn model phase data_flame output_flame (length (ca_flame C)) 20
           (flame_sample_worker Ph floor model phase) (ca_flame C)) (fun f =>
  of_prog (pret (fst i ++ fst p ++ fst f, snd i ++ snd p ++ snd f)%list)))).

(** sampling.py:265-281 — [_run_metric_jobs] with the argument [num_threads]
    of [sample_metrics]. *)
Definition metrics_with (cpus threads : Z) (model phase : string) (cs : list cond) : ends (list (list xnum)) :=
  ethen (run_workers (processes cpus threads) (metric_worker model phase) (jobs_of cs)) (fun rs => of_prog (Ret (collect rs))).
