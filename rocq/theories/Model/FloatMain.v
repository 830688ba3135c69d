(** The whole program with doubles: pymars.py:152-290 with the drivers of
    Model/FloatRun.v, errors and their distances as in Model/DoubleError.v.
    The arithmetic of the simulations is that of the machine [K]; for doubles it
    is [double_calc] in Model/FloatSimulation.v. *)
From Coq Require Import String List QArith Bool.
From Verif.Base Require Import Py Num XNum B64 Paths.
From Verif.Model Require Import Mech World Metrics Drivers Sensitivity Simulation Sampling Main FloatRun DoubleError.
Import ListNotations.

(** sampling.py:191-207 — conditions whose errors are computed with doubles. *)
Definition double_conds (cs : conds) : conds := mkCondsWith (c_ign cs) (c_psr cs) (c_flame cs) double_error.

(** pymars.py:152-290 — [main]; [rates] gives the net rates of progress at a
    sampled state. *)
Definition fmain (B : limits) (K : machine) (rates : mech -> list xnum -> res (list b64)) (floor : option Q) (C : cases)
           (a : main_in) : M rmodel :=
  let smp := sampler_with K rates floor C a in
  main_with (fun J => frun_drg (b_thr B) J smp (a_limit a))
            (fun J => frun_drgep (b_thr B) (b_path B) J smp (a_limit a))
            (fun J => frun_pfa (b_thr B) J smp (a_limit a)) double_distance B
            (double_conds (conds_of (k_fuel K) (k_physics K) floor C)) a.
