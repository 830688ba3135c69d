(** Vocabulary for the properties of the drivers that compute with doubles
    throughout. *)
From Coq Require Import String List ZArith QArith Qabs Bool Arith.
From Verif.Base Require Import Py Num XNum Paths B64.
From Verif.Model Require Import Mech Matrices Graph World Metrics Drivers FloatDrivers FloatMatrix FloatPfa FloatRun.
From Verif.Spec Require Import TrimSpec GraphSpec DriverSpec FloatSpec FloatMatrixSpec.
Import ListNotations.
Local Open Scope string_scope.

(** One array of doubles per sampled state. *)
Definition fmatrices (me : method) (sol : mech) (rops : list (list b64)) : list fmatrix :=
  map (fun rop => match me with
                  | DRG => f_drg_matrix
                  | PFA => f_pfa_matrix
                  | DRGEP => f_drgep_matrix
                  end (fkin_of sol rop)) rops.

(** Species [s] is to be kept at threshold [t], judged by the rounded
    coefficients. *)
Definition fkept (me : method) (J : job) (sol : mech) (rops : list (list b64)) (t : b64) (s : string) : Prop :=
  In s (j_safe J) \/
  match me with
  | DRG | PFA => exists F tgt, In F (fmatrices me sol rops) /\ In tgt (j_targets J) /\
                   freach (species_names sol) F t tgt s
  | DRGEP => exists c, is_fimportance (species_names sol) (j_targets J) (fmatrices me sol rops) s c /\
                   (b64_val t <= b64_val c)%Q
  end.

(** [v] is the value of a rounded coefficient, and one of them agrees with [t]
    to about 15 digits. *)
Definition fcoefficient (me : method) (J : job) (sol : mech) (rops : list (list b64)) (v : Q) : Prop :=
  match me with
  | DRG | PFA => exists F i j, In F (fmatrices me sol rops) /\ v = b64_val (fget F i j)
  | DRGEP => exists s c, is_fimportance (species_names sol) (j_targets J) (fmatrices DRGEP sol rops) s c /\
                         v = b64_val c
  end.
Definition fclose_coefficient (me : method) (J : job) (sol : mech) (rops : list (list b64)) (t : Q) : Prop :=
  exists v, fcoefficient me J sol rops v /\ (Qabs (v - t) <= (2 # 1) ^ (-49) * t)%Q.

(** A driver is called in world [w] on a job whose model file holds [sol];
    sampling gives the metrics [sampled] and the doubles [rops], and leaves the
    model file alone. *)
Record fstarted (J : job) (smp : fsampler) (w : world) (sol : mech)
       (sampled : list xnum) (rops : list (list b64)) (w1 : world) : Prop := {
  fs_wf : TrimSpec.wf_mech sol;
  fs_file : holds w (j_file J) (j_phase J) sol;
  fs_job : job_ok J sol;
  fs_apart : input_apart J;
  fs_sample : smp w = (Ok (sampled, rops), w1);
  fs_file1 : holds w1 (j_file J) (j_phase J) sol
}.

(** Numbers far from the largest double, a model with at most 2^28 species,
    and an upper threshold that is a double. *)
Record tame (J : job) (sol : mech) (rops : list (list b64)) : Prop := {
  ta_rates : forall rop, In rop rops -> moderate (fkin_of sol rop);
  ta_size : (Z.of_nat (n_species sol) <= 2 ^ 28)%Z;
  ta_upper : forall u, j_upper J = Some u -> exists d, b64_finite d /\ (b64_val d == u)%Q
}.

(** The path search of DRGEP finishes (it always does with enough fuel). *)
Definition fsearch_ends (me : method) (dfuel : nat) (J : job) (sol : mech) (rops : list (list b64)) : Prop :=
  me = DRGEP -> exists imp,
    f_importance_coeffs dfuel (species_names sol) (j_targets J) (fmatrices DRGEP sol rops) = Ok imp.

(** The coefficients that exact arithmetic gives for the same doubles, and
    what they keep. *)
Definition xmatrices (me : method) (sol : mech) (rops : list (list b64)) : list matrix :=
  map (fun rop => match me with
                  | DRG => create_drg_matrix
                  | PFA => create_pfa_matrix
                  | DRGEP => create_drgep_matrix
                  end (exact (fkin_of sol rop))) rops.
Definition xkept (me : method) (J : job) (sol : mech) (rops : list (list b64)) (t : Q) (s : string) : Prop :=
  In s (j_safe J) \/
  match me with
  | DRG | PFA => exists Mx tgt, In Mx (xmatrices me sol rops) /\ In tgt (j_targets J) /\
                   reach (species_names sol) Mx t tgt s
  | DRGEP => exists m, is_importance (species_names sol) (j_targets J) (xmatrices me sol rops) s m /\
                   (t <= m)%Q
  end.
Definition xcoefficient (me : method) (J : job) (sol : mech) (rops : list (list b64)) (v : Q) : Prop :=
  match me with
  | DRG | PFA => exists Mx i j, In Mx (xmatrices me sol rops) /\ v = mget Mx i j
  | DRGEP => exists s, is_importance (species_names sol) (j_targets J) (xmatrices DRGEP sol rops) s v
  end.

(** How far a rounded coefficient of a model with [s] species and [n] reactions
    can be from the exact one. *)
Definition coefficient_bound (me : method) (s n : nat) : Q :=
  match me with
  | DRG => coefficient_error n
  | PFA => pfa_error s n
  | DRGEP => (inject_Z (Z.of_nat (s - 1)) * (coefficient_error n + roundoff))%Q
  end.

(** At each state the total turnover of each species is zero or not tiny, and
    there is one rate for each of the [n] reactions. *)
Definition measured (me : method) (n : nat) (sol : mech) (rops : list (list b64)) : Prop :=
  forall rop, In rop rops -> (length rop <= n)%nat /\
    forall a, (a < n_species sol)%nat ->
      not_tiny (match me with DRG => drg_total | _ => drgep_total end (exact (fkin_of sol rop)) a).

(** The limbo field of a DRG or PFA result, and of a DRGEP result before the
    driver extends it; and what [run_drgep] adds for the model [m]. *)
Definition flimbo_spec (me : method) (J : job) (sol : mech) (rops : list (list b64)) (l : limbo) : Prop :=
  match me with
  | DRG => exists ss, l = Own ss /\
      if truthy (j_upper J)
      then forall d s, b64_finite d -> (b64_val d == upper_of J)%Q ->
             (In s ss <-> exists F tgt, In F (fmatrices DRG sol rops) /\ In tgt (j_targets J) /\
                            freach (species_names sol) F d tgt s)
      else ss = nil
  | PFA => l = Own nil
  | DRGEP => l = Shared
  end.
Definition fdrgep_limbo (J : job) (sol : mech) (rops : list (list b64)) (m : mech) (l : list string) : Prop :=
  if truthy (j_upper J) then
    sublist l (species_names m) /\
    forall s, In s l <-> In s (species_names m) /\ ~ In s (j_safe J) /\
                exists c, is_fimportance (species_names sol) (j_targets J) (fmatrices DRGEP sol rops) s c /\
                          (b64_val c < upper_of J)%Q
  else l = nil.
