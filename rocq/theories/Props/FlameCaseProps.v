(** Property theorems about the objects for flame cases (C94). *)
From Coq Require Import String List QArith Bool Arith.
From Verif.Base Require Import Py Num XNum.
From Verif.Model Require Import Mech World Metrics Drivers Simulation FlameCase.
From Verif.Spec Require Import Samples SimSpec SimSamples FlameCaseSpec Attributes.
From Verif.Proofs Require Import FlameCaseFacts AttributeFacts.
Import ListNotations.
Local Open Scope string_scope.

(** C94: the i-th of any calls answers by the i-th solution of the flame. *)
Theorem flame_calls_answer :
  forall (A : calc) F floor c m o ks rs o',
    flame_setup F floor c m = Ok o -> flame_calls ks o = (rs, o') ->
    length rs = length ks /\
    forall i k, nth_error ks i = Some k ->
      exists r, nth_error rs i = Some r /\
        flame_says (match floor with Some q => q | None => 1 # 20 end) k (F c m i) r.
Proof. exact @flame_new. Qed.
Print Assumptions flame_calls_answer.

(** C94: the attribute [flame_speed] after a call is the speed that the call
    returned; after [run_case] or [process_results] failed because the flame
    is too slow it is that speed. *)
Theorem flame_speed_attribute :
  forall (A : calc) F floor c m o ks k rs o1 r o2,
    flame_setup F floor c m = Ok o -> flame_calls ks o = (rs, o1) -> flame_do k o1 = (r, o2) ->
    speed_after (match floor with Some q => q | None => 1 # 20 end) (fo_speed o1) k (F c m (length ks)) (fo_speed o2).
Proof. exact @flame_speed_kept. Qed.
Print Assumptions flame_speed_attribute.

(** C94: the attribute [sampled_data] holds the samples that were returned
    last. *)
Theorem flame_samples_attribute :
  forall (A : calc) F floor c m o ks rs o',
    flame_setup F floor c m = Ok o -> flame_calls ks o = (rs, o') -> fo_data o' = last_rows rs.
Proof. exact @flame_rows. Qed.
Print Assumptions flame_samples_attribute.

Example flame_samples_attribute_case :
  let F := (fun _ _ i => nth i [Ok (Fin (2 # 5), [pt 0 300; pt 1 2000]); Ok (Fin (1 # 100), [pt 0 300])] NoFuel) in
  match flame_setup F None (mkFlame 300 1 (1 # 10) (mix "O2")) toy with
  | Ok o => let (rs, o') := flame_calls [CallFlameProcess false; CallFlameProcess false] o in
            (length rs, option_map (@hd _ []) (fo_data o'))
  | _ => (0%nat, None)
  end = (2%nat, Some [2000; 101325; 1]).
Proof. vm_compute. reflexivity. Qed.

(** A flame that is fast, then slow, then fails, then is fast again. *)
Example flame_calls_answer_case :
  let F := (fun _ _ i => nth i [Ok (Fin (2 # 5), [pt 0 300; pt 1 2000]); Ok (Fin (1 # 100), [pt 0 300]);
                               Raise CanteraError; Ok (NaN, []); Ok (Fin (3 # 10), [])] NoFuel) in
  match flame_setup F None (mkFlame 300 1 (1 # 10) (mix "O2")) toy with
  | Ok o => let (rs, o') := flame_calls [CallFlameProcess true; CallFlameRun; CallFlameCalculate; CallFlameCalculate; CallFlameRun] o in
            (rs, fo_speed o')
  | _ => ([], NaN)
  end = ([Ok (Fin (2 # 5), None); Raise RuntimeError; Ok (Fin 0, None); Ok (NaN, None); Ok (Fin (3 # 10), None)], Fin (3 # 10)).
Proof. reflexivity. Qed.

(** C94: this is what the other parts of the model simulate. *)
Theorem flame_objects_are_conditions :
  forall F Ph floor c m,
    flame_cond (with_flames F Ph) floor c m =
      bind (flame_setup F floor c m) (fun o => bind (fst (flame_calc o)) (fun v => Ok [v])) /\
    forall o, flame_setup F floor c m = Ok o ->
      fst (flame_results (A := ph_calc Ph) false o) =
      bind (flame_process (A := ph_calc Ph) (flame_floor floor) (ph_flame (with_flames F Ph) c m)) (fun x => Ok (fst x, Some (snd x))).
Proof. exact (fun F Ph floor c m => conj (as_flame_condition F Ph floor c m) (as_flame_sample F Ph floor c m)). Qed.
Print Assumptions flame_objects_are_conditions.
