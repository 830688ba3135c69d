(** What [compare_models] is expected to decide, without sorting or numpy. *)
From Coq Require Import String List Bool QArith Qabs Sorting.Permutation Sorting.Sorted.
From Verif.Base Require Import Py XNum.
From Verif.Model Require Import Chem.
Import ListNotations.
Local Open Scope string_scope.

(** Two numbers agree to 1e-5 of the second plus 1e-8, times [k]. *)
Definition near_by (k : Q) (x y : xnum) : Prop :=
  match x, y with
  | Fin a, Fin b => (Qabs (a - b) <= k * ((1 # 100000000) + (1 # 100000) * Qabs b))%Q
  | PInf, PInf | NInf, NInf => True
  | _, _ => False
  end.

Definition same_number (x y : xnum) : Prop :=
  match x, y with
  | Fin a, Fin b => (a == b)%Q
  | PInf, PInf | NInf, NInf => True
  | _, _ => False
  end.

(** Two dicts with the same keys and related values. *)
Definition same_map {V} (eqv : V -> V -> Prop) (d1 d2 : dict V) : Prop :=
  forall k, match dget k d1, dget k d2 with
            | Some v, Some w => eqv v w
            | None, None => True
            | _, _ => False
            end.

(** Two arrays agree; an array of one element agrees with any array all of
    whose elements agree with it. *)
Definition arrays_agree {A} (ok : A -> A -> Prop) (a b : list A) : Prop :=
  Forall2 ok a b \/ (exists x, a = [x] /\ Forall (ok x) b) \/
  (exists y, b = [y] /\ Forall (fun x => ok x y) a).

Section Tolerance.
Variable k : Q.
Local Notation near := (near_by k).

Definition arr_agree (a b : arr) : Prop :=
  near (a_A a) (a_A b) /\ near (a_b a) (a_b b) /\ near (a_E a) (a_E b).

Definition same_attribute (v w : tval) : Prop :=
  match v, w with
  | TNum x, TNum y => same_number x y
  | TText s, TText t => s = t
  | TOther s, TOther t => s = t
  | _, _ => False
  end.

(** Two species: name, composition, the thermodynamic functions at three
    temperatures, and every transport attribute of the first. *)
Record species_agree (s t : cspecies) : Prop := {
  sa_name : cs_name s = cs_name t;
  sa_comp : same_map Qeq (cs_comp s) (cs_comp t);
  sa_thermo : forall T, In T [500; 1000; 2000]%Q ->
    near (cs_cp s T) (cs_cp t T) /\ near (cs_h s T) (cs_h t T) /\ near (cs_s s T) (cs_s t T);
  sa_transport : forall d a v, cs_transport s = Some d -> dget a d = Some v ->
    exists w, same_attribute v w /\
      (match cs_transport t with Some d' => dget a d' | None => None end = Some w \/
       match cs_transport t with Some d' => dget a d' | None => None end = None /\ w = TNum (Fin 0))
}.

(** Shapes of rates that Cantera has. *)
Inductive rate_agree (r s : rate) : Prop :=
| agree_falloff : forall l1 l2 h1 h2,
    rt_low r = Some l1 -> rt_low s = Some l2 -> rt_high r = Some h1 -> rt_high s = Some h2 ->
    arr_agree l1 l2 -> arr_agree h1 h2 ->
    (forall c d, rt_falloff r = Some c -> rt_falloff s = Some d -> arrays_agree near c d) ->
    rate_agree r s
| agree_plog : forall t1 t2,
    rt_low r = None \/ rt_low s = None -> rt_plog r = Some t1 -> rt_plog s = Some t2 ->
    Forall2 (fun e f => near (Fin (fst e)) (Fin (fst f)) /\ arr_agree (snd e) (snd f)) t1 t2 ->
    rate_agree r s
| agree_cheb : forall c d,
    rt_low r = None \/ rt_low s = None -> rt_plog r = None \/ rt_plog s = None ->
    rt_cheb r = Some c -> rt_cheb s = Some d ->
    arrays_agree near (ch_P c) (ch_P d) -> arrays_agree near (ch_T c) (ch_T d) ->
    arrays_agree (arrays_agree near) (ch_data c) (ch_data d) ->
    rate_agree r s
| agree_arr : forall a b,
    rt_low r = None \/ rt_low s = None -> rt_plog r = None \/ rt_plog s = None ->
    rt_cheb r = None \/ rt_cheb s = None ->
    match rt_arr r with Some x => a = x | None => a = mkArr (Fin 0) (Fin 0) (Fin 0) end ->
    match rt_arr s with Some x => b = x | None => b = mkArr (Fin 0) (Fin 0) (Fin 0) end ->
    arr_agree a b -> rate_agree r s.

Definition third_agree (t u : option collider) : Prop :=
  match t, u with
  | None, None => True
  | Some c, Some d => same_number (co_default c) (co_default d) /\ same_map same_number (co_effs c) (co_effs d)
  | _, _ => False
  end.

(** Two reactions; neither the equation text nor reversibility is looked at. *)
Record reaction_agree (r s : creaction) : Prop := {
  ra_type : cr_type r = cr_type s;
  ra_reactants : same_map Qeq (cr_reactants r) (cr_reactants s);
  ra_products : same_map Qeq (cr_products r) (cr_products s);
  ra_duplicate : cr_duplicate r = cr_duplicate s;
  ra_class : rt_class (cr_rate r) = rt_class (cr_rate s);
  ra_rate : rate_agree (cr_rate r) (cr_rate s);
  ra_third : third_agree (cr_third r) (cr_third s)
}.

(** [l'] lists the elements of [l] in ascending order of [key]. *)
Definition in_order {A} (key : A -> string) (l l' : list A) : Prop :=
  Permutation l l' /\ StronglySorted (fun x y => String.leb (key x) (key y) = true) l'.

Record equivalent_by (m1 m2 : csolution) : Prop := {
  eq_names : Permutation (map cs_name (so_species m1)) (map cs_name (so_species m2));
  eq_species : forall s t, In s (so_species m1) -> In t (so_species m2) -> cs_name s = cs_name t ->
    species_agree s t;
  eq_reactions : exists l1 l2, in_order cr_equation (so_reactions m1) l1 /\
    in_order cr_equation (so_reactions m2) l2 /\ Forall2 reaction_agree l1 l2
}.

End Tolerance.

(** Two models are equivalent. *)
Definition equivalent : csolution -> csolution -> Prop := equivalent_by 1.

(** Python dicts have distinct keys; Cantera species have distinct names, PLOG
    tables come in ascending order of pressure, and a rate with a low-pressure
    limit has a high-pressure limit. *)
Definition keys_distinct {V} (d : dict V) : Prop := NoDup (map fst d).
Record well_formed (m : csolution) : Prop := {
  wf_names : NoDup (map cs_name (so_species m));
  wf_comp : forall s, In s (so_species m) -> keys_distinct (cs_comp s);
  wf_attrs : forall s d, In s (so_species m) -> cs_transport s = Some d -> keys_distinct d;
  wf_sides : forall r, In r (so_reactions m) -> keys_distinct (cr_reactants r) /\ keys_distinct (cr_products r);
  wf_effs : forall r c, In r (so_reactions m) -> cr_third r = Some c -> keys_distinct (co_effs c);
  wf_plog : forall r t, In r (so_reactions m) -> rt_plog (cr_rate r) = Some t ->
    StronglySorted (fun x y => (fst x <= fst y)%Q) t;
  wf_limits : forall r, In r (so_reactions m) -> rt_low (cr_rate r) <> None -> rt_high (cr_rate r) <> None
}.

(** The numbers of a model that are compared. *)
Definition arr_numbers (a : arr) : list xnum := [a_A a; a_b a; a_E a].
Definition opt {A B} (f : A -> list B) (o : option A) : list B :=
  match o with Some a => f a | None => nil end.
Definition rate_numbers (r : rate) : list xnum :=
  match rt_low r, rt_plog r, rt_cheb r with
  | Some l, _, _ => (arr_numbers l ++ opt arr_numbers (rt_high r) ++ opt id (rt_falloff r))%list
  | None, Some t, _ => concat (map (fun e => arr_numbers (snd e)) t)
  | None, None, Some c => (ch_P c ++ ch_T c ++ concat (ch_data c))%list
  | None, None, None => opt arr_numbers (rt_arr r)
  end.
Definition species_numbers (s : cspecies) : list xnum :=
  (concat (map (fun T => [cs_cp s T; cs_h s T; cs_s s T]) [500; 1000; 2000]%Q) ++
   opt (fun d => concat (map (fun kv => match snd kv with TNum x => [x] | _ => [] end) d)) (cs_transport s))%list.
Definition reaction_numbers (r : creaction) : list xnum :=
  (rate_numbers (cr_rate r) ++ opt (fun c => co_default c :: map snd (co_effs c)) (cr_third r))%list.
Definition no_nan (m : csolution) : Prop :=
  ~ In NaN (concat (map species_numbers (so_species m)) ++ concat (map reaction_numbers (so_reactions m))).
