(** [tools.compare_models]. *)
From Coq Require Import String List Bool QArith Qabs.
From Verif.Base Require Import Py Num XNum.
From Verif.Model Require Import Chem Metrics.
Import ListNotations.
Local Open Scope string_scope.

(** [sorted(l, key=...)]: Python's sort is stable, so the result is that of
    inserting the elements from the last to the first, each before the first
    one that is not smaller ([lt x y]: the key of [x] is smaller). *)
Fixpoint insert {A} (lt : A -> A -> bool) (x : A) (l : list A) : list A :=
  match l with
  | nil => [x]
  | y :: t => if lt y x then y :: insert lt x t else x :: l
  end.
Definition sorted {A} (lt : A -> A -> bool) (l : list A) : list A := fold_right (insert lt) nil l.

(** [np.isclose(a, b, rtol)] with the default [atol] of 1e-8; exact decimals. *)
Definition atol : Q := 1 # 100000000.
Definition rtol : Q := 1 # 100000.
Definition isclose (a b : xnum) : bool :=
  match a, b with
  | Fin x, Fin y => Qle_bool (Qabs (x - y)) (atol + rtol * Qabs y)
  | _, _ => xeq a b
  end.

(** The comparison below, for [np.isclose] computed by [close]: exactly, as
    above, or with doubles as in Model/CompareDouble.v. *)
Section Closeness.
Variable close : xnum -> xnum -> bool.

(** [np.allclose] of two 1-D arrays. *)
Definition allclose (a b : list xnum) : res bool :=
  bind (bcast a b) (fun ps => Ok (forallb (fun p => close (fst p) (snd p)) ps)).

(** [np.allclose] of two rectangular 2-D arrays. *)
Definition rows_of_both (a b : list (list xnum)) : res (list (list xnum * list xnum)) :=
  if Nat.eqb (length a) (length b) then Ok (combine a b)
  else match a, b with
       | [x], _ => Ok (map (fun y => (x, y)) b)
       | _, [y] => Ok (map (fun x => (x, y)) a)
       | _, _ => Raise ValueError
       end.
Definition allclose2 (a b : list (list xnum)) : res bool :=
  bind (rows_of_both a b) (fun rs =>
  bind (mapM (fun r => allclose (fst r) (snd r)) rs) (fun bs => Ok (forallb id bs))).

(** [d1 == d2] for dicts. *)
Definition dict_eq {V} (eqv : V -> V -> bool) (d1 d2 : dict V) : bool :=
  Nat.eqb (length d1) (length d2) &&
  forallb (fun kv => match dget (fst kv) d2 with Some v => eqv (snd kv) v | None => false end) d1.

(** [v == w] for attribute values. *)
Definition tval_eq (v w : tval) : bool :=
  match v, w with
  | TNum x, TNum y => xeq x y
  | TText s, TText t => String.eqb s t
  | TOther s, TOther t => String.eqb s t
  | _, _ => false
  end.

(** tools.py:54-69 — the transport data.  [Species.transport] always exists in
    Cantera, so that both [hasattr] are true; it can be None, which has no
    attribute that [dir] lists without leading underscores, and for which
    [getattr] gives the default 0.0. *)
Definition transport_match (t1 t2 : option (dict tval)) : bool :=
  let attrs2 := match t2 with Some d => d | None => nil end in
  match t1 with
  | None => true
  | Some d1 => forallb (fun kv => tval_eq (snd kv) (match dget (fst kv) attrs2 with
                                                     | Some v => v
                                                     | None => TNum (Fin 0)
                                                     end)) d1
  end.

(** tools.py:36-69 — two species. *)
Definition species_match (s1 s2 : cspecies) : bool :=
  String.eqb (cs_name s1) (cs_name s2) &&
  dict_eq Qeq_bool (cs_comp s1) (cs_comp s2) &&
  forallb (fun T => close (cs_cp s1 T) (cs_cp s2 T) &&
                    close (cs_h s1 T) (cs_h s2 T) &&
                    close (cs_s s1 T) (cs_s s2 T)) [500; 1000; 2000]%Q &&
  transport_match (cs_transport s1) (cs_transport s2).

(** tools.py:96-105, 124-132, 145-153 — the three attributes of two rates. *)
Definition arr_match (a b : arr) : bool :=
  close (a_A a) (a_A b) && close (a_b a) (a_b b) && close (a_E a) (a_E b).

(** [getattr(rate, attr, 0.0)] *)
Definition arr_or_zero (o : option arr) : arr :=
  match o with Some a => a | None => mkArr (Fin 0) (Fin 0) (Fin 0) end.

(** [rate.high_rate] *)
Definition attr {A} (o : option A) : res A :=
  match o with Some a => Ok a | None => Raise AttributeError end.

(** [if not b: return False] followed by the rest. *)
Definition unless_false (r : res bool) (k : res bool) : res bool :=
  bind r (fun b => if b then k else Ok false).

(** tools.py:87-153 — the rate objects.  Every Cantera 3 reaction has [rate],
    so that both [hasattr] are true. *)
Definition rate_match (r1 r2 : rate) : res bool :=
  if negb (String.eqb (rt_class r1) (rt_class r2)) then Ok false
  else
  match rt_low r1, rt_low r2 with
  | Some lo1, Some lo2 =>
      bind (attr (rt_high r1)) (fun hi1 =>
      bind (attr (rt_high r2)) (fun hi2 =>
      unless_false (Ok (arr_match lo1 lo2 && arr_match hi1 hi2))
        (match rt_falloff r1, rt_falloff r2 with
         | Some c1, Some c2 => allclose c1 c2
         | _, _ => Ok true
         end)))
  | _, _ =>
  match rt_plog r1, rt_plog r2 with
  | Some t1, Some t2 =>
      let by_p := fun x y : Q * arr => Qlt_bool (fst x) (fst y) in
      Ok (Nat.eqb (length t1) (length t2) &&
          forallb (fun e => close (Fin (fst (fst e))) (Fin (fst (snd e))) &&
                            arr_match (snd (fst e)) (snd (snd e)))
                  (combine (sorted by_p t1) (sorted by_p t2)))
  | _, _ =>
  match rt_cheb r1, rt_cheb r2 with
  | Some c1, Some c2 =>
      unless_false (allclose (ch_P c1) (ch_P c2))
      (unless_false (allclose (ch_T c1) (ch_T c2))
       (allclose2 (ch_data c1) (ch_data c2)))
  | _, _ => Ok (arr_match (arr_or_zero (rt_arr r1)) (arr_or_zero (rt_arr r2)))
  end end end.

(** tools.py:155-164 — the third bodies. *)
Definition third_match (t1 t2 : option collider) : bool :=
  match t1, t2 with
  | None, None => true
  | Some c1, Some c2 => xeq (co_default c1) (co_default c2) && dict_eq xeq (co_effs c1) (co_effs c2)
  | _, _ => false
  end.

(** tools.py:71-164 — two reactions. *)
Definition reaction_match (r1 r2 : creaction) : res bool :=
  unless_false (Ok (String.eqb (cr_type r1) (cr_type r2) &&
                    dict_eq Qeq_bool (cr_reactants r1) (cr_reactants r2) &&
                    dict_eq Qeq_bool (cr_products r1) (cr_products r2) &&
                    Bool.eqb (cr_duplicate r1) (cr_duplicate r2)))
  (unless_false (rate_match (cr_rate r1) (cr_rate r2))
   (Ok (third_match (cr_third r1) (cr_third r2)))).

Fixpoint reactions_match (l : list (creaction * creaction)) : res bool :=
  match l with
  | nil => Ok true
  | p :: t => unless_false (reaction_match (fst p) (snd p)) (reactions_match t)
  end.

(** tools.py:14-166 — [compare_models]. *)
Definition by_name (s t : cspecies) : bool := String.ltb (cs_name s) (cs_name t).
Definition by_equation (r s : creaction) : bool := String.ltb (cr_equation r) (cr_equation s).
Definition compare_with (m1 m2 : csolution) : res bool :=
  if negb (Nat.eqb (length (so_species m1)) (length (so_species m2))) then Ok false
  else if negb (Nat.eqb (length (so_reactions m1)) (length (so_reactions m2))) then Ok false
  else if negb (forallb (fun p => species_match (fst p) (snd p))
                  (combine (sorted by_name (so_species m1)) (sorted by_name (so_species m2)))) then Ok false
  else reactions_match (combine (sorted by_equation (so_reactions m1))
                                (sorted by_equation (so_reactions m2))).

End Closeness.

(** tools.py:14-166 — [compare_models] with exact numbers. *)
Definition compare_models : csolution -> csolution -> res bool := compare_with isclose.
