(** Cantera objects as far as [tools.compare_models] and [soln2ck] read them.
    These two modules look at thermodynamic, transport and rate data that the
    reduction code treats as opaque ([sp_info] and [rx_info] in [Mech]). *)
From Coq Require Import String List Bool QArith.
From Verif.Base Require Import Py XNum.
Import ListNotations.
Local Open Scope string_scope.

(** A rate coefficient: attributes [pre_exponential_factor],
    [temperature_exponent], [activation_energy] (SI units, kmol). *)
Record arr := mkArr { a_A : xnum; a_b : xnum; a_E : xnum }.

(** Chebyshev data: [temperature_range], [pressure_range] and the array [data]
    as a list of rows; [n_temperature] and [n_pressure] are its shape. *)
Record cheb := mkCheb { ch_T : list xnum; ch_P : list xnum; ch_data : list (list xnum) }.

(** [reaction.rate]: its class and [sub_type], and the attributes that the
    code reads; [None] means that the object has no such attribute. *)
Record rate := mkRate {
  rt_class : string;
  rt_sub : string;
  rt_arr : option arr;
  rt_low : option arr;
  rt_high : option arr;
  rt_falloff : option (list xnum);
  rt_plog : option (list (Q * arr));
  rt_cheb : option cheb
}.

(** [reaction.third_body] *)
Record collider := mkCollider { co_default : xnum; co_effs : dict xnum }.

(** A Cantera [Reaction]. *)
Record creaction := mkCRx {
  cr_equation : string;
  cr_type : string;
  cr_reactants : dict Q;
  cr_products : dict Q;
  cr_duplicate : bool;
  cr_rate : rate;
  cr_third : option collider
}.

(** Value of a transport attribute: a number, a text ([geometry]) or anything
    else ([input_data]), the latter compared as a whole. *)
Inductive tval : Type :=
| TNum (x : xnum)
| TText (s : string)
| TOther (s : string).

(** A Cantera [Species]: name, composition, thermodynamic data (the functions
    [cp], [h], [s] of temperature, [min_temp], [max_temp] and [coeffs]) and the
    attributes of [transport], [None] if it has none. *)
Record cspecies := mkCSp {
  cs_name : string;
  cs_comp : dict Q;
  cs_cp : Q -> xnum;
  cs_h : Q -> xnum;
  cs_s : Q -> xnum;
  cs_min : xnum;
  cs_max : xnum;
  cs_coeffs : list xnum;
  cs_transport : option (dict tval)
}.

(** A Cantera [Solution]. *)
Record csolution := mkCSol {
  so_name : string;
  so_elements : list string;
  so_species : list cspecies;
  so_reactions : list creaction
}.
