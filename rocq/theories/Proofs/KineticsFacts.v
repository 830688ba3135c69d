(** What the drivers read from a model. *)
From Coq Require Import String List QArith ZArith Bool Arith.
From Verif.Base Require Import Py Num XNum B64.
From Verif.Model Require Import Mech Matrices FloatDrivers FloatMatrix SaveText FloatRun.
From Verif.Spec Require Import MatrixSpec DriverSpec FloatSpec FloatMatrixSpec FloatRunSpec KineticsSpec.
From Verif.Proofs Require Import MatrixMore FloatRunFacts.
Import ListNotations.

Definition listed (side : dict Q) (s : string) : Q := match dget s side with Some v => v | None => 0 end.

Lemma listed_stands side s : stands side s (listed side s).
Proof. unfold stands, listed. destruct (dget s side); reflexivity. Qed.

Lemma table_at {A} (f : Q -> A) (z : A) side m a i s r :
  nth_error (species_names m) a = Some s -> nth_error (m_reactions m) i = Some r ->
  nth i (nth a (map (map f) (stoich_of side m)) nil) z = f (listed (side r) s).
Proof.
  intros Ha Hi. unfold stoich_of. rewrite map_map.
  rewrite (nth_error_nth _ _ _ (map_nth_error (fun x => map f (map (fun r => listed (side r) x) (m_reactions m))) a _ Ha)).
  rewrite map_map. now rewrite (nth_error_nth _ _ _ (map_nth_error (fun y => f (listed (side y) s)) i _ Hi)).
Qed.

Lemma stoich_at side m a i s r :
  nth_error (species_names m) a = Some s -> nth_error (m_reactions m) i = Some r ->
  mget (stoich_of side m) a i = listed (side r) s.
Proof.
  intros Ha Hi. pose proof (table_at (fun q => q) 0%Q side m a i s r Ha Hi) as T.
  unfold mget. rewrite <- T. f_equal. f_equal. rewrite (map_ext _ (fun x => x)) by apply map_id. now rewrite map_id.
Qed.

Lemma kin_describes m w : describes m w (kin_of m w).
Proof.
  constructor; [reflexivity|reflexivity| |]; intros a i s r Ha Hi; cbn [kin_of k_prod k_reac];
    rewrite (stoich_at _ _ _ _ _ _ Ha Hi); apply listed_stands.
Qed.

Lemma fkin_describes m rop : double_coefficients m -> describes m (map b64_val rop) (exact (fkin_of m rop)).
Proof.
  intros DC.
  assert (forall side : reaction -> dict Q, (forall r s v, In r (m_reactions m) -> dget s (side r) = Some v -> exists d, b64_finite d /\ (b64_val d == v)%Q) ->
    forall a i s r, nth_error (species_names m) a = Some s -> nth_error (m_reactions m) i = Some r ->
      stands (side r) s (mget (map (map b64_val) (fstoich_of side m)) a i)) as G.
  { intros side D a i s r Ha Hi. unfold fstoich_of, mget. rewrite map_map.
    rewrite (map_ext _ (map (fun q => b64_val (b64_of_Q false q)))) by (intros; apply map_map).
    rewrite (table_at (fun q => b64_val (b64_of_Q false q)) 0%Q side m a i s r Ha Hi). unfold stands, listed.
    destruct (dget s (side r)) as [v|] eqn:E; [|reflexivity].
    destruct (D r s v (nth_error_In _ _ Hi) E) as (d & F & V). exact (proj2 (of_Q_val v d F V)). }
  constructor; [reflexivity|reflexivity| |]; apply G; intros r s v I E; apply (DC r s v I); auto.
Qed.

Lemma shape_and_documented me K :
  let Mx := match me with DRG => create_drg_matrix | PFA => create_pfa_matrix | DRGEP => create_drgep_matrix end K in
  documented me K (mget Mx).
Proof. intros Mx d I. destruct me; subst Mx; [apply drg_full|apply pfa_full|apply drgep_full]; exact I. Qed.

Lemma used_documented me m ws :
  Forall2 (fun w Mx => exists K, describes m w K /\ documented me K (mget Mx)) ws (matrices me m ws).
Proof.
  induction ws as [|w ws IH]; constructor; auto. exists (kin_of m w). split; [apply kin_describes|]. apply shape_and_documented.
Qed.

Lemma fused_documented me m rops : double_coefficients m ->
  Forall2 (fun rop Mx => exists K, describes m (map b64_val rop) K /\ documented me K (mget Mx)) rops (xmatrices me m rops).
Proof.
  intros DC. induction rops as [|rop rops IH]; constructor; auto. exists (exact (fkin_of m rop)).
  split; [now apply fkin_describes|]. apply shape_and_documented.
Qed.
