(** Facts about input checking. *)
From Coq Require Import String Ascii List QArith ZArith Bool Lia.
From Verif.Base Require Import Py Num XNum Paths.
From Verif.Model Require Import Mech World Simulation Inputs.
From Verif.Spec Require Import DriverSpec InputSpec.
From Verif.Proofs Require Import NumFacts PyFacts.
Import ListNotations.
Local Open Scope string_scope.

Lemma bind_ok {A B} (r : res A) (k : A -> res B) b : bind r k = Ok b <-> exists a, r = Ok a /\ k a = Ok b.
Proof.
  destruct r; simpl; split; [intro E; eauto|intros (x & E & F); injection E as ->; exact F|..];
    try discriminate; intros (x & E & F); discriminate E.
Qed.

Lemma check_ok b u : check b = Ok u <-> b = true.
Proof. destruct b, u; simpl; split; auto; discriminate. Qed.

Lemma truth_blank v : ytrue v = false <-> blank v.
Proof.
  split.
  - destruct v as [|b|z|x|s|l|d]; simpl; intro E.
    + constructor.
    + rewrite E. constructor.
    + apply negb_false_iff, Z.eqb_eq in E as ->. constructor.
    + destruct x; try discriminate. constructor. unfold Qnz in E.
      apply negb_false_iff in E. now apply Qeq_bool_iff.
    + apply negb_false_iff, String.eqb_eq in E as ->. constructor.
    + destruct l; [constructor|discriminate].
    + destruct d; [constructor|discriminate].
  - intros []; simpl; auto. unfold Qnz. apply negb_false_iff. now apply Qeq_bool_iff.
Qed.

Lemma gt0_ok v : ygt0 v = Ok true <-> positive v.
Proof.
  unfold ygt0. split.
  - destruct v as [|b|z|x|s|l|d]; simpl; try discriminate.
    + destruct b; [constructor|]. intro E. vm_compute in E. discriminate.
    + intro E. constructor. injection E as E. apply Qlt_bool_iff in E. unfold Qlt in E. simpl in E. lia.
    + destruct x; simpl; try discriminate; [|constructor].
      intro E. constructor. injection E as E. now apply Qlt_bool_iff in E.
  - intros []; simpl; try reflexivity; f_equal; apply Qlt_bool_iff; auto.
    unfold Qlt. simpl. lia.
Qed.

Lemma pos_true v : positive v -> ytrue v = true.
Proof.
  intros []; simpl; auto.
  - apply negb_true_iff. apply Z.eqb_neq. lia.
  - unfold Qnz. apply negb_true_iff. apply not_true_iff_false. intro E. apply Qeq_bool_iff in E. rewrite E in H.
    discriminate.
Qed.

Lemma is_str_iff s v : is_str s v = true <-> v = YStr s.
Proof.
  destruct v; simpl; split; try discriminate.
  - intro E. apply String.eqb_eq in E. congruence.
  - intro E. injection E as ->. apply String.eqb_refl.
Qed.

Lemma name_in_iff v names : name_in v names = true <-> exists s, v = YStr s /\ In s names.
Proof.
  destruct v; simpl; split; try discriminate; try (intros (? & E & _); discriminate).
  - intro E. apply str_in_iff in E. eauto.
  - intros (t & E & H). injection E as ->. now apply str_in_iff.
Qed.

Lemma each_ok {A} (f : A -> res unit) l u : each f l = Ok u <-> Forall (fun x => f x = Ok tt) l.
Proof.
  destruct u. induction l as [|x t IH]; simpl; [split; auto|]. rewrite bind_ok. split.
  - intros ([] & E & F). constructor; [exact E|]. now apply IH.
  - intros H. inversion H; subst. exists tt. split; [assumption|]. now apply IH.
Qed.

Lemma entries_ok names v u : check_entries names v = Ok u -> exists d, v = YDict d.
Proof.
  destruct v as [| | | | |l|d]; simpl; try discriminate; [|eauto].
  destruct l as [|[| [] |z| | | |] [|]]; try discriminate; destruct (_ && _); discriminate.
Qed.

Lemma amounts_iff names v u : ytrue v = true ->
  (check_entries names v = Ok u <-> amounts_of names v).
Proof.
  intro T. split.
  - intro E. destruct (entries_ok _ _ _ E) as (d & ->). exists d. split; [reflexivity|].
    split; [intros ->; discriminate T|]. intros k x I. simpl in E.
    apply each_ok in E. rewrite Forall_forall in E. specialize (E _ I). simpl in E.
    apply bind_ok in E as (b & G & E). destruct b; simpl in E.
    + split; [now apply gt0_ok|]. destruct (name_in k names) eqn:N.
      * now apply name_in_iff.
      * destruct k; discriminate E.
    + destruct k; discriminate E.
  - intros (d & -> & _ & H). simpl. apply each_ok. apply Forall_forall. intros [k x] I. simpl.
    destruct (H _ _ I) as (P & N). apply gt0_ok in P. rewrite P. simpl. apply name_in_iff in N. now rewrite N.
Qed.

Lemma amounts_true names v : amounts_of names v -> ytrue v = true.
Proof. intros (d & -> & NE & _). destruct d; [congruence|reflexivity]. Qed.

Lemma dlook_in key d v : dlook key d = Some v -> In (YStr key, v) d.
Proof.
  unfold dlook. destruct (find _ d) as [[k x]|] eqn:F; [|discriminate].
  intro E. injection E as <-. apply find_some in F as (I & S). simpl in S. apply is_str_iff in S as ->. exact I.
Qed.
Lemma dlook_none key d : dlook key d = None -> forall v, ~ In (YStr key, v) d.
Proof.
  unfold dlook. destruct (find _ d) as [[k x]|] eqn:F; [discriminate|].
  intros _ v I. apply (find_none _ _ F) in I. simpl in I. rewrite String.eqb_refl in I. discriminate.
Qed.
Lemma in_dlook key d v : dict_ok d -> In (YStr key, v) d -> dlook key d = Some v.
Proof.
  intros (ND & _) I. destruct (dlook key d) as [x|] eqn:E.
  - apply dlook_in in E. induction d as [|[k y] t IH]; [easy|]. inversion ND as [|? ? NI ND']; subst.
    destruct I as [I|I], E as [E|E].
    + congruence.
    + injection I as -> ->. exfalso. apply NI. apply in_map_iff. exists (YStr key, x). auto.
    + injection E as -> ->. exfalso. apply NI. apply in_map_iff. exists (YStr key, v). auto.
    + auto.
  - exfalso. eapply dlook_none; eauto.
Qed.

Lemma yget_iff key default d v : dict_ok d ->
  (yget key default (YDict d) = Ok v <-> field key default d v).
Proof.
  intro W. simpl. unfold field. split.
  - intro E. injection E as <-. destruct (dlook key d) as [x|] eqn:L.
    + left. now apply dlook_in.
    + right. split; [reflexivity|]. now apply dlook_none.
  - intros [I|(-> & N)].
    + now rewrite (in_dlook _ _ _ W I).
    + destruct (dlook key d) as [x|] eqn:L; [|reflexivity]. apply dlook_in in L. now apply N in L.
Qed.
Lemma yget_dict key default v x : yget key default v = Ok x -> exists d, v = YDict d.
Proof. destruct v; try discriminate. eauto. Qed.

Lemma xor_split a b : xorb a b = true <-> (a = true /\ b = false) \/ (a = false /\ b = true).
Proof. destruct a, b; simpl; intuition. Qed.

Lemma parse_mix_iff names d x : dict_ok d ->
  (parse_mix names (YDict d) = Ok x <-> mix_fields d x /\ mix_ok names x).
Proof.
  intro W. unfold parse_mix. split.
  - intro E.
    apply bind_ok in E as (ratio & G1 & E). apply bind_ok in E as (fuel & G2 & E).
    apply bind_ok in E as (oxi & G3 & E). apply bind_ok in E as (rea & G4 & E).
    apply bind_ok in E as (u1 & C1 & E). apply bind_ok in E as (u2 & C2 & E).
    apply bind_ok in E as (u3 & C3 & E). apply bind_ok in E as (ty & G5 & E).
    apply bind_ok in E as (u4 & C4 & E). apply bind_ok in E as (u5 & C5 & E).
    injection E as <-.
    apply (yget_iff _ _ _ _ W) in G1, G2, G3, G4, G5.
    split; [unfold mix_fields; simpl; auto|].
    apply check_ok in C1, C4, C5.
    apply orb_true_iff in C4.
    apply xor_split in C1 as [(A & B)|(A & B)]; rewrite A in C2; rewrite B in C3.
    + left. simpl. apply truth_blank in B.
      apply bind_ok in C2 as (b & P & C2). apply bind_ok in C2 as (v1 & V1 & C2).
      apply bind_ok in C2 as (v2 & V2 & C2). apply bind_ok in C2 as (v3 & V3 & C2).
      apply bind_ok in C2 as (v4 & V4 & C2). apply check_ok in V1, V2, V4. subst b.
      apply gt0_ok in P. apply (amounts_iff _ _ _ V2) in V3. apply (amounts_iff _ _ _ V4) in C2.
      split; [exact P|]. split; [exact V3|]. split; [exact C2|]. split; [exact B|].
      apply negb_true_iff in C5. rewrite (pos_true _ P), andb_true_r in C5.
      destruct C4 as [C4|C4]; [now apply is_str_iff|congruence].
    + right. simpl. apply orb_false_iff in A as (A & A3). apply orb_false_iff in A as (A1 & A2).
      apply truth_blank in A1, A2, A3. apply (amounts_iff _ _ _ B) in C3.
      split; [exact A1|]. split; [exact A2|]. split; [exact A3|]. split; [exact C3|].
      destruct C4 as [C4|C4]; apply is_str_iff in C4; auto.
  - intros ((G1 & G2 & G3 & G4 & G5) & H).
    apply (yget_iff _ _ _ _ W) in G1, G2, G3, G4, G5.
    rewrite G1, G2, G3, G4, G5. cbn [bind]. unfold mix_ok in H. destruct x as [ratio fuel oxi rea ty]; simpl in *.
    destruct H as [(P & F & O & R & ->)|(P & F & O & R & T)].
    + rewrite (pos_true _ P). apply truth_blank in R. rewrite R. simpl.
      pose proof (proj2 (gt0_ok _) P) as P'. rewrite P'. simpl.
      rewrite (amounts_true _ _ F). simpl.
      rewrite (proj2 (amounts_iff names fuel tt (amounts_true _ _ F)) F). simpl.
      rewrite (amounts_true _ _ O). simpl.
      rewrite (proj2 (amounts_iff names oxi tt (amounts_true _ _ O)) O). reflexivity.
    + apply truth_blank in P, F, O. rewrite P, F, O, (amounts_true _ _ R). simpl.
      rewrite (proj2 (amounts_iff names rea tt (amounts_true _ _ R)) R).
      destruct T as [-> | ->]; reflexivity.
Qed.

Lemma check_pos_ok v u : check_pos v = Ok u <-> positive v.
Proof.
  unfold check_pos. rewrite bind_ok. split.
  - intros (b & G & C). apply check_ok in C as ->. now apply gt0_ok.
  - intros P. apply gt0_ok in P. exists true. split; [exact P|]. now destruct u.
Qed.

Lemma parse_ign_iff names case r : yaml_dict case ->
  (parse_ign names case = Ok r <-> ign_case names case r).
Proof.
  intro W. unfold parse_ign, ign_case. split.
  - intro E. apply bind_ok in E as (kind & G1 & E). destruct (yget_dict _ _ _ _ G1) as (d & ->). simpl in W.
    apply bind_ok in E as (T & G2 & E). apply bind_ok in E as (P & G3 & E).
    apply bind_ok in E as (u1 & C1 & E). apply bind_ok in E as (u2 & C2 & E). apply bind_ok in E as (u3 & C3 & E).
    apply bind_ok in E as (e & G4 & E). apply bind_ok in E as (n & G5 & E). apply bind_ok in E as (x & X & E).
    injection E as <-. apply (yget_iff _ _ _ _ W) in G1, G2, G3, G4, G5.
    apply (parse_mix_iff _ _ _ W) in X as (X1 & X2). apply check_pos_ok in C2, C3. apply check_ok, orb_true_iff in C1.
    exists d. simpl. repeat (split; [assumption || reflexivity|]). split; [|auto].
    destruct C1 as [C1|C1]; apply is_str_iff in C1; auto.
  - intros (d & -> & G1 & G2 & G3 & G4 & G5 & X1 & K & PT & PP & X2). simpl in W.
    apply (yget_iff _ _ _ _ W) in G1, G2, G3, G4, G5. rewrite G1, G2, G3, G4, G5. cbn [bind].
    rewrite (proj2 (check_pos_ok _ tt) PT), (proj2 (check_pos_ok _ tt) PP).
    rewrite (proj2 (parse_mix_iff names _ _ W) (conj X1 X2)).
    destruct r; simpl in *. destruct K as [-> | ->]; reflexivity.
Qed.

Lemma parse_psr_iff names case r : yaml_dict case ->
  (parse_psr names case = Ok r <-> psr_case names case r).
Proof.
  intro W. unfold parse_psr, psr_case. split.
  - intro E. apply bind_ok in E as (T & G1 & E). destruct (yget_dict _ _ _ _ G1) as (d & ->). simpl in W.
    apply bind_ok in E as (P & G2 & E).
    apply bind_ok in E as (u1 & C1 & E). apply bind_ok in E as (u2 & C2 & E). apply bind_ok in E as (x & X & E).
    injection E as <-. apply (yget_iff _ _ _ _ W) in G1, G2.
    apply (parse_mix_iff _ _ _ W) in X as (X1 & X2). apply check_pos_ok in C1, C2.
    exists d. simpl. auto 10.
  - intros (d & -> & G1 & G2 & X1 & PT & PP & X2). simpl in W.
    apply (yget_iff _ _ _ _ W) in G1, G2. rewrite G1, G2. cbn [bind].
    rewrite (proj2 (check_pos_ok _ tt) PT), (proj2 (check_pos_ok _ tt) PP).
    rewrite (proj2 (parse_mix_iff names _ _ W) (conj X1 X2)). now destruct r.
Qed.

Lemma parse_flame_iff names case r : yaml_dict case ->
  (parse_flame names case = Ok r <-> flame_case names case r).
Proof.
  intro W. unfold parse_flame, flame_case. split.
  - intro E. apply bind_ok in E as (T & G1 & E). destruct (yget_dict _ _ _ _ G1) as (d & ->). simpl in W.
    apply bind_ok in E as (P & G2 & E).
    apply bind_ok in E as (u1 & C1 & E). apply bind_ok in E as (u2 & C2 & E).
    apply bind_ok in E as (wd & G3 & E). apply bind_ok in E as (u3 & C3 & E). apply bind_ok in E as (x & X & E).
    injection E as <-. apply (yget_iff _ _ _ _ W) in G1, G2, G3.
    apply (parse_mix_iff _ _ _ W) in X as (X1 & X2). apply check_pos_ok in C1, C2, C3.
    exists d. simpl. auto 12.
  - intros (d & -> & G1 & G2 & G3 & X1 & PT & PP & PW & X2). simpl in W.
    apply (yget_iff _ _ _ _ W) in G1, G2, G3. rewrite G1, G2, G3. cbn [bind].
    rewrite (proj2 (check_pos_ok _ tt) PT), (proj2 (check_pos_ok _ tt) PP), (proj2 (check_pos_ok _ tt) PW).
    rewrite (proj2 (parse_mix_iff names _ _ W) (conj X1 X2)). now destruct r.
Qed.

Lemma load_iff w f phase sol w' : load f phase w = (Ok sol, w') <-> w' = w /\ holds w f phase sol.
Proof.
  unfold load, holds, mbind, get_file, mraise, mlift. split.
  - destruct (w_fs w f) as [[ps| | | |]|] eqn:F; intro E; try discriminate.
    injection E as E <-. eauto.
  - intros (-> & ps & -> & E). now rewrite E.
Qed.

Lemma load_world w f phase : snd (load f phase w) = w.
Proof. unfold load, mbind, get_file, mraise, mlift. simpl. destruct (w_fs w f) as [[]|]; reflexivity. Qed.

Lemma mapM_forall2 {A B} (f : A -> res B) (R : A -> B -> Prop) l ys :
  (forall x y, In x l -> (f x = Ok y <-> R x y)) -> (mapM f l = Ok ys <-> Forall2 R l ys).
Proof.
  revert ys. induction l as [|x t IH]; intros ys H; simpl.
  - split; [intro E; injection E as <-; constructor|intro E; inversion E; reflexivity].
  - rewrite bind_ok. split.
    + intros (y & E & F). apply bind_ok in F as (ys' & F & G). injection G as <-. constructor.
      * apply H; simpl; auto.
      * apply IH; auto. intros; apply H; simpl; auto.
    + intro F. inversion F as [|? y ? ys' Hx Ht]; subst. exists y. split; [apply H; simpl; auto|].
      apply IH in Ht; [|intros; apply H; simpl; auto]. now rewrite Ht.
Qed.

Section Cases.
Context {A : Type} (parse : list string -> yval -> res A) (R : list string -> yval -> A -> Prop).
Hypothesis parse_iff : forall names case r, yaml_dict case -> (parse names case = Ok r <-> R names case r).
Hypothesis parse_scalar : forall names case r, scalar case -> parse names case <> Ok r.

Lemma cases_iff model phase v w rs w' : yaml_cases v ->
  (parse_cases parse model phase v w = (Ok rs, w') <->
   w' = w /\ exists sol cs, holds w model phase sol /\ listed v cs /\ Forall2 (R (species_names sol)) cs rs).
Proof.
  intros (W1 & W2). unfold parse_cases, mbind, mlift. split.
  - intro E. destruct (load model phase w) as [[sol| |] w1] eqn:L; try discriminate.
    apply load_iff in L as (-> & L).
    destruct (yiter v) as [cs| |] eqn:I; try discriminate. injection E as E <-.
    split; [reflexivity|]. exists sol.
    destruct v as [|b|z|x|s|l|d]; try discriminate; simpl in I; injection I as <-.
    + destruct s as [|c s]; simpl in E; [|apply bind_ok in E as (y & E & _); now apply parse_scalar in E].
      injection E as <-. exists nil. split; [exact L|]. split; [right; auto|constructor].
    + exists l. split; [exact L|]. split; [left; reflexivity|]. eapply mapM_forall2; [|exact E].
      intros x y I. apply parse_iff. rewrite Forall_forall in W2. auto.
    + destruct d as [|[k x] d]; simpl in E.
      * injection E as <-. exists nil. split; [exact L|]. split; [right; auto|constructor].
      * apply bind_ok in E as (y & E & _). apply parse_scalar in E; [easy|].
        simpl in W1. destruct W1 as (_ & S). now inversion S.
  - intros (-> & sol & cs & L & LI & F). rewrite (proj2 (load_iff w model phase sol w) (conj eq_refl L)).
    destruct LI as [-> | (-> & [-> | ->])]; simpl.
    + rewrite (proj2 (mapM_forall2 (parse (species_names sol)) (R (species_names sol)) cs rs
        ltac:(intros; apply parse_iff; rewrite Forall_forall in W2; auto)) F). reflexivity.
    + now inversion F.
    + now inversion F.
Qed.
End Cases.

Lemma get_scalar key default v x : scalar v -> yget key default v <> Ok x.
Proof. destruct v; simpl; try discriminate; easy. Qed.

Lemma ign_cases_iff model phase v w rs w' : yaml_cases v ->
  (parse_ignition_inputs model phase v w = (Ok rs, w') <->
   w' = w /\ exists sol cs, holds w model phase sol /\ listed v cs /\ Forall2 (ign_case (species_names sol)) cs rs).
Proof.
  apply cases_iff; [intros; now apply parse_ign_iff|].
  intros names case r S E. apply bind_ok in E as (x & E & _). now apply get_scalar in E.
Qed.
Lemma psr_cases_iff model phase v w rs w' : yaml_cases v ->
  (parse_psr_inputs model phase v w = (Ok rs, w') <->
   w' = w /\ exists sol cs, holds w model phase sol /\ listed v cs /\ Forall2 (psr_case (species_names sol)) cs rs).
Proof.
  apply cases_iff; [intros; now apply parse_psr_iff|].
  intros names case r S E. apply bind_ok in E as (x & E & _). now apply get_scalar in E.
Qed.
Lemma flame_cases_iff model phase v w rs w' : yaml_cases v ->
  (parse_flame_inputs model phase v w = (Ok rs, w') <->
   w' = w /\ exists sol cs, holds w model phase sol /\ listed v cs /\ Forall2 (flame_case (species_names sol)) cs rs).
Proof.
  apply cases_iff; [intros; now apply parse_flame_iff|].
  intros names case r S E. apply bind_ok in E as (x & E & _). now apply get_scalar in E.
Qed.
