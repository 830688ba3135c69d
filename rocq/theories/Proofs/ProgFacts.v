(** Facts about programs, their interleavings and their intermediate states. *)
From Coq Require Import String List Bool Arith Lia Permutation.
From Verif.Base Require Import Py Num XNum.
From Verif.Model Require Import Mech World Sampling.
Import ListNotations.

Lemma fs_set_eq f c fs : fs_set f c fs f = c.
Proof. unfold fs_set. now rewrite String.eqb_refl. Qed.
Lemma fs_set_ne f c fs g : g <> f -> fs_set f c fs g = fs g.
Proof. intros N. unfold fs_set. destruct (String.eqb_spec g f); congruence. Qed.
Lemma set_file_eq f c w : w_fs (set_file f c w) f = c.
Proof. apply fs_set_eq. Qed.
Lemma set_file_ne f c w g : g <> f -> w_fs (set_file f c w) g = w_fs w g.
Proof. apply fs_set_ne. Qed.

(** ** Sequencing *)
Lemma exec_bind {A B} (p : prog A) (k : A -> prog B) w :
  exec (pbind p k) w =
  match exec p w with (Ok a, w') => exec (k a) w' | (Raise e, w') => (Raise e, w') | (NoFuel, w') => (NoFuel, w') end.
Proof.
  revert w. induction p as [r|f g IH|f c p IH]; intros w; simpl.
  - destruct r; reflexivity.
  - apply IH.
  - apply IH.
Qed.

Lemma states_bind {A B} (p : prog A) (k : A -> prog B) w v : In v (states (pbind p k) w) ->
  In v (states p w) \/ exists a w', exec p w = (Ok a, w') /\ In v (states (k a) w').
Proof.
  revert w. induction p as [r|f g IH|f c p IH]; intros w H; simpl in *.
  - destruct r; simpl in H; auto. right. eauto.
  - apply IH in H. destruct H; auto.
  - destruct H as [<-|H]; auto. apply IH in H. destruct H; auto.
Qed.

Lemma states_end {A} (p : prog A) w : In (snd (exec p w)) (states p w).
Proof. revert w. induction p; intros w; simpl; auto. Qed.

(** ** Footprints *)
Fixpoint within {A} (p : prog A) (R W : string -> Prop) : Prop :=
  match p with
  | Ret _ => True
  | Get f k => (R f \/ W f) /\ forall c, within (k c) R W
  | Put f _ p => W f /\ within p R W
  end.

Lemma within_bind {A B} (p : prog A) (k : A -> prog B) R W :
  within p R W -> (forall a, within (k a) R W) -> within (pbind p k) R W.
Proof.
  induction p as [r|f g IH|f c p IH]; simpl; intros H K.
  - destruct r; simpl; auto.
  - destruct H as (H & H'). split; auto.
  - destruct H as (H & H'). split; auto.
Qed.
Lemma within_pmap {A B} (f : A -> prog B) l R W : (forall x, In x l -> within (f x) R W) -> within (pmap f l) R W.
Proof.
  induction l as [|x l IH]; simpl; intros H; auto.
  apply within_bind; [apply H; auto|]. intros y. apply within_bind; [apply IH; auto|]. simpl. auto.
Qed.
Lemma within_weaken {A} (p : prog A) (R W R' W' : string -> Prop) :
  (forall f, R f -> R' f) -> (forall f, W f -> W' f) -> within p R W -> within p R' W'.
Proof.
  intros HR HW. induction p as [r|f g IH|f c p IH]; simpl; auto.
  - intros (H & H'). split; auto. destruct H; auto.
  - intros (H & H'). split; auto.
Qed.

Lemma exec_frame {A} (p : prog A) R W : within p R W -> forall w f, ~ W f -> w_fs (snd (exec p w)) f = w_fs w f.
Proof.
  induction p as [r|f g IH|f c p IH]; simpl; intros H w h N; auto.
  - apply IH; auto. apply H.
  - destruct H as (H & H'). rewrite IH; auto. apply set_file_ne. congruence.
Qed.
Lemma exec_shared {A} (p : prog A) : forall w, w_shared (snd (exec p w)) = w_shared w.
Proof. induction p as [r|f g IH|f c p IH]; simpl; intros w; auto. rewrite IH. reflexivity. Qed.
Lemma states_frame {A} (p : prog A) R W : within p R W -> forall w v f, In v (states p w) -> ~ W f -> w_fs v f = w_fs w f.
Proof.
  induction p as [r|f g IH|f c p IH]; simpl; intros H w v h I N.
  - destruct I as [<-|[]]; auto.
  - eapply IH; eauto. apply H.
  - destruct H as (H & H'). destruct I as [<-|I]; auto. rewrite (IH H' _ _ _ I N). apply set_file_ne. congruence.
Qed.

Lemma exec_agree {A} (p : prog A) R W : within p R W -> forall w1 w2,
  (forall f, R f \/ W f -> w_fs w1 f = w_fs w2 f) ->
  fst (exec p w1) = fst (exec p w2) /\
  (forall f, R f \/ W f -> w_fs (snd (exec p w1)) f = w_fs (snd (exec p w2)) f).
Proof.
  induction p as [r|f g IH|f c p IH]; simpl; intros H w1 w2 E; auto.
  - destruct H as (H & H'). rewrite (E f H). apply IH; auto.
  - destruct H as (H & H'). apply IH; auto. intros h Hh. simpl. unfold fs_set. destruct (String.eqb h f); auto.
Qed.

(** ** Interleavings *)
Section Pool.
  Context {A : Type}.
  Variables (R W : nat -> string -> Prop).
  Hypothesis disjoint : forall i j f, i <> j -> W j f -> ~ R i f /\ ~ W i f.

  Definition pool_ok (ps : list (prog A)) := forall i p, nth_error ps i = Some p -> within p (R i) (W i).

  Definition follows (ps : list (prog A)) (w : world) (qs : list (prog A)) (v : world) : Prop :=
    length ps = length qs /\ w_shared v = w_shared w /\
    (forall i p q, nth_error ps i = Some p -> nth_error qs i = Some q ->
       within q (R i) (W i) /\ fst (exec q v) = fst (exec p w) /\
       (forall f, W i f -> w_fs (snd (exec q v)) f = w_fs (snd (exec p w)) f)) /\
    (forall f, (forall i, (i < length ps)%nat -> ~ W i f) -> w_fs v f = w_fs w f).

  Lemma follows_refl ps w : pool_ok ps -> follows ps w ps w.
  Proof.
    intros H. split; [reflexivity|]. split; [reflexivity|]. split; [|auto].
    intros i p q E1 E2. rewrite E1 in E2. injection E2 as <-. split; [apply H; auto|auto].
  Qed.
  Lemma follows_trans ps w qs v rs u : follows ps w qs v -> follows qs v rs u -> follows ps w rs u.
  Proof.
    intros (L1 & S1 & A1 & B1) (L2 & S2 & A2 & B2). split; [congruence|]. split; [congruence|]. split.
    - intros i p r E1 E3. destruct (nth_error qs i) as [q|] eqn:E2.
      + destruct (A1 _ _ _ E1 E2) as (_ & X1 & Y1). destruct (A2 _ _ _ E2 E3) as (Z & X2 & Y2).
        split; auto. split; [congruence|]. intros f Hf. rewrite Y2, Y1; auto.
      + apply nth_error_None in E2. assert (i < length ps)%nat by (apply nth_error_Some; congruence). lia.
    - intros f Hf. rewrite B2, B1; auto. intros i Hi. apply Hf. lia.
  Qed.

  Lemma nth_mid (l r : list (prog A)) x i p : nth_error (l ++ x :: r) i = Some p ->
    (i = length l /\ p = x) \/ (i <> length l /\ forall y, nth_error (l ++ y :: r) i = Some p).
  Proof.
    intros E. destruct (Nat.lt_trichotomy i (length l)) as [H|[H|H]].
    - right. split; [lia|]. intros y. rewrite nth_error_app1 in E |- * by lia. auto.
    - left. subst. rewrite nth_error_app2, Nat.sub_diag in E by lia. simpl in E. split; congruence.
    - right. split; [lia|]. intros y. rewrite nth_error_app2 in E |- * by lia.
      destruct (i - length l)%nat eqn:D; [lia|]. exact E.
  Qed.
  Lemma nth_mid_at (l r : list (prog A)) x : nth_error (l ++ x :: r) (length l) = Some x.
  Proof. rewrite nth_error_app2, Nat.sub_diag by lia. reflexivity. Qed.

  Lemma follows_step ps w qs v : pool_ok ps -> step (ps, w) (qs, v) -> follows ps w qs v.
  Proof.
    intros OK S. inversion S as [l r f k w0 E1 E2|l r f c p0 w0 E1 E2]; subst.
    - split; [now rewrite !app_length|]. split; [reflexivity|]. split; [|auto].
      intros i p q P Q. destruct (nth_mid _ _ _ _ _ P) as [(-> & ->)|(N & X)].
      + rewrite nth_mid_at in Q. injection Q as <-. specialize (OK _ _ P). simpl in OK. split; [apply OK|]. simpl. auto.
      + rewrite X in Q. injection Q as <-. split; [apply OK; auto|auto].
    - pose proof (OK _ _ (nth_mid_at l r (Put f c p0))) as (WF & OK'). 
      split; [now rewrite !app_length|]. split; [reflexivity|]. split.
      + intros i p q P Q. destruct (nth_mid _ _ _ _ _ P) as [(-> & ->)|(N & X)].
        * rewrite nth_mid_at in Q. injection Q as <-. split; [exact OK'|]. simpl. auto.
        * rewrite X in Q. injection Q as <-. pose proof (OK _ _ P) as WP. split; auto.
          destruct (exec_agree p _ _ WP (set_file f c w) w) as (E3 & E4).
          { intros g Hg. apply set_file_ne. intros ->. destruct (disjoint i (length l) f N WF). tauto. }
          split; auto.
      + intros g Hg. apply set_file_ne. intros ->. eapply (Hg (length l)); eauto. rewrite app_length. simpl. lia.
  Qed.

  Lemma follows_ok ps w qs v : pool_ok ps -> follows ps w qs v -> pool_ok qs.
  Proof.
    intros OK (L & _ & F & _) i q Q. destruct (nth_error ps i) as [p|] eqn:P.
    - destruct (F _ _ _ P Q); auto.
    - apply nth_error_None in P. assert (i < length qs)%nat by (apply nth_error_Some; congruence). lia.
  Qed.

  Lemma follows_steps s t : steps s t -> pool_ok (fst s) -> follows (fst s) (snd s) (fst t) (snd t).
  Proof.
    induction 1 as [s|s t u S ST IH]; intros OK.
    - now apply follows_refl.
    - destruct s as [ps w], t as [qs v]. simpl in *. pose proof (follows_step _ _ _ _ OK S) as F.
      eapply follows_trans; eauto. apply IH. eapply follows_ok; eauto.
  Qed.

  (** The end of an interleaving. *)
  Lemma pool_end ps w rs v : pool_ok ps -> steps (ps, w) (map Ret rs, v) ->
    rs = map (fun p => fst (exec p w)) ps /\ w_shared v = w_shared w /\
    (forall i p f, nth_error ps i = Some p -> W i f -> w_fs v f = w_fs (snd (exec p w)) f) /\
    (forall f, (forall i, (i < length ps)%nat -> ~ W i f) -> w_fs v f = w_fs w f).
  Proof.
    intros OK S. pose proof (follows_steps _ _ S OK) as (L & SH & F & B). simpl in *. rewrite map_length in L.
    assert (forall i p, nth_error ps i = Some p -> exists r, nth_error rs i = Some r /\ r = fst (exec p w) /\
             forall f, W i f -> w_fs v f = w_fs (snd (exec p w)) f) as X.
    { intros i p P. destruct (nth_error rs i) as [r|] eqn:ER.
      - exists r. split; auto. destruct (F i p (Ret r) P) as (_ & X & Y); [now apply map_nth_error|]. simpl in *. auto.
      - apply nth_error_None in ER. assert (i < length ps)%nat by (apply nth_error_Some; congruence). lia. }
    split; [|split; [exact SH|split; [|exact B]]].
    - clear F B S OK SH. revert rs L X. induction ps as [|p ps IH]; intros [|r rs] L X; simpl in L; try discriminate; auto.
      simpl. f_equal.
      + destruct (X 0%nat p eq_refl) as (r' & E & EQ & _). simpl in E. congruence.
      + assert (forall i p, nth_error ps i = Some p -> exists r, nth_error rs i = Some r /\ r = fst (exec p w)) as X'.
        { intros i q Q. destruct (X (S i) q Q) as (r' & E & EQ & _). eauto. }
        clear IH X. injection L as L. revert rs L X'. induction ps as [|q ps IH']; intros [|r' rs] L X'; simpl in L; try discriminate; auto.
        simpl. f_equal.
        * destruct (X' 0%nat q eq_refl) as (r'' & E & EQ). simpl in E. congruence.
        * apply IH'; [lia|]. intros i q' Q'. apply (X' (S i) q' Q').
    - intros i p f P Wf. destruct (X i p P) as (_ & _ & _ & Y). auto.
  Qed.
End Pool.

(** A pool can always run to its end: one program after another. *)
Lemma run_one {A} (l r : list (prog A)) p : forall w, steps (l ++ p :: r, w)%list (l ++ Ret (fst (exec p w)) :: r, snd (exec p w))%list.
Proof.
  induction p as [x|f g IH|f c p IH]; intros w; simpl.
  - constructor.
  - eapply steps_more; [apply step_get|]. apply IH.
  - eapply steps_more; [apply step_put|]. apply IH.
Qed.
Lemma steps_trans {A} (s t u : list (prog A) * world) : steps s t -> steps t u -> steps s u.
Proof. induction 1; auto. intros. eapply steps_more; eauto. Qed.

Lemma pool_finishes {A} (ps : list (prog A)) : forall w, exists (rs : list (res A)) v, steps (ps, w) (map Ret rs, v).
Proof.
  assert (forall (todo : list (prog A)) (done : list (res A)) w, exists (rs : list (res A)) v, steps (map Ret done ++ todo, w)%list (map Ret rs, v)) as H.
  { induction todo as [|p todo IH]; intros done w.
    - exists done, w. rewrite app_nil_r. constructor.
    - destruct (IH (done ++ [fst (exec p w)])%list (snd (exec p w))) as (rs & v & S).
      exists rs, v. eapply steps_trans; [apply run_one|]. rewrite map_app in S. simpl in S. rewrite <- app_assoc in S. exact S. }
  intros w. apply (H ps nil w).
Qed.

(** ** Merging *)
Lemma nget_from {A} i (l : list (nat * A)) a : fold_left (fun a r => if Nat.eqb (fst r) i then Some (snd r) else a) l a =
  match nget i l with Some x => Some x | None => a end.
Proof.
  unfold nget. revert a. induction l as [|x l IH]; intros a; simpl; auto.
  rewrite IH. rewrite (IH (if Nat.eqb (fst x) i then Some (snd x) else None)).
  destruct (fold_left _ l None); auto. destruct (Nat.eqb (fst x) i); auto.
Qed.
Lemma nget_cons {A} i (x : nat * A) l : nget i (x :: l) =
  match nget i l with Some y => Some y | None => if Nat.eqb (fst x) i then Some (snd x) else None end.
Proof. unfold nget at 1. simpl. rewrite nget_from. reflexivity. Qed.
Lemma nget_in {A} i (l : list (nat * A)) a : nget i l = Some a -> In (i, a) l.
Proof.
  induction l as [|[j b] l IH]; [discriminate|]. rewrite nget_cons. destruct (nget i l) as [y|] eqn:E.
  - intros H. right. auto.
  - simpl. destruct (Nat.eqb_spec j i); [|discriminate]. intros H. injection H as <-. subst. auto.
Qed.
Lemma nget_some {A} i (l : list (nat * A)) a : NoDup (map fst l) -> In (i, a) l -> nget i l = Some a.
Proof.
  intros N I. destruct (nget i l) as [b|] eqn:E.
  - apply nget_in in E. f_equal. clear - N I E. induction l as [|[j c] l IH]; [destruct I|].
    simpl in N. inversion N as [|? ? N1 N2]; subst. destruct I as [I|I], E as [E|E].
    + congruence.
    + injection I as -> ->. exfalso. apply N1. change i with (fst (i, b)). now apply in_map.
    + injection E as -> ->. exfalso. apply N1. change i with (fst (i, a)). now apply in_map.
    + auto.
  - exfalso. clear N. induction l as [|[j c] l IH]; [destruct I|]. rewrite nget_cons in E.
    destruct (nget i l); [discriminate|]. destruct I as [I|I]; [|auto].
    injection I as -> ->. simpl in E. rewrite Nat.eqb_refl in E. discriminate.
Qed.

Lemma collect_perm {A} (rs : list A) results : Permutation results (combine (seq 0 (length rs)) rs) ->
  collect results = Ok rs.
Proof.
  intros P. assert (map fst (combine (seq 0 (length rs)) rs) = seq 0 (length rs)) as MF.
  { generalize 0%nat. clear. induction rs as [|r rs IH]; intros n; simpl; auto. now rewrite IH. }
  assert (NoDup (map fst results)) as N.
  { eapply Permutation_NoDup; [apply Permutation_map, Permutation_sym, P|]. rewrite MF. apply seq_NoDup. }
  unfold collect, n_keys. rewrite nodup_fixed_point by auto.
  assert (length (map fst results) = length rs) as ->.
  { rewrite map_length, (Permutation_length P), combine_length, seq_length. lia. }
  unfold in_case_order.
  assert (forall k n, (k + n = length rs)%nat -> 
    mapM (fun i => match nget i results with Some a => Ok a | None => Raise KeyError end) (seq k n) = Ok (skipn k rs)) as X.
  { intros k n. revert k. induction n as [|n IH]; intros k E; simpl.
    - rewrite skipn_all2 by lia. reflexivity.
    - destruct (nth_error rs k) as [a|] eqn:EA; [|apply nth_error_None in EA; lia].
      rewrite (nget_some k results a N).
      + simpl. rewrite IH by lia. simpl. f_equal. clear - EA. revert k EA. induction rs as [|r rs IH]; intros [|k] E; simpl in *; try discriminate.
        * congruence.
        * apply IH. auto.
      + eapply Permutation_in; [apply Permutation_sym, P|]. clear - EA.
        assert (forall s, In ((s + k)%nat, a) (combine (seq s (length rs)) rs)) as X.
        { revert k EA. induction rs as [|r rs IH]; intros [|k] E s; simpl in *; try discriminate.
          - injection E as ->. rewrite Nat.add_0_r. auto.
          - right. replace (s + S k)%nat with (S s + k)%nat by lia. now apply IH. }
        apply (X 0%nat). }
  rewrite X by lia. reflexivity.
Qed.
