(** Files of printed numbers: what is read of them, also if they are cut. *)
From Coq Require Import String Ascii List Bool Arith ZArith QArith Qabs Lia.
From Coq Require Floats.SpecFloat.
From Verif.Base Require Import Num XNum Text B64.
From Verif.Model Require Import FloatDrivers World Sampling SaveText.
From Verif.Spec Require Import TextSpec SaveSpec.
From Verif.Proofs Require Import FormatFacts TextFacts SaveNumFacts.
Import ListNotations.
Local Open Scope string_scope.

Definition plain (c : ascii) : bool :=
  negb (existsb (Ascii.eqb c) (list_ascii_of_string "0123456789+-.einfa")).
Lemma free_concat_nil p l : Forall (free p) l -> free p (String.concat "" l).
Proof. intros F. apply free_concat; [exact I|exact F]. Qed.

Lemma digit_plain n : (0 <= n < 10)%Z -> free plain (digit n).
Proof.
  intros H. assert (C : (n = 0 \/ n = 1 \/ n = 2 \/ n = 3 \/ n = 4 \/ n = 5 \/ n = 6 \/ n = 7 \/ n = 8 \/ n = 9)%Z) by lia.
  repeat destruct C as [->|C]; [..|rewrite C]; cbn; auto.
Qed.
Lemma pad_plain k n : free plain (pad k n).
Proof.
  revert n. induction k as [|k IH]; intros n; [exact I|]. cbn [pad]. rewrite free_app. split; [apply IH|].
  apply digit_plain, Z.mod_pos_bound. lia.
Qed.
Lemma str_exp_plain e : free plain (str_exp e).
Proof.
  unfold str_exp. rewrite free_app. split; [destruct (e <? 0)%Z; cbn; auto|]. cbv zeta.
  destruct (Z.abs e <? 10)%Z; apply pad_plain.
Qed.
Lemma sci_plain k q : free plain (sci k q).
Proof.
  unfold sci. destruct (scientific k (Qabs q)) as [m e] eqn:S.
  destruct (scientific_spec _ _ _ _ (Qabs_nonneg q) S) as [M _].
  assert (BP : (0 < 10 ^ Z.of_nat k)%Z) by (apply Z.pow_pos_nonneg; lia).
  assert (B10 : (10 ^ Z.of_nat (Datatypes.S k) = 10 * 10 ^ Z.of_nat k)%Z) by (rewrite Nat2Z.inj_succ, Z.pow_succ_r by lia; reflexivity).
  rewrite !free_app. repeat split; try apply pad_plain; try apply str_exp_plain.
  - unfold sign. destruct (Qlt_bool q 0); cbn; auto.
  - apply digit_plain. split; [apply Z.div_pos; lia|]. apply Z.div_lt_upper_bound; lia.
Qed.
Lemma print_plain x : free plain (print_b64 x).
Proof.
  destruct x as [s|s| |s m e]; cbn [print_b64].
  - rewrite free_app. split; [destruct s; cbn; auto|apply sci_plain].
  - destruct s; cbn; auto.
  - cbn; auto.
  - apply sci_plain.
Qed.
Lemma print_not_empty x : print_b64 x <> "".
Proof.
  destruct x as [s|s| |s m e]; cbn [print_b64].
  - intros E. apply append_empty in E. destruct (sci_token 18 0) as [N _]. contradiction.
  - destruct s; discriminate.
  - discriminate.
  - apply (sci_token 18 _).
Qed.
Lemma plain_newline c : is_newline c = true -> plain c = true.
Proof. unfold is_newline. intros E. apply Ascii.eqb_eq in E. subst c. reflexivity. Qed.
Lemma plain_comma c : is_comma c = true -> plain c = true.
Proof. unfold is_comma. intros E. apply Ascii.eqb_eq in E. subst c. reflexivity. Qed.
Lemma print_newline x : free is_newline (print_b64 x).
Proof. exact (free_weaken _ _ _ plain_newline (print_plain x)). Qed.
Lemma print_comma x : free is_comma (print_b64 x).
Proof. exact (free_weaken _ _ _ plain_comma (print_plain x)). Qed.

(** ** Cutting text *)
Lemma append_split : forall p rest a b, p ++ rest = a ++ b ->
  (exists t, a = p ++ t /\ rest = t ++ b) \/ (exists u, p = a ++ u /\ b = u ++ rest).
Proof.
  induction p as [|c p IH]; intros rest a b E; [left; exists a; auto|].
  destruct a as [|d a]; cbn [String.append] in *; [right; exists (String c p); auto|].
  injection E as -> E. destruct (IH _ _ _ E) as [(t & -> & ->)|(u & -> & ->)]; [left; exists t|right; exists u]; auto.
Qed.

Lemma free_head q p s : free q s -> begins p s -> free q p.
Proof. intros F [t ->]. apply free_app in F. apply F. Qed.

(** A cut line: some fields and the beginning of one more. *)
Definition row_text (r : list b64) : string := String.concat "," (map print_b64 r).
Lemma cut_row : forall r p, r <> nil -> begins p (row_text r) ->
  exists pre x post s, r = (pre ++ x :: post)%list /\ begins s (print_b64 x) /\
    split_on is_comma p = (map print_b64 pre ++ [s])%list.
Proof.
  induction r as [|x r IH]; [contradiction|]. intros p _ [t E].
  assert (HERE : begins p (print_b64 x) -> exists pre y post s, x :: r = (pre ++ y :: post)%list /\ begins s (print_b64 y) /\
                   split_on is_comma p = (map print_b64 pre ++ [s])%list).
  { intros B. exists nil, x, r, p. split; [reflexivity|]. split; [exact B|].
    apply split_free. exact (free_head _ _ _ (print_comma x) B). }
  destruct r as [|y r].
  - apply HERE. exists t. exact E.
  - change (row_text (x :: y :: r)) with (print_b64 x ++ "," ++ row_text (y :: r)) in E.
    symmetry in E. destruct (append_split _ _ _ _ E) as [(u & A & _)|(u & -> & A)]; [apply HERE; exists u; exact A|].
    destruct u as [|c u]; [apply HERE; exists ""; rewrite !append_nil; reflexivity|].
    cbn [String.append] in A. injection A as <- A.
    destruct (IH u ltac:(discriminate)) as (pre & z & post & s & -> & B & S); [exists t; exact A|].
    exists (x :: pre), z, post, s. split; [reflexivity|]. split; [exact B|].
    rewrite split_sep by reflexivity. rewrite split_free by apply print_comma. rewrite S. reflexivity.
Qed.
Lemma whole_row r : r <> nil -> split_on is_comma (row_text r) = map print_b64 r.
Proof.
  induction r as [|x r IH]; [contradiction|]. intros _. destruct r as [|y r]; [apply split_free, print_comma|].
  change (row_text (x :: y :: r)) with (print_b64 x ++ String "," (row_text (y :: r))).
  rewrite split_sep by reflexivity. rewrite split_free by apply print_comma. rewrite IH by discriminate. reflexivity.
Qed.
Lemma row_newline r : free is_newline (row_text r).
Proof.
  apply free_concat; [cbn; auto|]. apply Forall_forall. intros s I. apply in_map_iff in I. destruct I as (x & <- & _).
  apply print_newline.
Qed.
Lemma row_not_empty r : r <> nil -> row_text r <> "".
Proof.
  destruct r as [|x r]; [contradiction|]. intros _. destruct r as [|y r]; [apply print_not_empty|].
  change (row_text (x :: y :: r)) with (print_b64 x ++ "," ++ row_text (y :: r)). intros E.
  apply append_empty in E. discriminate.
Qed.
Lemma read_row r : Forall is_double r -> map read_b64 (map print_b64 r) = r.
Proof.
  intros F. rewrite map_map. induction F as [|x r D F IH]; [reflexivity|]. cbn [map].
  rewrite IH, (read_print x D). reflexivity.
Qed.

Lemma save_cons r rows : savetxt_rows (r :: rows) = row_text r ++ newline ++ savetxt_rows rows.
Proof.
  unfold savetxt_rows. cbn [map]. fold (row_text r). destruct rows as [|q rows].
  - cbn [map String.concat]. rewrite append_nil. reflexivity.
  - cbn [map String.concat]. rewrite !app_assoc_s. reflexivity.
Qed.
Lemma read_cons a b : free is_newline a -> a <> "" ->
  genfromtxt_rows (a ++ newline ++ b) = map read_b64 (split_on is_comma a) :: genfromtxt_rows b.
Proof.
  intros F N. unfold genfromtxt_rows. rewrite lines_cons by exact F. cbn [filter].
  rewrite (proj2 (String.eqb_neq _ _) N). reflexivity.
Qed.
Lemma breaks_app a b : line_breaks (a ++ b) = (line_breaks a + line_breaks b)%nat.
Proof. induction a as [|c a IH]; [reflexivity|]. cbn [String.append line_breaks]. rewrite IH. lia. Qed.
Lemma breaks_free a : free is_newline a -> line_breaks a = 0%nat.
Proof. induction a as [|c a IH]; [reflexivity|]. cbn [free line_breaks]. intros [-> F]. rewrite (IH F). reflexivity. Qed.

Lemma table_tail r rows : table (r :: rows) -> (r <> nil /\ Forall is_double r) /\ table rows.
Proof. intros T. split; [apply T; left; reflexivity|]. intros q I. apply T. right. exact I. Qed.

Theorem save_then_read rows : table rows -> genfromtxt_rows (savetxt_rows rows) = rows.
Proof.
  induction rows as [|r rows IH]; intros T; [reflexivity|].
  destruct (table_tail _ _ T) as [[N D] T']. rewrite save_cons.
  rewrite read_cons by (auto using row_newline, row_not_empty).
  rewrite whole_row by exact N. rewrite read_row by exact D. rewrite IH by exact T'. reflexivity.
Qed.

Theorem cut_then_read : forall rows p, table rows -> begins p (savetxt_rows rows) ->
  left_over rows (line_breaks p) (genfromtxt_rows p).
Proof.
  induction rows as [|r rows IH]; intros p T [rest E].
  - destruct p; [left; reflexivity|discriminate].
  - destruct (table_tail _ _ T) as [[N D] T']. rewrite save_cons in E. symmetry in E.
    destruct (append_split _ _ _ _ E) as [(t & A & _)|(u & -> & A)].
    + assert (B : begins p (row_text r)) by (exists t; exact A).
      assert (FP := free_head _ _ _ (row_newline r) B). rewrite (breaks_free p FP).
      destruct (string_dec p "") as [->|NE]; [left; reflexivity|]. right.
      destruct (cut_row r p N B) as (pre & x & post & s & -> & BS & S).
      exists (pre ++ x :: post)%list, pre, x, post, s. repeat split; auto.
      unfold genfromtxt_rows, lines. rewrite (split_free _ p FP). cbn [filter].
      rewrite (proj2 (String.eqb_neq _ _) NE). cbn [negb map]. rewrite S, map_app, read_row; [reflexivity|].
      apply Forall_app in D. apply D.
    + destruct u as [|c u].
      * rewrite append_nil in *. assert (B : begins (row_text r) (row_text r)) by (exists ""; rewrite append_nil; reflexivity).
        rewrite (breaks_free _ (row_newline r)). right.
        destruct (cut_row r _ N B) as (pre & x & post & s & -> & BS & S).
        exists (pre ++ x :: post)%list, pre, x, post, s. repeat split; auto.
        unfold genfromtxt_rows, lines. rewrite (split_free _ _ (row_newline _)). cbn [filter].
        rewrite (proj2 (String.eqb_neq _ _) (row_not_empty _ N)). cbn [negb map]. rewrite S, map_app, read_row; [reflexivity|].
        apply Forall_app in D. apply D.
      * change newline with (String "010" "") in A. cbn [String.append] in A. injection A as <- A.
        assert (RC := read_cons _ u (row_newline r) (row_not_empty r N)).
        change (newline ++ u) with (String "010" u) in RC.
        rewrite breaks_app, (breaks_free _ (row_newline r)). change (0 + line_breaks (String "010" u))%nat with (S (line_breaks u)).
        rewrite RC, whole_row, read_row by assumption.
        destruct (IH u T') as [H|(r' & pre & x & post & s & R & RE & BS & H)]; [exists rest; exact A| |].
        -- left. cbn [firstn]. rewrite H. reflexivity.
        -- right. exists r', pre, x, post, s. cbn [firstn nth_error]. rewrite H. auto.
Qed.

(** ** The states of [Model/Sampling.v] *)
Notation X := x_of_b64.
Lemma begins_in p s : begins p s -> In p (beginnings s).
Proof.
  intros [t ->]. induction p as [|c p IH]; [destruct t; left; reflexivity|].
  cbn [String.append beginnings]. right. apply in_map. exact IH.
Qed.
Lemma torn_in x s : begins s (print_b64 x) -> In (X (read_b64 s)) (torn_text (X x)).
Proof.
  intros B. apply begins_in in B. unfold torn_text. apply in_map_iff. exists s. split; [reflexivity|].
  apply in_app_iff. destruct x as [g|g| |g m e]; cbn [print_b64 x_of_b64 b64_val xsci xformat] in *.
  - destruct g; [right; exact B|left; exact B].
  - left. destruct g; exact B.
  - left. exact B.
  - left. exact B.
Qed.

Lemma row_states_in torn done : forall r pre pre' x post y,
  r = (pre' ++ x :: post)%list -> In y (torn x) -> In (FTable (done ++ [pre ++ pre' ++ [y]])%list) (row_states torn done pre r).
Proof.
  intros r pre pre'. revert r pre. induction pre' as [|z pre' IH]; intros r pre x post y -> I; cbn [app row_states].
  - apply in_app_iff. left. apply in_map_iff. exists y. auto.
  - apply in_app_iff. right. right. replace (pre ++ z :: pre' ++ [y])%list with ((pre ++ [z]) ++ pre' ++ [y])%list by (rewrite <- app_assoc; reflexivity).
    apply IH with x post; auto.
Qed.
Lemma rows_states_whole torn : forall rows done n, (0 < n)%nat -> rows <> nil ->
  In (FTable (done ++ firstn n rows)%list) (rows_states torn done rows).
Proof.
  induction rows as [|r rows IH]; intros done n P N; [contradiction|]. destruct n as [|n]; [lia|].
  cbn [firstn rows_states]. apply in_app_iff. right.
  destruct n as [|n]; [left; reflexivity|]. destruct rows as [|q rows]; [left; reflexivity|]. right.
  replace (done ++ r :: firstn (S n) (q :: rows))%list with ((done ++ [r]) ++ firstn (S n) (q :: rows))%list by (rewrite <- app_assoc; reflexivity).
  apply IH; [lia|discriminate].
Qed.
Lemma rows_states_part torn : forall rows done n r pre x post y,
  nth_error rows n = Some r -> r = (pre ++ x :: post)%list -> In y (torn x) ->
  In (FTable (done ++ firstn n rows ++ [pre ++ [y]])%list) (rows_states torn done rows).
Proof.
  induction rows as [|q rows IH]; intros done n r pre x post y E R I; [destruct n; discriminate|].
  destruct n as [|n]; cbn [nth_error firstn rows_states] in *; apply in_app_iff.
  - left. injection E as ->. apply (row_states_in torn done r nil pre x post y R I).
  - right. right. replace (done ++ (q :: firstn n rows) ++ [pre ++ [y]])%list with ((done ++ [q]) ++ firstn n rows ++ [pre ++ [y]])%list
      by (rewrite <- app_assoc; reflexivity). apply IH with r x post; auto.
Qed.

Theorem rows_cut_in rows p : table rows -> begins p (savetxt_rows rows) ->
  In (FTable (map (map X) (genfromtxt_rows p))) (FTable nil :: rows_states torn_text nil (map (map X) rows)).
Proof.
  intros T B. destruct (cut_then_read rows p T B) as [->|(r & pre & x & post & s & R & RE & BS & ->)].
  - rewrite <- firstn_map. destruct (line_breaks p) as [|n]; [left; reflexivity|].
    destruct rows as [|q rows]; [left; destruct n; reflexivity|]. right.
    apply (rows_states_whole torn_text (map (map X) (q :: rows)) nil (S n)); [lia|discriminate].
  - right. rewrite map_app. cbn [map]. rewrite map_app. cbn [map]. rewrite <- firstn_map.
    apply (rows_states_part torn_text (map (map X) rows) nil (line_breaks p) (map X r) (map X pre) (X x) (map X post)).
    + rewrite nth_error_map, R. reflexivity.
    + rewrite RE, map_app. reflexivity.
    + apply torn_in. exact BS.
Qed.

Lemma nums_states_whole torn : forall l done n, (0 < n)%nat -> l <> nil ->
  In (FNums (done ++ firstn n l)%list) (nums_states torn done l).
Proof.
  induction l as [|r l IH]; intros done n P N; [contradiction|]. destruct n as [|n]; [lia|].
  cbn [firstn nums_states]. apply in_app_iff. right.
  destruct n as [|n]; [left; reflexivity|]. destruct l as [|q l]; [left; reflexivity|]. right.
  replace (done ++ r :: firstn (S n) (q :: l))%list with ((done ++ [r]) ++ firstn (S n) (q :: l))%list by (rewrite <- app_assoc; reflexivity).
  apply IH; [lia|discriminate].
Qed.
Lemma nums_states_part torn : forall l done n x y, nth_error l n = Some x -> In y (torn x) ->
  In (FNums (done ++ firstn n l ++ [y])%list) (nums_states torn done l).
Proof.
  induction l as [|q l IH]; intros done n x y E I; [destruct n; discriminate|].
  destruct n as [|n]; cbn [nth_error firstn nums_states] in *; apply in_app_iff.
  - left. injection E as ->. apply in_map_iff. exists y. auto.
  - right. right. replace (done ++ (q :: firstn n l) ++ [y])%list with ((done ++ [q]) ++ firstn n l ++ [y])%list
      by (rewrite <- app_assoc; reflexivity). apply IH with x; auto.
Qed.
Lemma column l : table (map (fun x : b64 => [x]) l) <-> Forall is_double l.
Proof.
  split; intros H.
  - apply Forall_forall. intros x I. destruct (H [x]) as [_ D]; [exact (in_map (fun y => [y]) l x I)|].
    inversion D; assumption.
  - intros r I. apply in_map_iff in I. destruct I as (x & <- & I). rewrite Forall_forall in H.
    split; [discriminate|]. constructor; [apply H; exact I|constructor].
Qed.
Lemma concat_single {A} (l : list A) : concat (map (fun x => [x]) l) = l.
Proof. induction l as [|x l IH]; [reflexivity|]. cbn [map concat app]. rewrite IH. reflexivity. Qed.

Theorem nums_cut_in l p : Forall is_double l -> begins p (savetxt_nums l) ->
  In (FNums (map X (concat (genfromtxt_rows p)))) (FNums nil :: nums_states torn_text nil (map X l)).
Proof.
  intros T B. apply column in T.
  destruct (cut_then_read _ p T B) as [->|(r & pre & x & post & s & R & RE & BS & ->)].
  - rewrite firstn_map, concat_single, <- firstn_map. destruct (line_breaks p) as [|n]; [left; reflexivity|].
    destruct l as [|q l]; [left; destruct n; reflexivity|]. right.
    apply (nums_states_whole torn_text (map X (q :: l)) nil (S n)); [lia|discriminate].
  - right. rewrite firstn_map, concat_app, concat_single. rewrite nth_error_map in R.
    destruct (nth_error l (line_breaks p)) as [z|] eqn:N; [|discriminate]. injection R as <-.
    destruct pre as [|a pre]; [|exfalso; cbn [app] in RE; injection RE as _ RE; destruct pre; discriminate].
    injection RE as <- <-. cbn [app concat]. rewrite map_app, <- firstn_map. cbn [map].
    apply (nums_states_part torn_text (map X l) nil (line_breaks p) (X z)).
    + rewrite nth_error_map, N. reflexivity.
    + apply torn_in. exact BS.
Qed.
Theorem save_then_read_nums l : Forall is_double l -> genfromtxt_rows (savetxt_nums l) = map (fun x => [x]) l.
Proof. intros T. apply save_then_read, column, T. Qed.
