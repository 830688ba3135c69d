(** The files with saved samples, as text: printing and reading loses nothing,
    and what a file that was cut reads as. *)
From Coq Require Import String Ascii List Bool Arith ZArith QArith Qabs.
From Coq Require Import Floats.SpecFloat.
From Verif.Base Require Import Num XNum Text B64.
From Verif.Model Require Import FloatDrivers World Sampling SaveText.
From Verif.Spec Require Import TextSpec FloatMatrixSpec SaveSpec.
From Verif.Proofs Require Import SaveNumFacts SaveTextFacts.
Import ListNotations.
Local Open Scope string_scope.

(** C83: every double, printed the way [np.savetxt] does, is read as the same
    double: the smallest, the largest, minus zero, infinities and NaN too. *)
Theorem saved_number_reads_back : forall x, is_double x -> read_b64 (print_b64 x) = x.
Proof. exact read_print. Qed.
Print Assumptions saved_number_reads_back.
Example saved_number_reads_back_ex :
  is_double (S754_finite false 1 (-1074)) /\ print_b64 (S754_finite false 1 (-1074)) = "4.940656458412465442e-324" /\
  is_double (b64_of_frac (-1) 10) /\ print_b64 (b64_of_frac (-1) 10) = "-1.000000000000000056e-01".
Proof. vm_compute. auto. Qed.

(** C83: reading is right on its own: of all doubles, a field that spells the
    number [q] reads as one that is nearest to it. *)
Theorem field_reads_as_nearest : forall s q y,
  s <> "inf" -> s <> "-inf" -> read_num s = Some q -> (Qabs q <= (2 # 1) ^ 1000)%Q -> b64_finite y ->
  b64_finite (read_b64 s) /\ (Qabs (b64_val (read_b64 s) - q) <= Qabs (b64_val y - q))%Q.
Proof. exact read_nearest. Qed.
Print Assumptions field_reads_as_nearest.
Example field_reads_as_nearest_ex :
  read_num "0.1" = Some (1 * Qpower 10 (-1))%Q /\ read_b64 "0.1" = S754_finite false 7205759403792794 (-56).
Proof. vm_compute. auto. Qed.

(** C83: a saved table reads back row by row and number by number; so does a list
    of metrics, one per line. *)
Theorem saved_table_reads_back : forall rows, table rows -> genfromtxt_rows (savetxt_rows rows) = rows.
Proof. exact save_then_read. Qed.
Print Assumptions saved_table_reads_back.
Theorem saved_metrics_read_back : forall l, Forall is_double l ->
  genfromtxt_rows (savetxt_nums l) = map (fun x => [x]) l.
Proof. exact save_then_read_nums. Qed.
Print Assumptions saved_metrics_read_back.

Definition two_rows : list (list b64) := [[b64_of_Z 1000; b64_of_frac 1 10]; [b64_of_Z 1200; b64_of_frac 3 10]].
Example saved_table_reads_back_ex : table two_rows /\
  savetxt_rows two_rows = "1.000000000000000000e+03,1.000000000000000056e-01
1.200000000000000000e+03,2.999999999999999889e-01
".
Proof.
  split; [|vm_compute; reflexivity]. intros r [<-|[<-|[]]]; (split; [discriminate|]); repeat constructor.
Qed.

(** C84: if only the beginning of the text reached the disk, all rows whose line
    break is there are read unchanged; of the next row some numbers are read,
    unchanged but for the last, which is whatever the beginning of its text
    reads as.  Nothing else is read. *)
Theorem cut_table_reads : forall rows p, table rows -> begins p (savetxt_rows rows) ->
  left_over rows (line_breaks p) (genfromtxt_rows p).
Proof. exact cut_then_read. Qed.
Print Assumptions cut_table_reads.
Example cut_table_reads_ex : exists p, begins p (savetxt_rows two_rows) /\ line_breaks p = 1%nat /\
  genfromtxt_rows p = [[b64_of_Z 1000; b64_of_frac 1 10]; [b64_of_frac 12 10]].
Proof.
  exists "1.000000000000000000e+03,1.000000000000000056e-01
1.2". split; [|vm_compute; auto]. exists "00000000000000000e+03,2.999999999999999889e-01
". vm_compute. reflexivity.
Qed.

(** C84: so the contents that [save_rows] and [save_nums] of the model go through
    include whatever a cut file reads as: what is proved of a run that stops
    while saving holds for a stop after any character. *)
Theorem cut_table_is_a_state : forall rows p, table rows -> begins p (savetxt_rows rows) ->
  In (FTable (map (map x_of_b64) (genfromtxt_rows p)))
     (FTable nil :: rows_states torn_text nil (map (map x_of_b64) rows)).
Proof. exact rows_cut_in. Qed.
Print Assumptions cut_table_is_a_state.
Theorem cut_metrics_are_a_state : forall l p, Forall is_double l -> begins p (savetxt_nums l) ->
  In (FNums (map x_of_b64 (concat (genfromtxt_rows p))))
     (FNums nil :: nums_states torn_text nil (map x_of_b64 l)).
Proof. exact nums_cut_in. Qed.
Print Assumptions cut_metrics_are_a_state.

(** C84: a cut number can read as a different number: the ignition delay 2.5e-5 s,
    whose last digit is missing, reads as 2.5 s. *)
Theorem cut_number_is_noticed_refuted :
  exists x p, is_double x /\ begins p (print_b64 x) /\ b64_finite (read_b64 p) /\
    (0 < b64_val x)%Q /\ (99999 * b64_val x < b64_val (read_b64 p))%Q.
Proof.
  exists (b64_of_frac 25 1000000), "2.500000000000000120e-0". split; [vm_compute; reflexivity|].
  split; [exists "5"; vm_compute; reflexivity|]. vm_compute. auto.
Qed.
Print Assumptions cut_number_is_noticed_refuted.
