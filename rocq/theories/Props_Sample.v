(** Property C49: sample sets. *)
From Coq Require Import List ZArith NArith Arith Bool Ascii String Permutation Sorted.
From Verif Require Import Text ConfigurationModel ConfigurationSpec FeatureTreeModel FeatureTreeSpec FeatureTreeExamples FeatureEditSpec FeatureTransactionExamples
  SampleModel SampleSpec SampleProofs SampleExamples.
Import ListNotations.
Local Open Scope string_scope.
Local Open Scope list_scope.

(** ** C49 *)
(** One entry per configuration under the text of its index, holding its flags in
    iteration order; the entries are in the order of these texts. *)
Theorem C49_all_flags_are_written :
  forall ord h m t cs, is_order ord -> represents h m t -> exists l es, preorder t l /\ Permutation l (feature_ids t) /\
  write_configurations ord h m cs = Some es /\ StronglySorted (fun a b => text_lt (fst a) (fst b)) es /\
  forall k v, In (k, v) es <-> exists n c xs, nth_error cs n = Some c /\ k = print_N (N.of_nat n) /\ flags h c l xs /\ v = listed_text xs.
Proof. exact written. Qed.
Print Assumptions C49_all_flags_are_written.
(** The entry with index 10 stands before the one with index 2. *)
Example C49_written_example :
  is_order order /\ represents heap20 model20 tree20 /\
  write_configurations order heap20 model20 (config20 :: repeat [] 9 ++ [set_options [] [(T "c", T "1")]]) =
    Some [(T "0", dq "['-a', '-n=5']"); (T "1", T "[]"); (T "10", dq "['-c']"); (T "2", T "[]"); (T "3", T "[]"); (T "4", T "[]"); (T "5", T "[]"); (T "6", T "[]"); (T "7", T "[]"); (T "8", T "[]"); (T "9", T "[]")].
Proof. exact written_example. Qed.

(** Flags without quotes can be recovered from an entry; others cannot. *)
Theorem C49_entries_tell_flags_apart :
  forall xs ys, Forall (fun x => ~ In (ascii_of_nat 34) x) xs -> Forall (fun x => ~ In (ascii_of_nat 34) x) ys -> listed_text xs = listed_text ys -> xs = ys.
Proof. exact entries_apart. Qed.
Print Assumptions C49_entries_tell_flags_apart.
Example C49_entries_example : Forall (fun x => ~ In (ascii_of_nat 34) x) [T "-a, "; T "]"] /\ listed_text [T "-a, "; T "]"] = dq "['-a, ', ']']".
Proof. split; [repeat constructor; cbn; intuition discriminate|vm_compute; reflexivity]. Qed.
Theorem C49_flags_with_quotes_refuted : exists xs ys, xs <> ys /\ listed_text xs = listed_text ys.
Proof. exact ambiguous. Qed.
Print Assumptions C49_flags_with_quotes_refuted.

(** One configuration per row, the last row first, with values for exactly the features
    that have a column. *)
Theorem C49_tables_are_read :
  forall ord h m t tab, is_order ord -> represents h m t -> exists cs, read_table ord h m tab = Some cs /\
  Forall2 (row_config h m (t_columns tab)) (rev (t_rows tab)) cs.
Proof. exact table_read. Qed.
Print Assumptions C49_tables_are_read.
Example C49_read_example :
  represents heap20 model20 tree20 /\
  (let* cs := read_table order heap20 model20 table20 in Some (map (fun c => map (option_value c) [T "a"; T "b"; T "n"; T "c"; T "other"]) cs)) =
  Some [[Some (T "false"); Some (T "false"); Some (T "x"); None; None]; [Some (T "true"); Some (T "false"); Some (T "7"); None; None]].
Proof. exact read_example. Qed.
