(** Examples for sample sets. *)
From Coq Require Import List ZArith NArith Arith Bool Ascii String Permutation Sorted Lia.
From Verif Require Import Text ConfigurationModel ConfigurationSpec SourceRangeModel FeatureTreeModel FeatureTreeSpec FeatureTreeExamples FeatureEditSpec FeatureTransactionExamples
  SampleModel SampleSpec.
Import ListNotations.
Local Open Scope string_scope.
Local Open Scope list_scope.

(** Root r with the features b, a and the numeric feature n below a; b has no output. *)
Definition flagged (k : fkind) (s o : string) : ndata := NFeature (new_feature k (T s) true [] (T o)).
Definition tree20 : tree :=
  Node 0 (rootd "r") [Node 1 (flagged FBinary "b" "") []; Node 2 (flagged FBinary "a" "-a") [Node 3 (flagged (FNumeric (VRange 0 9) None) "n" "-n=") []]; Node 4 (flagged FBinary "c" "-c") []].
Definition heap20 : heap := plant 5 tree20.
Definition model20 : fmodel := model_of tree20.
Lemma represents20 : represents heap20 model20 tree20.
Proof. planted. Qed.
Definition config20 : config := set_options [] [(T "n", T "0x5"); (T "a", T "true"); (T "b", T "true"); (T "c", T "false"); (T "r", T "true")].
(** The text with single quotes replaced by double ones. *)
Definition dq (s : string) : text := map (fun c => if Ascii.eqb c "'" then ascii_of_nat 34 else c) (T s).

Lemma written_example :
  is_order order /\ represents heap20 model20 tree20 /\
  write_configurations order heap20 model20 (config20 :: repeat [] 9 ++ [set_options [] [(T "c", T "1")]]) =
    Some [(T "0", dq "['-a', '-n=5']"); (T "1", T "[]"); (T "10", dq "['-c']"); (T "2", T "[]"); (T "3", T "[]"); (T "4", T "[]"); (T "5", T "[]"); (T "6", T "[]"); (T "7", T "[]"); (T "8", T "[]"); (T "9", T "[]")].
Proof. split; [exact order_ok|]. split; [exact represents20|]. vm_compute. reflexivity. Qed.

Lemma ambiguous : exists xs ys, xs <> ys /\ listed_text xs = listed_text ys.
Proof. exists [dq "a', 'b"], [T "a"; T "b"]. split; [discriminate|]. vm_compute. reflexivity. Qed.

Definition table20 : table :=
  Table [T "a"; T "n"; T "other"; T "b"]
    [(fun s => if text_eqb s (T "n") then T "7" else if text_eqb s (T "a") then T "1" else T "0"); (fun s => if text_eqb s (T "n") then T "x" else T "0")].
Lemma read_example :
  represents heap20 model20 tree20 /\
  (let* cs := read_table order heap20 model20 table20 in Some (map (fun c => map (option_value c) [T "a"; T "b"; T "n"; T "c"; T "other"]) cs)) =
  Some [[Some (T "false"); Some (T "false"); Some (T "x"); None; None]; [Some (T "true"); Some (T "false"); Some (T "7"); None; None]].
Proof. split; [exact represents20|]. vm_compute. reflexivity. Qed.
(** A cell with the text false makes a binary feature selected. *)
Lemma false_selects :
  (let* cs := read_table order heap20 model20 (Table [T "a"] [fun _ => T "false"]) in Some (map (fun c => option_value c (T "a")) cs)) = Some [Some (T "true")].
Proof. vm_compute. reflexivity. Qed.
