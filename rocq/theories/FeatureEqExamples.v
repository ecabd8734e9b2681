(** Examples for the equality of features. *)
From Coq Require Import List ZArith Arith Bool Ascii String Permutation Lia.
From Verif Require Import Text TextProofs FeatureTreeModel FeatureTreeSpec FeatureTreeExamples FeatureEditSpec FeatureEditProofs FeatureTransactionExamples FeatureEqModel FeatureEqSpec FeatureEqProofs.
Import ListNotations.
Local Open Scope string_scope.
Local Open Scope list_scope.

(** Root with the feature Tls and below it the feature TLS. *)
Definition tree74 : tree := Node 0 (rootd "root") [Node 1 (binary "Tls") [Node 2 (binary "TLS") []]; Node 3 (binary "ssh") []].
Definition heap74 : heap := plant 4 tree74.
Definition model74 : fmodel := model_of tree74.
Lemma represents74 : represents heap74 model74 tree74.
Proof. planted. Qed.
Lemma not_three : exists h m t s u a b, represents h m t /\ get_feature m s = Some a /\ get_feature m u = Some b /\ a <> b /\
  feature_equal h a b = Some true /\ feature_less h a b = Some true /\ forall hash, py_set hash h [] [a; b] = Some [a].
Proof.
  exists heap74, model74, tree74, (T "Tls"), (T "TLS"), 1, 2. split; [exact represents74|]. split; [reflexivity|]. split; [reflexivity|]. split; [discriminate|]. split; [reflexivity|]. split; [reflexivity|].
  intros hash. unfold py_set, py_add. cbn [py_member]. change (feature_hash hash heap74 1) with (Some (hash (T "tls"))). change (feature_hash hash heap74 2) with (Some (hash (T "tls"))). cbn [bind app py_member].
  change (feature_hash hash heap74 1) with (Some (hash (T "tls"))). change (feature_hash hash heap74 2) with (Some (hash (T "tls"))). cbn [bind]. rewrite Nat.eqb_refl. reflexivity.
Qed.
Lemma distinct1 : case_distinct (model_of tree1).
Proof.
  intros s u i j G G' E. apply same_but_case_lower in E. unfold get_feature in G, G'.
  assert (X : forall s i, find_name s (named tree1) = Some i -> In s [T "root"; T "B"; T "c"; T "a"; T "D"]).
  { intros x k H. apply find_name_in in H; [|cbn; repeat (constructor; [cbn; intuition congruence|]); constructor]. apply (in_map fst) in H. exact H. }
  apply X in G, G'. cbn in G, G'. repeat (destruct G as [<-|G]; [repeat (destruct G' as [<-|G']; [first [reflexivity|vm_compute in E; discriminate E]|]); destruct G'|]). destruct G.
Qed.
Lemma equality_example :
  represents heap1 (model_of tree1) tree1 /\ case_distinct (model_of tree1) /\ same_but_case (T "Tls") (T "TLS") /\ ~ same_but_case (T "Tls") (T "Tlsx") /\
  feature_equal heap1 2 1 = Some false /\ feature_less heap1 1 2 = Some true /\ py_set (@List.length ascii) heap1 [] [2; 1; 2; 5] = Some [2; 1; 5] /\
  feature_equal heap74 1 2 = Some true /\ Forall (live heap74) [3; 2; 1; 0] /\ py_set (@List.length ascii) heap74 [] [3; 2; 1; 0] = Some [3; 2; 0].
Proof.
  split; [planted|]. split; [exact distinct1|]. split; [apply same_but_case_lower; reflexivity|]. split; [intros X; apply same_but_case_lower in X; discriminate|]. split; [reflexivity|]. split; [reflexivity|]. split; [reflexivity|]. split; [reflexivity|].
  split; [|reflexivity]. repeat (constructor; [eexists; reflexivity|]). constructor.
Qed.
