From Coq Require Import List ZArith Arith Bool Ascii String Permutation Lia.
From Verif Require Import Text FeatureTreeModel FeatureTreeSpec FeatureTreeProofs FeatureTreeExamples FeatureTransactionModel FeatureEditSpec
  FeatureEditProofs FeatureHistoryProofs FeatureTransactionFinal FeatureTransactionExamples FeatureBulkSpec.
Import ListNotations.
Local Open Scope string_scope.
Local Open Scope list_scope.

Definition parts : list nref -> list nref := @rev nref.
Lemma parts_ok : any_partition parts.
Proof. intros l. apply Permutation_sym, Permutation_rev. Qed.

(** All features of the first model and an unknown name: the group below the root keeps
    the root. *)
Definition refs1 : list nref := [ByName (T "root"); ByName (T "B"); ByPtr 1; ByName (T "c"); ByName (T "z"); ByPtr 3].
Lemma bulk_example :
  any_partition parts /\ represents heap1 model1 tree1 /\ Forall (ref_ok model1) refs1 /\ NoDup (listed model1 refs1) /\
  In 4 (nodes model1) /\ ~ In 4 (listed model1 refs1) /\
  (let* (w, rest) := remove_features order parts 7 (heap1, model1) refs1 in Some (nodes (snd w), rest)) =
    Some ([0; 4], [ByName (T "z"); ByName (T "root")]).
Proof.
  split; [exact parts_ok|]. split; [exact represents1|]. split; [repeat constructor; cbn; tauto|]. split.
  { vm_compute. repeat (constructor; [cbn; intuition congruence|]). constructor. }
  split; [cbn; tauto|]. split; [vm_compute; intuition congruence|]. vm_compute. reflexivity.
Qed.

(** A model without groups, all of it listed. *)
Definition tree11 : tree := Node 0 (rootd "root") [Node 1 (binary "a") [Node 2 (binary "b") []]; Node 3 (binary "c") []].
Definition heap11 : heap := plant 4 tree11.
Definition model11 : fmodel := model_of tree11.
Lemma represents11 : represents heap11 model11 tree11.
Proof. planted. Qed.
Definition refs11 : list nref := [ByPtr 0; ByName (T "a"); ByName (T "b"); ByName (T "c")].
Lemma everything_example :
  represents heap11 model11 tree11 /\ Forall (ref_ok model11) refs11 /\ NoDup (listed model11 refs11) /\
  (forall i, In i (nodes model11) -> In i (listed model11 refs11)).
Proof.
  split; [exact represents11|]. split; [repeat constructor; cbn; tauto|]. split.
  { vm_compute. repeat (constructor; [cbn; intuition congruence|]). constructor. }
  intros i I. vm_compute in I. vm_compute. tauto.
Qed.

(** A name listed twice ends the removal early, and what was skipped is not returned. *)
Lemma repeated_refuted : exists ord part_order h m t rs h' m' r i fuel,
  is_order ord /\ any_partition part_order /\ represents h m t /\ Forall (ref_ok m) rs /\ (exists j, In j (nodes m) /\ ~ In j (listed m rs)) /\
  remove_features ord part_order fuel (h, m) rs = Some ((h', m'), []) /\
  In r rs /\ resolve m r = Some i /\ all_listed h m rs i /\ In i (nodes m').
Proof.
  destruct (remove_features order (fun l => l) 5 (heap11, model11) [ByName (T "c"); ByName (T "c"); ByName (T "b")]) as [((h', m') & rest)|] eqn:E;
    [|vm_compute in E; discriminate].
  exists order, (fun l => l), heap11, model11, tree11, [ByName (T "c"); ByName (T "c"); ByName (T "b")], h', m', (ByName (T "b")), 2, 5.
  assert ((let* (w, r) := remove_features order (fun l => l) 5 (heap11, model11) [ByName (T "c"); ByName (T "c"); ByName (T "b")] in Some (nodes (snd w), r)) =
    Some ([0; 1; 2], [])) as S0 by (vm_compute; reflexivity).
  rewrite E in S0. cbn [bind snd] in S0. injection S0 as S1 ->.
  split; [exact order_ok|]. split; [intros l; apply Permutation_refl|]. split; [exact represents11|]. split; [repeat constructor|]. split.
  { exists 0. split; [cbn; tauto|]. vm_compute. intuition congruence. }
  split; [exact E|]. split; [cbn; tauto|]. split; [reflexivity|]. split.
  - intros j J X. assert (j = 2) as ->.
    { pose proof (reaches_climbs _ _ _ X 5) as C. vm_compute in J. destruct J as [<-|[<-|[<-|[<-|[]]]]]; try reflexivity; vm_compute in C; discriminate. }
    vm_compute. tauto.
  - rewrite S1. cbn. tauto.
Qed.
