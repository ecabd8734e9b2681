From Coq Require Import List ZArith Arith Bool Ascii String Permutation Sorted Lia.
From Verif Require Import Text FeatureTreeModel FeatureTreeSpec FeatureTreeProofs FeatureTreeExamples FeatureTransactionModel FeatureEditSpec
  FeatureEditProofs FeatureHistoryProofs FeatureTransactionFinal FeatureTransactionExamples FeatureBulkSpec FeatureBulkExamples
  FeatureRecursiveModel FeatureRecursiveSpec FeatureRecursiveProofs.
Import ListNotations.
Local Open Scope string_scope.
Local Open Scope list_scope.

(** Iterating in the order of the addresses, which are the numbers of the nodes here. *)
Fixpoint insert_ascending (i : nid) (l : list nid) : list nid :=
  match l with [] => [i] | j :: r => if Nat.leb i j then i :: l else j :: insert_ascending i r end.
Definition ascending (l : list nid) : list nid := fold_right insert_ascending [] l.
Definition address (i : nid) : nat := i.
Lemma address_ok : distinct_addresses address.
Proof. intros i j E. exact E. Qed.
Lemma insert_perm i l : Permutation (insert_ascending i l) (i :: l).
Proof.
  induction l as [|j l IH]; cbn [insert_ascending]; [reflexivity|]. destruct (Nat.leb i j); [reflexivity|]. rewrite IH. apply perm_swap.
Qed.
Lemma ascending_ok : is_order ascending.
Proof. intros l. induction l as [|i l IH]; [constructor|]. cbn [ascending fold_right]. fold (ascending l). rewrite insert_perm, IH. reflexivity. Qed.
Lemma ascending_by_address : by_address ascending address.
Proof.
  intros l D. induction l as [|i l IH]; [constructor|]. cbn [ascending fold_right]. fold (ascending l).
  apply NoDup_cons_iff in D. destruct D as (N & D). specialize (IH D).
  assert (~ In i (ascending l)) as N' by (intros X; apply N; eapply Permutation_in; [apply ascending_ok|exact X]). clear N D.
  induction IH as [|j r S IHr F]; cbn [insert_ascending]; [repeat constructor|].
  destruct (Nat.leb_spec i j).
  - assert (i <> j) by (intros ->; apply N'; left; reflexivity). unfold address in *. constructor; [constructor; assumption|]. constructor; [lia|].
    rewrite Forall_forall in *. intros y Y. specialize (F y Y). lia.
  - constructor; [apply IHr; intros X; apply N'; right; exact X|]. rewrite Forall_forall in *. intros y Y.
    eapply Permutation_in in Y; [|apply insert_perm]. destruct Y as [<-|Y]; [unfold address; assumption|auto].
Qed.

(** root; a with b (with d) and a group of c; e. *)
Definition tree19 : tree :=
  Node 0 (rootd "root") [Node 1 (binary "a") [Node 2 (binary "b") [Node 3 (binary "d") []]; Node 5 (NRelationship ROr) [Node 4 (binary "c") []]]; Node 6 (binary "e") []].
Definition heap19 : heap := plant 7 tree19.
Definition model19 : fmodel := model_of tree19.
Lemma represents19 : represents heap19 model19 tree19.
Proof. planted. Qed.


Ltac climb X := let C := fresh "C" in pose proof (reaches_climbs _ _ _ X 8) as C; vm_compute in C; try discriminate C; clear C.

(** Two branches and an unknown name. *)
Definition refs19 : list nref := [ByName (T "z"); ByPtr 2; ByName (T "C"); ByName (T "e"); ByName (T "c")].
Lemma apart_example :
  any_partition parts /\ distinct_addresses address /\ represents heap19 model19 tree19 /\ Forall (ref_ok model19) refs19 /\ NoDup (listed model19 refs19) /\
  apart heap19 model19 refs19 /\ ~ In (rid tree19) (listed model19 refs19) /\
  (let* (w, rest) := remove_listed order parts address true 6 (heap19, model19) refs19 in Some (nodes (snd w), rest)) =
    Some ([0; 1; 5], [ByName (T "z"); ByName (T "C")]).
Proof.
  split; [exact parts_ok|]. split; [exact address_ok|]. split; [exact represents19|]. split; [repeat constructor; cbn; tauto|]. split.
  { vm_compute. repeat (constructor; [cbn; intuition congruence|]). constructor. }
  split.
  { intros i j I J X. change (listed model19 refs19) with [2; 6; 4] in *. cbn [In] in I, J.
    destruct I as [<-|[<-|[<-|[]]]], J as [<-|[<-|[<-|[]]]]; try reflexivity; climb X. }
  split; [vm_compute; intuition congruence|]. vm_compute. reflexivity.
Qed.

(** A feature, its child and the child of that. *)
Definition refs20 : list nref := [ByPtr 1; ByName (T "d"); ByName (T "b"); ByName (T "e")].
Lemma nested_example :
  by_address ascending address /\ represents heap19 model19 tree19 /\ Forall (ref_ok model19) refs20 /\ NoDup (listed model19 refs20) /\
  gapless heap19 model19 refs20 /\ ~ In (rid tree19) (listed model19 refs20) /\
  (let* (w, rest) := remove_listed ascending parts address true 6 (heap19, model19) refs20 in Some (nodes (snd w), rest)) = Some ([0], []).
Proof.
  split; [exact ascending_by_address|]. split; [exact represents19|]. split; [repeat constructor; cbn; tauto|]. split.
  { vm_compute. repeat (constructor; [cbn; intuition congruence|]). constructor. }
  split.
  { intros i j k I J X Y. change (listed model19 refs20) with [1; 3; 2; 6] in *.
    assert (In k (nodes model19)) as K.
    { eapply FeatureBulkProofs.reaches_nodes; [exact represents19| |exact X]. cbn [In] in I. destruct I as [<-|[<-|[<-|[<-|[]]]]]; vm_compute; tauto. }
    change (nodes model19) with [0; 1; 2; 3; 4; 6; 5] in K. cbn [In] in I, J, K |- *.
    destruct K as [<-|[<-|[<-|[<-|[<-|[<-|[<-|[]]]]]]]]; try tauto;
      destruct I as [<-|[<-|[<-|[<-|[]]]]]; climb X; destruct J as [<-|[<-|[<-|[<-|[]]]]]; climb Y. }
  split; [vm_compute; intuition congruence|]. vm_compute. reflexivity.
Qed.
Definition refs21 : list nref := [ByPtr 1; ByName (T "root")].
Lemma root_example :
  by_address ascending address /\ represents heap19 model19 tree19 /\ Forall (ref_ok model19) refs21 /\ NoDup (listed model19 refs21) /\
  gapless heap19 model19 refs21 /\ In (rid tree19) (listed model19 refs21).
Proof.
  split; [exact ascending_by_address|]. split; [exact represents19|]. split; [repeat constructor; cbn; tauto|]. split.
  { vm_compute. repeat (constructor; [cbn; intuition congruence|]). constructor. }
  split; [|vm_compute; tauto].
  intros i j k I J X Y. change (listed model19 refs21) with [1; 0] in *.
  assert (In k (nodes model19)) as K.
  { eapply FeatureBulkProofs.reaches_nodes; [exact represents19| |exact X]. cbn [In] in I. destruct I as [<-|[<-|[]]]; vm_compute; tauto. }
  change (nodes model19) with [0; 1; 2; 3; 4; 6; 5] in K. cbn [In] in I, J, K |- *.
  destruct K as [<-|[<-|[<-|[<-|[<-|[<-|[<-|[]]]]]]]]; try tauto; destruct I as [<-|[<-|[]]]; climb X.
Qed.

(** A feature and a child of its group: the group hides the child, so both are removed
    in one transaction, the second one after it is gone. *)
Lemma through_group_refuted : exists ord part_order addr h m t rs,
  is_order ord /\ any_partition part_order /\ distinct_addresses addr /\ by_address ord addr /\
  represents h m t /\ Forall (ref_ok m) rs /\ NoDup (listed m rs) /\ ~ In (rid t) (listed m rs) /\
  forall fuel, remove_listed ord part_order addr true fuel (h, m) rs = None.
Proof.
  exists ascending, (fun l => l), address, heap19, model19, tree19, [ByPtr 1; ByPtr 4].
  split; [exact ascending_ok|]. split; [intros l; apply Permutation_refl|]. split; [exact address_ok|]. split; [exact ascending_by_address|].
  split; [exact represents19|]. split; [repeat constructor; cbn; tauto|]. split.
  { vm_compute. repeat (constructor; [cbn; intuition congruence|]). constructor. }
  split; [vm_compute; intuition congruence|]. intros [|k]; [reflexivity|]. vm_compute. reflexivity.
Qed.
(** The same by name: the transaction stops there, and what follows is neither removed
    nor returned. *)
Lemma skipped_refuted : exists ord part_order addr h m t rs h' m' r i fuel,
  is_order ord /\ any_partition part_order /\ distinct_addresses addr /\ by_address ord addr /\
  represents h m t /\ Forall (ref_ok m) rs /\ NoDup (listed m rs) /\ ~ In (rid t) (listed m rs) /\
  remove_listed ord part_order addr true fuel (h, m) rs = Some ((h', m'), []) /\
  In r rs /\ resolve m r = Some i /\ In i (nodes m').
Proof.
  destruct (remove_listed ascending (fun l => l) address true 5 (heap19, model19) [ByName (T "a"); ByName (T "d"); ByName (T "e")]) as [((h', m') & rest)|] eqn:E;
    [|vm_compute in E; discriminate].
  exists ascending, (fun l => l), address, heap19, model19, tree19, [ByName (T "a"); ByName (T "d"); ByName (T "e")], h', m', (ByName (T "e")), 6, 5.
  assert ((let* (w, r) := remove_listed ascending (fun l => l) address true 5 (heap19, model19) [ByName (T "a"); ByName (T "d"); ByName (T "e")] in Some (nodes (snd w), r)) =
    Some ([0; 6], [])) as S0 by (vm_compute; reflexivity).
  rewrite E in S0. cbn [bind snd] in S0. injection S0 as S1 ->.
  split; [exact ascending_ok|]. split; [intros l; apply Permutation_refl|]. split; [exact address_ok|]. split; [exact ascending_by_address|].
  split; [exact represents19|]. split; [repeat constructor|]. split.
  { vm_compute. repeat (constructor; [cbn; intuition congruence|]). constructor. }
  split; [vm_compute; intuition congruence|]. split; [exact E|]. split; [cbn; tauto|]. split; [reflexivity|]. rewrite S1. cbn. tauto.
Qed.

(** A feature at a higher address than its two children, which are iterated in another
    order than that of their addresses. *)
Definition tree22 : tree := Node 0 (rootd "root") [Node 5 (binary "p") [Node 1 (binary "a") []; Node 3 (binary "b") []]].
Definition heap22 : heap := plant 6 tree22.
Definition model22 : fmodel := model_of tree22.
Lemma represents22 : represents heap22 model22 tree22.
Proof. planted. Qed.
Lemma unsorted_refuted : exists ord part_order addr h m t rs,
  is_order ord /\ any_partition part_order /\ distinct_addresses addr /\
  represents h m t /\ Forall (ref_ok m) rs /\ NoDup (listed m rs) /\ ~ In (rid t) (listed m rs) /\ gapless h m rs /\
  forall fuel, remove_listed ord part_order addr true fuel (h, m) rs = None.
Proof.
  exists order, (fun l => l), address, heap22, model22, tree22, [ByPtr 5; ByPtr 1].
  split; [exact order_ok|]. split; [intros l; apply Permutation_refl|]. split; [exact address_ok|].
  split; [exact represents22|]. split; [repeat constructor; cbn; tauto|]. split.
  { vm_compute. repeat (constructor; [cbn; intuition congruence|]). constructor. }
  split; [vm_compute; intuition congruence|]. split; [|intros [|k]; [reflexivity|]; vm_compute; reflexivity].
  intros i j k I J X Y. change (listed model22 [ByPtr 5; ByPtr 1]) with [5; 1] in *.
  assert (In k (nodes model22)) as K.
  { eapply FeatureBulkProofs.reaches_nodes; [exact represents22| |exact X]. cbn [In] in I. destruct I as [<-|[<-|[]]]; vm_compute; tauto. }
  change (nodes model22) with [0; 5; 1; 3] in K. cbn [In] in I, J, K |- *.
  destruct K as [<-|[<-|[<-|[<-|[]]]]]; try tauto; destruct I as [<-|[<-|[]]]; climb X; destruct J as [<-|[<-|[]]]; climb Y.
Qed.
