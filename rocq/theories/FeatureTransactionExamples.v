(** Small feature models used as examples for modifications and transactions. *)
From Coq Require Import List ZArith Arith Bool Ascii String Permutation Lia.
From Verif Require Import Text ConstraintModel ConstraintSpec SourceRangeModel FeatureTreeModel FeatureTreeSpec FeatureTreeProofs FeatureTreeExamples
  FeatureTreeFinal FeatureTransactionModel FeatureEditSpec FeatureTransactionSpec FeatureEditProofs FeatureHistoryProofs FeatureTransactionFinal.
Import ListNotations.
Local Open Scope string_scope.
Local Open Scope list_scope.

(** The model of a planted tree. *)
Definition model_of (t : tree) : fmodel :=
  FModel (T "m") (Some (rid t)) [] [] (named t) [] [] [] (groups t).

Lemma represents_plant next t : NoDup (ids t) -> Forall (fun i => i < next) (ids t) -> roots t = [rid t] ->
  NoDup (map fst (named t)) -> grouped t -> represents (plant next t) (model_of t) t.
Proof.
  intros D L Ro Nm G. constructor; try assumption; try reflexivity.
  - apply plant_ok. exact L.
  - apply plant_holds. exact D.
Qed.
Ltac planted :=
  apply represents_plant;
  [repeat (constructor; [cbn; intuition congruence|]); constructor
  |repeat constructor; lia
  |reflexivity
  |cbn; repeat (constructor; [cbn; intuition congruence|]); constructor
  |repeat (first [apply grouped_feature; [cbn; lia|]|apply grouped_relationship|apply Forall_cons|apply Forall_nil]); reflexivity].

Definition model1 : fmodel := model_of tree1.
Lemma represents1 : represents heap1 model1 tree1.
Proof. planted. Qed.

(** Feature a with a group of one child b, and a feature c. *)
Definition tree4 : tree :=
  Node 0 (rootd "root") [Node 1 (binary "a") [Node 3 (NRelationship ROr) [Node 2 (binary "b") []]]; Node 4 (binary "c") []].
Definition heap4 : heap := plant 5 tree4.
Definition model4 : fmodel := model_of tree4.
Lemma represents4 : represents heap4 model4 tree4.
Proof. planted. Qed.

Definition feature_x : feature := new_feature FBinary (T "x") true [] [].
Definition order : list nid -> list nid := @rev nid.
Lemma order_ok : is_order order.
Proof. intros l. apply Permutation_sym, Permutation_rev. Qed.

(** Following parents by hand. *)
Fixpoint climbs (k : nat) (h : heap) (i r : nid) : bool :=
  match k with
  | 0 => true
  | S k' => Nat.eqb i r || match h_cells h i with Some c => match n_parent c with Some p => climbs k' h p r | None => false end | None => false end
  end.
Lemma reaches_climbs h i r : reaches h i r -> forall k, climbs k h i r = true.
Proof.
  intros Re. induction Re as [i c C|i c p r C P Re IH]; intros [|k]; cbn [climbs]; [reflexivity| |reflexivity|].
  - rewrite Nat.eqb_refl. reflexivity.
  - rewrite C, P, IH. apply orb_true_r.
Qed.

(** Moving B of the first model below its own child c. *)
Definition moved : world :=
  match exec order (OAddChild (ByName (T "c")) (ByName (T "B"))) (heap1, model1) with Some (w, _) => w | None => (heap1, model1) end.

Lemma stuck_pair h a b ca cb : h_cells h a = Some ca -> n_parent ca = Some b -> h_cells h b = Some cb -> n_parent cb = Some a ->
  forall i r, reaches h i r -> i = a \/ i = b -> r = a \/ r = b.
Proof.
  intros Ca Pa Cb Pb i r Re. induction Re as [i c C|i c p r C P Re IH]; [auto|].
  intros [->| ->]; apply IH; rewrite C in *; [injection Ca as ->; rewrite Pa in P; injection P as <-; auto
                                             |injection Cb as ->; rewrite Pb in P; injection P as <-; auto].
Qed.

Lemma cycle_accepted :
  exists ord h m t o w, is_order ord /\ represents h m t /\
    commit_modify ord (Mtx true [o]) (h, m) = Some (Mtx false [o], w, None) /\ ~ tree_shaped (fst w) (snd w).
Proof.
  exists order, heap1, model1, tree1, (OAddChild (ByName (T "c")) (ByName (T "B"))), moved.
  split; [exact order_ok|]. split; [exact represents1|]. split; [vm_compute; reflexivity|].
  intros [_ _ _ _ _ _ _ _ Re]. assert (reaches (fst moved) 2 0) as X by (apply Re; vm_compute; auto).
  eapply (stuck_pair (fst moved) 2 5) in X; [destruct X; discriminate| | | | |left; reflexivity]; vm_compute; reflexivity.
Qed.

(** A history: add a and b, group them, move b below a, replace the root, remove a. *)
Definition steps5 : list op :=
  [OAddFeature (new_feature FBinary (T "a") false [] []) None; OAddFeature (new_feature FBinary (T "b") true [] []) None;
   OAddRelationship RAlternative (ByName (T "root")); OAddChild (ByName (T "a")) (ByName (T "b"));
   OSetRoot (T "r"); ORemoveFeature (ByName (T "b")) true].
Definition state (k : nat) : world :=
  match run order (firstn k steps5) (new_model (Heap (fun _ => None) 0)) with Some (w, _) => w | None => new_model (Heap (fun _ => None) 0) end.
Lemma history5 : history order (new_model (Heap (fun _ => None) 0)) (state 6).
Proof.
  change (new_model (Heap (fun _ => None) 0)) with (state 0).
  apply (history_step order (state 0) (state 1) _ (nth 0 steps5 (OSetName [])) None); [|vm_compute; reflexivity|].
  { split; [discriminate|]. intros q E. discriminate. }
  apply (history_step order (state 1) (state 2) _ (nth 1 steps5 (OSetName [])) None); [|vm_compute; reflexivity|].
  { split; [discriminate|]. intros q E. discriminate. }
  apply (history_step order (state 2) (state 3) _ (nth 2 steps5 (OSetName [])) None); [|vm_compute; reflexivity|].
  { split; [exact I|]. intros p E (x & N). assert (p = 0) as -> by (vm_compute in E; congruence).
    inversion N as [n0 c0 x0 cx0 C0 I0 Cx0 T0 E1 E2 E3|n0 c0 y0 cy0 k0 x0 C0 I0 Cy0 T0 N0 E1 E2 E3]; subst.
    - assert (n_edges c0 = [1; 2]) as Ee by (vm_compute in C0; injection C0 as <-; reflexivity). rewrite Ee in I0.
      destruct I0 as [<-|[<-|[]]]; vm_compute in Cx0; injection Cx0 as <-; discriminate T0.
    - inversion N0. }
  apply (history_step order (state 3) (state 4) _ (nth 3 steps5 (OSetName [])) None); [|vm_compute; reflexivity|].
  { split; [exact I|]. split; [exact I|]. intros i j Ei Ej Re. assert (i = 1) as -> by (vm_compute in Ei; congruence).
    assert (j = 2) as -> by (vm_compute in Ej; congruence).
    apply (reaches_climbs _ _ _) with (k := 5) in Re. vm_compute in Re. discriminate Re. }
  apply (history_step order (state 4) (state 5) _ (nth 4 steps5 (OSetName [])) None); [exact I|vm_compute; reflexivity|].
  apply (history_step order (state 5) (state 6) _ (nth 5 steps5 (OSetName [])) None); [exact I|vm_compute; reflexivity|]. constructor.
Qed.
Lemma example_history : heap_ok (Heap (fun _ => None) 0) /\ is_order order /\
  history order (new_model (Heap (fun _ => None) 0)) (state 6) /\
  map fst (m_features (snd (state 6))) = [T "a"; T "r"] /\ m_relationships (snd (state 6)) = [3].
Proof.
  split; [intros i _; reflexivity|]. split; [exact order_ok|]. split; [exact history5|]. split; vm_compute; reflexivity.
Qed.

Lemma subtree_B : subtree (Node 2 (binary "B") [Node 5 (binary "c") []]) tree1.
Proof. eapply sub_kid; [left; reflexivity|]. eapply sub_kid; [left; reflexivity|]. constructor. Qed.
Lemma D_apart : ~ reaches heap1 3 2.
Proof.
  intros Re. apply reaches_climbs with (k := 5) in Re. vm_compute in Re. discriminate Re.
Qed.
