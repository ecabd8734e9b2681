(** Properties of modifications and transactions (C23 to C30, C33, C34). *)
From Coq Require Import List ZArith Arith Bool Ascii String Permutation Lia.
From Verif Require Import Text ConstraintModel ConstraintSpec SourceRangeModel FeatureTreeModel FeatureTreeSpec FeatureTreeExamples
  FeatureTransactionModel FeatureEditSpec FeatureTransactionSpec FeatureOpsProofs FeatureRemoveProofs FeatureHistoryProofs
  FeatureTransactionFinal FeatureTransactionExamples CopyCallProofs.
Import ListNotations.
Local Open Scope string_scope.
Local Open Scope list_scope.

(** C23: after every history of modifications of a new model, whether they succeed or
    report errors, the model is a tree and passes the consistency check.  [allowed]
    excludes what the statement excludes: foreign arguments, second root features,
    moves below the feature itself, and stacked or moved relationships. *)
Theorem C23_histories_keep_the_tree :
  forall ord h w,
    is_order ord -> heap_ok h -> history ord (new_model h) w ->
    tree_shaped (fst w) (snd w) /\ consistent (fst w) (snd w) = Some true.
Proof. exact (fun ord h w ord_ok => history_tree ord ord_ok h w). Qed.
Print Assumptions C23_histories_keep_the_tree.

(** The same from any model that is a tree to begin with. *)
Theorem C23_modifications_keep_the_tree :
  forall ord h m t o h' m' e,
    is_order ord -> represents h m t -> allowed (h, m) o -> exec ord o (h, m) = Some ((h', m'), e) ->
    exists t', represents h' m' t'.
Proof. exact (fun ord h m t o h' m' e ord_ok => step_represents ord ord_ok h m t o h' m' e). Qed.
Print Assumptions C23_modifications_keep_the_tree.

(** What [represents] means for the links. *)
Theorem C23_represented_models_are_trees :
  forall h m t, represents h m t -> tree_shaped h m.
Proof. exact represents_tree_shaped. Qed.
Print Assumptions C23_represented_models_are_trees.

Example C23_example : heap_ok (Heap (fun _ => None) 0) /\ is_order order /\
  history order (new_model (Heap (fun _ => None) 0)) (state 6) /\
  map fst (m_features (snd (state 6))) = [T "a"; T "r"] /\ m_relationships (snd (state 6)) = [3].
Proof. exact example_history. Qed.

(** Without the exclusion of moves below the feature itself this is false: such a move
    is accepted, and the transaction commits successfully. *)
Theorem C23_cycles_are_accepted_refuted :
  exists ord h m t o w, is_order ord /\ represents h m t /\
    commit_modify ord (Mtx true [o]) (h, m) = Some (Mtx false [o], w, None) /\ ~ tree_shaped (fst w) (snd w).
Proof. exact cycle_accepted. Qed.
Print Assumptions C23_cycles_are_accepted_refuted.

(** C24: adding a feature with a new name. *)
Theorem C24_added_as_last_child :
  forall ord h m t f p s,
    represents h m t -> f_kind f <> FRoot -> get_feature m (f_name f) = None -> subtree s t -> is_feature (rdata s) = true ->
    (p = Some (rid s) \/ p = None /\ s = t) ->
    exists h' m', exec ord (OAddFeature f p) (h, m) = Some ((h', m'), None) /\
      represents h' m' (edit (rid s) (add_kid (Node (h_next h) (NFeature f) [])) t) /\
      m_features m' = m_features m ++ [(f_name f, h_next h)] /\ m_root m' = m_root m /\
      m_relationships m' = m_relationships m /\ same_rest m m' /\
      (forall j, j <> h_next h -> j <> rid s -> h_cells h' j = h_cells h j).
Proof. exact add_feature_exact. Qed.
Print Assumptions C24_added_as_last_child.

Theorem C24_present_name_is_rejected :
  forall ord h m f p i,
    get_feature m (f_name f) = Some i -> exec ord (OAddFeature f p) (h, m) = Some ((h, m), Some ALREADY_PRESENT).
Proof. exact exec_add_feature_present. Qed.
Print Assumptions C24_present_name_is_rejected.

Example C24_example :
  represents heap1 model1 tree1 /\ get_feature model1 (f_name feature_x) = None /\ f_kind feature_x <> FRoot /\
  subtree (Node 2 (binary "B") [Node 5 (binary "c") []]) tree1 /\
  edit 2 (add_kid (Node 6 (NFeature feature_x) [])) tree1 =
    Node 0 (rootd "root")
      [Node 4 (NRelationship RAlternative)
         [Node 2 (binary "B") [Node 5 (binary "c") []; Node 6 (NFeature feature_x) []]; Node 1 (binary "a") []];
       Node 3 (binary "D") []] /\
  get_feature model1 (T "B") = Some 2.
Proof.
  split; [exact represents1|]. split; [reflexivity|]. split; [discriminate|]. split; [exact subtree_B|]. split; vm_compute; reflexivity.
Qed.

(** C25: removing a leaf, or a feature with everything below it. *)
Theorem C25_removes_exactly_the_subtree :
  forall ord (recursive : bool) h m t r s,
    is_order ord -> represents h m t -> resolve m r = Some (rid s) -> subtree s t -> is_feature (rdata s) = true -> rid s <> rid t ->
    (recursive = true \/ near (kids s) = []) ->
    exists h' m', exec ord (ORemoveFeature r recursive) (h, m) = Some ((h', m'), None) /\
      represents h' m' (prune (rid s) t) /\ same_rest m m' /\
      (forall i, In i (nodes m') <-> In i (nodes m) /\ ~ In i (ids s)) /\
      (forall i, In i (ids s) -> h_cells h' i = None) /\
      (forall i, ~ In i (ids t) -> h_cells h' i = h_cells h i).
Proof. exact (fun ord recursive h m t r s ord_ok => remove_exact ord ord_ok recursive h m t r s). Qed.
Print Assumptions C25_removes_exactly_the_subtree.

Theorem C25_inner_features_are_kept :
  forall ord h m t r s,
    is_order ord -> represents h m t -> resolve m r = Some (rid s) -> subtree s t -> near (kids s) <> [] ->
    exec ord (ORemoveFeature r false) (h, m) = Some ((h, m), Some NON_LEAF_NODE).
Proof. exact (fun ord h m t r s ord_ok => exec_remove_inner ord ord_ok h m t r s). Qed.
Print Assumptions C25_inner_features_are_kept.

Theorem C25_absent_names_are_reported :
  forall ord h m r b, resolve m r = None -> exec ord (ORemoveFeature r b) (h, m) = Some ((h, m), Some MISSING_FEATURE).
Proof. exact exec_remove_missing. Qed.
Print Assumptions C25_absent_names_are_reported.

(** Removing the root dereferences its missing parent. *)
Theorem C25_removing_the_root_is_undefined :
  forall ord h m t r b,
    is_order ord -> represents h m t -> resolve m r = Some (rid t) -> (b = true \/ near (kids t) = []) ->
    exec ord (ORemoveFeature r b) (h, m) = None.
Proof. exact (fun ord h m t r b ord_ok => exec_remove_root ord ord_ok h m t r b). Qed.
Print Assumptions C25_removing_the_root_is_undefined.

Example C25_example :
  represents heap1 model1 tree1 /\ resolve model1 (ByName (T "B")) = Some 2 /\
  subtree (Node 2 (binary "B") [Node 5 (binary "c") []]) tree1 /\
  prune 2 tree1 = Node 0 (rootd "root") [Node 4 (NRelationship RAlternative) [Node 1 (binary "a") []]; Node 3 (binary "D") []] /\
  near [Node 5 (binary "c") []] <> [] /\ resolve model1 (ByName (T "z")) = None.
Proof.
  split; [exact represents1|]. split; [reflexivity|]. split; [exact subtree_B|]. split; [vm_compute; reflexivity|]. split; [discriminate|reflexivity].
Qed.

(** C26: grouping the children of a feature and ungrouping them again. *)
Theorem C26_grouping_and_ungrouping_are_inverse :
  forall ord h m t k r s,
    is_order ord -> represents h m t -> resolve m r = Some (rid s) -> subtree s t -> is_feature (rdata s) = true ->
    own_groups (kids s) = [] ->
    exists h1 m1 us, exec ord (OAddRelationship k r) (h, m) = Some ((h1, m1), None) /\
      Permutation us (kids s) /\
      represents h1 m1 (edit (rid s) (with_kids [Node (h_next h) (NRelationship k) us]) t) /\
      m_features m1 = m_features m /\ same_rest m m1 /\
      exists h2 m2 us2, exec ord (ORemoveRelationship r) (h1, m1) = Some ((h2, m2), None) /\
        Permutation us2 (kids s) /\ represents h2 m2 (edit (rid s) (with_kids us2) t) /\ m2 = m.
Proof. exact (fun ord h m t k r s ord_ok => group_ungroup ord ord_ok h m t k r s). Qed.
Print Assumptions C26_grouping_and_ungrouping_are_inverse.

(** Reordering the children of one node changes nobody's parent. *)
Theorem C26_parents_are_restored :
  forall h m t s us h2 m2,
    represents h m t -> subtree s t -> Permutation us (kids s) -> represents h2 m2 (edit (rid s) (with_kids us) t) ->
    forall i, In i (nodes m) -> option_map n_parent (h_cells h2 i) = option_map n_parent (h_cells h i).
Proof. exact regrouped_parents. Qed.
Print Assumptions C26_parents_are_restored.

(** Without a relationship of its own, the one of a descendant is deleted while that
    descendant still lists it. *)
Theorem C26_takes_a_relationship_from_below :
  forall ord h m t r s,
    is_order ord -> represents h m t -> resolve m r = Some (rid s) -> subtree s t -> is_feature (rdata s) = true ->
    own_groups (kids s) = [] -> flat_map (tops is_relationship) (kids s) <> [] ->
    exists h' m' u i c, exec ord (ORemoveRelationship r) (h, m) = Some ((h', m'), None) /\
      subtree u s /\ rid u <> rid s /\ In i (map rid (kids u)) /\ In i (nodes m) /\ ~ In i (nodes m') /\
      h_cells h' i = None /\ h_cells h' (rid u) = Some c /\ In i (n_edges c).
Proof. exact (fun ord h m t r s ord_ok => ungroup_foreign ord ord_ok h m t r s). Qed.
Print Assumptions C26_takes_a_relationship_from_below.

Example C26_example :
  represents heap1 model1 tree1 /\ resolve model1 (ByName (T "B")) = Some 2 /\
  subtree (Node 2 (binary "B") [Node 5 (binary "c") []]) tree1 /\ own_groups [Node 5 (binary "c") []] = [] /\
  represents heap4 model4 tree4 /\ resolve model4 (ByName (T "root")) = Some 0 /\ own_groups (kids tree4) = [] /\
  flat_map (tops is_relationship) (kids tree4) <> [].
Proof.
  split; [exact represents1|]. split; [reflexivity|]. split; [exact subtree_B|]. split; [reflexivity|]. split; [exact represents4|].
  split; [reflexivity|]. split; [reflexivity|discriminate].
Qed.

(** C27: a new root takes over the children of the old one. *)
Theorem C27_new_root_takes_the_children :
  forall ord h m t s,
    represents h m t -> get_feature m s = None ->
    exists h' m', exec ord (OSetRoot s) (h, m) = Some ((h', m'), None) /\
      represents h' m' (Node (h_next h) (NFeature (root_feature s)) (kids t)) /\
      same_rest m m' /\ m_relationships m' = m_relationships m /\ h_cells h' (rid t) = None /\
      (forall j, ~ In j (ids t) -> j <> h_next h -> h_cells h' j = h_cells h j).
Proof. exact set_root_exact. Qed.
Print Assumptions C27_new_root_takes_the_children.

Theorem C27_present_names :
  forall ord h m t s,
    represents h m t ->
    (tname t = s -> exec ord (OSetRoot s) (h, m) = Some ((h, m), None)) /\
    (forall i, get_feature m s = Some i -> i <> rid t -> exec ord (OSetRoot s) (h, m) = Some ((h, m), Some ALREADY_PRESENT)).
Proof. exact set_root_name. Qed.
Print Assumptions C27_present_names.

Example C27_example :
  represents heap1 model1 tree1 /\ get_feature model1 (T "new") = None /\ tname tree1 = T "root" /\ get_feature model1 (T "a") = Some 1.
Proof. split; [exact represents1|]. split; [reflexivity|]. split; reflexivity. Qed.

(** C28: moving a feature. *)
Theorem C28_moves_the_subtree :
  forall ord h m t rp rc p s,
    represents h m t -> resolve m rp = Some p -> resolve m rc = Some (rid s) -> In p (ids t) ->
    subtree s t -> is_feature (rdata s) = true -> ~ reaches h p (rid s) ->
    exists h', exec ord (OAddChild rp rc) (h, m) = Some ((h', m), None) /\
      represents h' m (edit p (add_kid s) (prune (rid s) t)) /\ h_next h' = h_next h /\
      (forall u, subtree u t -> In s (kids u) -> forall j, j <> rid u -> j <> p -> j <> rid s -> h_cells h' j = h_cells h j).
Proof. exact exec_add_child_ok. Qed.
Print Assumptions C28_moves_the_subtree.

Theorem C28_rejected :
  forall ord h m rp rc,
    (resolve m rc = None -> exec ord (OAddChild rp rc) (h, m) = Some ((h, m), Some MISSING_CHILD)) /\
    (forall c, resolve m rc = Some c -> resolve m rp = None ->
       exec ord (OAddChild rp rc) (h, m) = Some ((h, m), Some MISSING_PARENT)) /\
    (forall c, resolve m rc = Some c -> resolve m rp = Some c ->
       exec ord (OAddChild rp rc) (h, m) = Some ((h, m), Some RECURSIVE_EDGE)).
Proof. exact add_child_rejected. Qed.
Print Assumptions C28_rejected.

Example C28_example :
  represents heap1 model1 tree1 /\ resolve model1 (ByName (T "D")) = Some 3 /\ resolve model1 (ByName (T "B")) = Some 2 /\
  subtree (Node 2 (binary "B") [Node 5 (binary "c") []]) tree1 /\ ~ reaches heap1 3 2 /\
  edit 3 (add_kid (Node 2 (binary "B") [Node 5 (binary "c") []])) (prune 2 tree1) =
    Node 0 (rootd "root")
      [Node 4 (NRelationship RAlternative) [Node 1 (binary "a") []];
       Node 3 (binary "D") [Node 2 (binary "B") [Node 5 (binary "c") []]]].
Proof.
  split; [exact represents1|]. split; [reflexivity|]. split; [reflexivity|]. split; [exact subtree_B|]. split; [exact D_apart|]. vm_compute. reflexivity.
Qed.

(** C29: the consistency check decides the rules, and only models that satisfy them
    are committed. *)
Theorem C29_check_decides_the_rules :
  forall h m b, consistent h m = Some b -> (b = true <-> rules_hold h m).
Proof. exact consistent_rules. Qed.
Print Assumptions C29_check_decides_the_rules.

Theorem C29_modify_commits_keep_the_rules :
  forall ord t w t' w', commit_modify ord t w = Some (t', w', None) -> rules_hold (fst w') (snd w').
Proof. exact commit_modify_rules. Qed.
Print Assumptions C29_modify_commits_keep_the_rules.

Theorem C29_copy_commits_keep_the_rules :
  forall h t r t', commit_copy h t = Some (r, t') ->
    match r with Some m => rules_hold h m /\ x_copy t = Some m | None => x_continue t' = false end /\ x_copy t' = None /\
    (forall m, x_copy t = Some m -> x_continue t = true -> rules_hold h m -> r = Some m).
Proof. exact commit_copy_rules. Qed.
Print Assumptions C29_copy_commits_keep_the_rules.

(** After a commit or an abort of a copy transaction, whatever is called, nothing is
    handed out. *)
Theorem C29_closed_copies_hand_out_nothing :
  forall ord os h t t1 h' t', (t1 = abort_copy t \/ exists r, commit_copy h t = Some (r, t1)) -> copy_run ord os h t1 = Some (h', t') ->
    h' = h /\ exists t2, commit_copy h' t' = Some (None, t2).
Proof. exact closed_hands_out_nothing. Qed.
Print Assumptions C29_closed_copies_hand_out_nothing.

(** The calls on an open copy do what the modification does on the copy, with features
    looked up by name, and those with a result report its error; the others report none. *)
Theorem C29_copy_calls_report :
  (forall ord f p s h m b r, name_at h p = Some s ->
    (copy_exec ord (OAddFeature f (Some p)) h (Ctx (Some m) b) = Some r <->
     exists h' m' e, exec ord (OAddFeature f (get_feature m s)) (h, m) = Some ((h', m'), e) /\ r = (h', Ctx (Some m') b, e))) /\
  (forall ord k p s i h m b r, resolve m p = Some i -> name_at h i = Some s ->
    (copy_exec ord (OAddRelationship k p) h (Ctx (Some m) b) = Some r <->
     exists j h' m' e, get_feature m s = Some j /\ exec ord (OAddRelationship k (ByPtr j)) (h, m) = Some ((h', m'), e) /\ r = (h', Ctx (Some m') b, e))) /\
  (forall ord o h m b r, (exists f, o = OAddFeature f None) \/ (exists k c, o = OAddConstraint k c) \/ (exists f, o = OSetRoot f) ->
    (copy_exec ord o h (Ctx (Some m) b) = Some r <-> exists h' m' e, exec ord o (h, m) = Some ((h', m'), e) /\ r = (h', Ctx (Some m') b, e))) /\
  (forall ord o h t h' t' e, ~ gives_result o -> copy_exec ord o h t = Some (h', t', e) -> e = None).
Proof. exact (conj copy_adds (conj copy_groups (conj copy_direct copy_silent))). Qed.
Print Assumptions C29_copy_calls_report.

(** On a closed one, calls with a result report an error and the others fail an assertion;
    only adding a child does nothing. *)
Theorem C29_calls_on_closed_copies :
  forall ord o h t h' t' e, x_copy t = None ->
    (copy_exec ord o h t = Some (h', t', e) <-> h' = h /\ t' = t /\ (gives_result o /\ e = Some ERROR \/ (exists p c, o = OAddChild p c) /\ e = None)).
Proof. exact copy_closed. Qed.
Print Assumptions C29_calls_on_closed_copies.

Example C29_copy_example :
  (exists r, copy_exec order (OAddFeature feature_x (Some 3)) heap1 (Ctx (Some model1) true) = Some r /\ snd r = None) /\
  (exists r, copy_exec order (OSetRoot (T "a")) heap1 (Ctx None false) = Some (heap1, Ctx None false, Some ERROR) /\ r = tt) /\
  copy_run order [OSetRoot (T "a"); OAddChild (ByPtr 1) (ByPtr 2)] heap1 (abort_copy (Ctx (Some model1) true)) = Some (heap1, abort_copy (Ctx None true)).
Proof. split; [eexists; split; vm_compute; reflexivity|]. split; [exists tt; split; vm_compute; reflexivity|]. vm_compute. reflexivity. Qed.

Example C29_example :
  consistent heap1 model1 = Some true /\
  (exists w, commit_modify order (Mtx true [OAddFeature feature_x (Some 3)]) (heap1, model1) = Some (Mtx false [OAddFeature feature_x (Some 3)], w, None)) /\
  (exists r, commit_copy heap1 (Ctx (Some model1) true) = Some (Some model1, r)) /\
  commit_copy heap1 (Ctx (Some (with_root model1 (Some 3))) true) = Some (None, Ctx None false).
Proof. split; [vm_compute; reflexivity|]. split; [eexists; vm_compute; reflexivity|]. split; [eexists; vm_compute; reflexivity|]. vm_compute. reflexivity. Qed.

(** C30: committing runs the queue up to the first failure. *)
Theorem C30_commit_runs_a_prefix :
  forall ord os w t w' e,
    commit_modify ord (Mtx true os) w = Some (t, w', e) <-> t = Mtx false os /\ ends ord os w w' e.
Proof. exact commit_ends. Qed.
Print Assumptions C30_commit_runs_a_prefix.

(** The queue holds the calls in order. *)
Theorem C30_calls_are_queued_in_order :
  forall os, fold_left (fun o x => let* t := o in enqueue t x) os (Some mtx_start) = Some (Mtx true os).
Proof. exact enqueued. Qed.
Print Assumptions C30_calls_are_queued_in_order.

(** A modification that fails changes nothing, except that a constraint stays. *)
Theorem C30_failures_change_nothing :
  forall ord o w w' e, exec ord o w = Some (w', Some e) -> (forall k c, o <> OAddConstraint k c) -> w' = w.
Proof. exact failed_unchanged. Qed.
Print Assumptions C30_failures_change_nothing.

(** After a commit or an abort every commit is refused. *)
Theorem C30_closed_transactions_are_refused :
  forall ord t w w2,
    (forall t' w' e, commit_modify ord t w = Some (t', w', e) ->
       exists t2, commit_modify ord t' w2 = Some (t2, w2, Some ABORTED)) /\
    (exists t2, commit_modify ord (abort_modify t) w = Some (t2, w, Some ABORTED)).
Proof. exact closed_refused. Qed.
Print Assumptions C30_closed_transactions_are_refused.

(** Destroying an open transaction commits it. *)
Theorem C30_destruction_commits :
  forall ord os w w',
    (destroy_modify ord (Mtx true os) w = Some w' <-> exists e, ends ord os w w' e) /\ destroy_modify ord (Mtx false os) w = Some w.
Proof. exact destroyed. Qed.
Print Assumptions C30_destruction_commits.

Theorem C30_name_commit_and_path :
  forall ord h m s,
  (exists m', exec ord (OSetName s) (h, m) = Some ((h, m'), None) /\ m_name m' = s /\ m_commit m' = m_commit m /\ m_path m' = m_path m /\ same_contents m m') /\
  (exists m', exec ord (OSetCommit s) (h, m) = Some ((h, m'), None) /\ m_name m' = m_name m /\ m_commit m' = s /\ m_path m' = m_path m /\ same_contents m m') /\
  (exists m', exec ord (OSetPath s) (h, m) = Some ((h, m'), None) /\ m_name m' = m_name m /\ m_commit m' = m_commit m /\ m_path m' = s /\ same_contents m m').
Proof. exact metadata. Qed.
Print Assumptions C30_name_commit_and_path.

Example C30_example :
  exists w, commit_modify order (Mtx true [OSetName (T "n"); OAddChild (ByName (T "q")) (ByName (T "a")); OSetName (T "o")]) (heap1, model1) =
      Some (Mtx false [OSetName (T "n"); OAddChild (ByName (T "q")) (ByName (T "a")); OSetName (T "o")], w, Some MISSING_PARENT) /\
    m_name (snd w) = T "n".
Proof. eexists. split; vm_compute; reflexivity. Qed.

(** C33: in a copy transaction adding a child does nothing. *)
Theorem C33_adding_a_child_to_a_copy_does_nothing :
  forall ord p c h t, copy_exec ord (OAddChild p c) h t = Some (h, t, None).
Proof. exact copy_add_child. Qed.
Print Assumptions C33_adding_a_child_to_a_copy_does_nothing.

Example C33_example :
  exists h t, open_copy order (fun l => l) heap1 model1 = Some (h, t) /\
    copy_exec order (OAddChild (ByName (T "D")) (ByName (T "B"))) h t = Some (h, t, None).
Proof. eexists _, _. split; vm_compute; reflexivity. Qed.

(** C34: adding a constraint.  Every mention [x] of a known name is replaced by a
    reference to the feature of that name, mentions of other names stay, and each
    feature is registered at exactly the positions that mean it. *)
Theorem C34_constraints_are_connected :
  forall ord h m t k c names,
    represents h m t -> Forall2 (mentions h) (leaves c) names ->
    exists h' m' c' e, exec ord (OAddConstraint k c) (h, m) = Some ((h', m'), e) /\
      gained k (MConstraint (h_next h) c') m m' /\
      cmap (fun _ => tt) c' = cmap (fun _ => tt) c /\
      Forall2 (fun s p => connected m s (fst p) (snd p)) names (combine (leaves c) (leaves c')) /\
      ((forall s, In s names -> get_feature m s <> None) -> e = None) /\
      ((exists s, In s names /\ get_feature m s = None) -> e = Some MISSING_FEATURE) /\
      (forall i, h_cells h' i = option_map (fun x => Cell (match n_data x with
                                      | NFeature f => NFeature (enlisted c (h_next h) (positions m i names 0) f)
                                      | NRelationship y => NRelationship y
                                      end) (n_parent x) (n_edges x)) (h_cells h i)).
Proof. exact add_constraint_connects. Qed.
Print Assumptions C34_constraints_are_connected.

Example C34_example :
  represents heap1 model1 tree1 /\
  Forall2 (mentions heap1) (leaves (CBin BExcludes (CFeat (Own (T "a"))) (CBin BOr (CFeat (Own (T "B"))) (CFeat (Own (T "a")))))) [T "a"; T "B"; T "a"] /\
  positions model1 1 [T "a"; T "B"; T "a"] 0 = [0; 2].
Proof. split; [exact represents1|]. split; [repeat constructor|reflexivity]. Qed.
