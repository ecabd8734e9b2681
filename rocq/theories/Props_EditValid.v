(** Modifications change the valid configurations as they should (C63). *)
From Coq Require Import List ZArith Arith Bool Ascii String Permutation Lia.
From Verif Require Import Text ConstraintModel ConstraintSpec SourceRangeModel ConfigurationModel FeatureTreeModel FeatureTreeSpec FeatureTreeExamples FeatureTransactionModel FeatureEditSpec FeatureTransactionExamples
  SolverModel SolverSpec XmlModel XmlSpec EditValidSpec EditValidProofs EditValidFinal EditValidData EditValidExamples.
Import ListNotations.
Local Open Scope string_scope.
Local Open Scope list_scope.

(** The valid configurations are those that obey the rules at each node and the constraints. *)
Theorem C63_valid_configurations_obey_the_rules : forall h m t a, represents h m t -> (SolverSpec.valid h m a <-> rules a t /\ constraints_hold h m a).
Proof. exact (fun h m t a R => valid_rules h m t R a). Qed.
Print Assumptions C63_valid_configurations_obey_the_rules.

(** Below [q], named or the root, a feature [f] is added: *)
Theorem C63_added_features_add_their_rules : forall ord h m t f p q g h' m' a,
  represents h m t -> all_resolved m -> f_kind f <> FRoot -> stored h m q g -> (p = Some q \/ p = None /\ m_root m = Some q) ->
  exec ord (OAddFeature f p) (h, m) = Some ((h', m'), None) ->
  (SolverSpec.valid h' m' a <-> SolverSpec.valid h m a /\ needs a g f /\ follows a g f /\ has_value a f).
Proof. exact add_feature_valid. Qed.
Print Assumptions C63_added_features_add_their_rules.

(** every valid configuration can be extended by it, *)
Theorem C63_configurations_extend_to_added_features : forall ord h m t f p q g h' m' a b,
  represents h m t -> all_resolved m -> f_kind f = FBinary -> stored h m q g -> (p = Some q \/ p = None /\ m_root m = Some q) ->
  exec ord (OAddFeature f p) (h, m) = Some ((h', m'), None) -> SolverSpec.valid h m a ->
  (SolverSpec.valid h' m' (with_bool a (f_name f) b) <-> if b then selected a (f_name g) else f_optional f = true \/ ~ selected a (f_name g)).
Proof. exact add_binary_extends. Qed.
Print Assumptions C63_configurations_extend_to_added_features.

(** Removing [s] from below the feature [u] lifts the rules of what is removed. *)
Theorem C63_removed_features_lift_their_rules : forall ord (recursive : bool) h m t r u s f g h' m' a,
  is_order ord -> represents h m t -> all_resolved m -> resolve m r = Some (rid s) -> subtree u t -> rdata u = NFeature g -> In s (kids u) -> rdata s = NFeature f -> unmentioned m (ids s) ->
  exec ord (ORemoveFeature r recursive) (h, m) = Some ((h', m'), None) ->
  (SolverSpec.valid h m a <-> SolverSpec.valid h' m' a /\ needs a g f /\ follows a g f /\ rules a s).
Proof. exact remove_feature_valid. Qed.
Print Assumptions C63_removed_features_lift_their_rules.

(** Wherever it is, configurations without it stay valid. *)
Theorem C63_configurations_without_a_removed_feature_stay : forall ord (recursive : bool) h m t r u s f h' m' a,
  is_order ord -> represents h m t -> all_resolved m -> resolve m r = Some (rid s) -> subtree u t -> In s (kids u) -> rdata s = NFeature f -> unmentioned m (ids s) ->
  exec ord (ORemoveFeature r recursive) (h, m) = Some ((h', m'), None) -> ~ selected a (f_name f) -> SolverSpec.valid h m a -> SolverSpec.valid h' m' a.
Proof. exact remove_member_valid. Qed.
Print Assumptions C63_configurations_without_a_removed_feature_stay.

(** A model without constraints can lose all its valid configurations by removing a
    feature: the emptied group stays. *)
Theorem C63_removals_keep_a_valid_configuration_refuted : exists ord h m t r h' m' a, is_order ord /\ represents h m t /\ SolverSpec.valid h m a /\ all_constraints m = [] /\
  exec ord (ORemoveFeature r false) (h, m) = Some ((h', m'), None) /\ forall b, ~ SolverSpec.valid h' m' b.
Proof. exact emptied. Qed.
Print Assumptions C63_removals_keep_a_valid_configuration_refuted.

(** Moving [s] from below [u] to below [p] exchanges the rules towards the parent. *)
Theorem C63_moved_features_change_their_parent : forall ord h m t rp rc u s f g p gp h' m' a,
  represents h m t -> all_resolved m -> resolve m rp = Some p -> stored h m p gp -> resolve m rc = Some (rid s) -> subtree u t -> rdata u = NFeature g -> In s (kids u) -> rdata s = NFeature f -> ~ reaches h p (rid s) ->
  exec ord (OAddChild rp rc) (h, m) = Some ((h', m'), None) ->
  ((SolverSpec.valid h' m' a /\ needs a g f /\ follows a g f) <-> (SolverSpec.valid h m a /\ needs a gp f /\ follows a gp f)).
Proof. exact move_feature_valid. Qed.
Print Assumptions C63_moved_features_change_their_parent.

(** Grouping the children of [s] exchanges what makes them mandatory for the rule of the group. *)
Theorem C63_grouping_replaces_mandatory_rules : forall ord h m t k r s g h' m' a,
  is_order ord -> represents h m t -> all_resolved m -> resolve m r = Some (rid s) -> subtree s t -> rdata s = NFeature g -> own_groups (kids s) = [] ->
  exec ord (OAddRelationship k r) (h, m) = Some ((h', m'), None) ->
  ((SolverSpec.valid h' m' a /\ forall v f, In v (kids s) -> rdata v = NFeature f -> follows a g f) <-> (SolverSpec.valid h m a /\ chosen a k g (names_of (kids s)))).
Proof. exact group_valid. Qed.
Print Assumptions C63_grouping_replaces_mandatory_rules.
Theorem C63_ungrouping_restores_the_configurations : forall ord h m t k r s g h1 m1 h2 m2 a,
  is_order ord -> represents h m t -> all_resolved m -> resolve m r = Some (rid s) -> subtree s t -> rdata s = NFeature g -> own_groups (kids s) = [] ->
  exec ord (OAddRelationship k r) (h, m) = Some ((h1, m1), None) -> exec ord (ORemoveRelationship r) (h1, m1) = Some ((h2, m2), None) ->
  (SolverSpec.valid h2 m2 a <-> SolverSpec.valid h m a).
Proof. exact ungroup_valid. Qed.
Print Assumptions C63_ungrouping_restores_the_configurations.

(** The new root takes the place of the old one. *)
Theorem C63_new_roots_replace_the_old_one : forall ord h m t s g h' m' a,
  represents h m t -> all_resolved m -> rdata t = NFeature g -> get_feature m s = None -> unmentioned m [rid t] ->
  exec ord (OSetRoot s) (h, m) = Some ((h', m'), None) ->
  (SolverSpec.valid h' m' a <-> selected a s /\ SolverSpec.valid h m (with_bool a (f_name g) true)).
Proof. exact set_root_valid. Qed.
Print Assumptions C63_new_roots_replace_the_old_one.

(** An added constraint has to hold, and nothing else changes. *)
Theorem C63_added_constraints_have_to_hold : forall ord h m t k c h' m' a,
  represents h m t -> all_resolved m -> mentions_names m c -> exec ord (OAddConstraint k c) (h, m) = Some ((h', m'), None) ->
  (SolverSpec.valid h' m' a <-> SolverSpec.valid h m a /\ says h m a k c).
Proof. exact add_constraint_valid. Qed.
Print Assumptions C63_added_constraints_have_to_hold.

(** Locations, name, commit and path do not matter. *)
Theorem C63_locations_do_not_matter : forall ord h m t r l (add : bool) h' m' a,
  represents h m t -> all_resolved m -> ref_ok m r ->
  exec ord (if add then OAddLocation r l else ORemoveLocation r l) (h, m) = Some ((h', m'), None) -> (SolverSpec.valid h' m' a <-> SolverSpec.valid h m a).
Proof. exact location_valid. Qed.
Print Assumptions C63_locations_do_not_matter.
Theorem C63_descriptions_do_not_matter : forall ord o h m h' m' e a,
  (exists s, o = OSetName s \/ o = OSetCommit s \/ o = OSetPath s) -> exec ord o (h, m) = Some ((h', m'), e) -> (SolverSpec.valid h' m' a <-> SolverSpec.valid h m a).
Proof. exact described_valid. Qed.
Print Assumptions C63_descriptions_do_not_matter.

(** Hypotheses are met: root with the alternatives B, which has c, and a, and with D, which
    excludes a; everything but a is selected. *)
Example C63_example :
  is_order order /\ represents heap1 model35 tree1 /\ all_resolved model35 /\ SolverSpec.valid heap1 model35 config35 /\ stored heap1 model35 3 (new_feature FBinary (T "D") false [] []) /\
  (exists h' m', exec order (OAddFeature feature_x (Some 3)) (heap1, model35) = Some ((h', m'), None)) /\
  (exists h' m', exec order (ORemoveFeature (ByName (T "c")) false) (heap1, model35) = Some ((h', m'), None)) /\
  (exists h' m', exec order (ORemoveFeature (ByName (T "B")) true) (heap1, model35) = Some ((h', m'), None)) /\
  subtree (Node 2 (binary "B") [Node 5 (binary "c") []]) tree1 /\
  subtree (Node 4 (NRelationship RAlternative) [Node 2 (binary "B") [Node 5 (binary "c") []]; Node 1 (binary "a") []]) tree1 /\
  unmentioned model35 [5] /\ unmentioned model35 [2; 5] /\ unmentioned model35 [0].
Proof.
  exact (conj order_ok (conj represents35 (conj resolved35 (conj valid35 (conj stored35 (conj added35 (conj removed35 (conj member35 (conj subtree_B (conj subtree_group
    (conj (unmentioned35 [5] ltac:(cbn; intuition discriminate) ltac:(cbn; intuition discriminate)) (conj (unmentioned35 [2; 5] ltac:(cbn; intuition discriminate) ltac:(cbn; intuition discriminate))
    (unmentioned35 [0] ltac:(cbn; intuition discriminate) ltac:(cbn; intuition discriminate)))))))))))))).
Qed.
Example C63_example_further :
  ~ reaches heap1 3 5 /\ (exists h' m', exec order (OAddChild (ByName (T "D")) (ByName (T "c"))) (heap1, model35) = Some ((h', m'), None)) /\
  own_groups [Node 5 (binary "c") []] = [] /\
  (exists h1 m1 h2 m2, exec order (OAddRelationship ROr (ByName (T "B"))) (heap1, model35) = Some ((h1, m1), None) /\ exec order (ORemoveRelationship (ByName (T "B"))) (h1, m1) = Some ((h2, m2), None)) /\
  (exists h' m', exec order (OSetRoot (T "new")) (heap1, model35) = Some ((h', m'), None)) /\
  (mentions_names model35 implies35 /\ mentions_names model35 sum35) /\
  (exists h' m', exec order (OAddConstraint KBoolean implies35) (heap1, model35) = Some ((h', m'), None)) /\
  (exists h' m', exec order (OAddConstraint (KMixed ReqAll ExprPos) sum35) (heap1, model35) = Some ((h', m'), None)) /\
  (says heap1 model35 config35 KBoolean implies35 /\ says heap1 model35 config35 (KMixed ReqAll ExprPos) sum35 /\ ~ says heap1 model35 (with_bool config35 (T "D") false) KBoolean implies35) /\
  (exists h' m', exec order (OAddLocation (ByName (T "a")) (SourceRange (T "f") None None Necessary None None)) (heap1, model35) = Some ((h', m'), None)).
Proof. exact (conj apart35 (conj moved35 (conj eq_refl (conj grouped35 (conj rooted35 (conj names35 (conj constrained35 (conj mixed35 (conj says35 located35))))))))). Qed.
