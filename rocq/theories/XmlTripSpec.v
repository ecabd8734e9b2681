(** What of a model is still there after it has been written to a document and read back. *)
From Coq Require Import List ZArith NArith Arith Bool Ascii String Permutation.
From Verif Require Import Text NumSpec ConstraintModel ConstraintSpec SourceRangeModel FeatureTreeModel FeatureTreeSpec FeatureTransactionModel
  FeatureTransactionSpec FeatureEditSpec FeatureCloneSpec FeatureBuildSpec SxfmModel XmlModel XmlSpec.
Import ListNotations.
Local Open Scope string_scope.
Local Open Scope list_scope.
Local Open Scope nat_scope.

(** ** Texts of constraints *)
(** The constraint with the names of the mentioned features. *)
Definition called_in (h : heap) (r : cref) (s : string) : Prop :=
  match r with Own t => t = T s | Ref i => exists f, feature_at h i = Some f /\ f_name f = T s end.
Inductive spelled (h : heap) : cexpr cref -> cexpr string -> Prop :=
| spelled_bin o l r l' r' : spelled h l l' -> spelled h r r' -> spelled h (CBin o l r) (CBin o l' r')
| spelled_un o e e' : spelled h e e' -> spelled h (CUn o e) (CUn o e')
| spelled_int n : spelled h (CInt n) (CInt n)
| spelled_feature r s : called_in h r s -> spelled h (CFeat r) (CFeat s).
(** Some constraint of the list reads [e]. *)
Definition stated (h : heap) (l : list mconstraint) (e : cexpr string) : Prop := exists c, In c l /\ spelled h (c_expr c) e.
(** "A implies B" and "A excludes B". *)
Definition pair {F} (c : cexpr F) : Prop := exists o a b, (o = BImplies \/ o = BExcludes) /\ c = CBin o (CFeat a) (CFeat b).

(** ** Models that can be written and read back *)
(** No blanks at the ends. *)
Definition tidy (t : text) : Prop := trim t = t.
Definition small (l : location) : Prop := (l_line l < 2 ^ 31)%N /\ (l_column l < 2 ^ 31)%N.
Definition placed (r : source_range) : Prop :=
  tidy (sr_path r) /\ exists a b, sr_start r = Some a /\ sr_end r = Some b /\ small a /\ small b.
Definition writable_kind (k : fkind) : Prop :=
  match k with
  | FUnknown => False
  | FNumeric (VRange lo hi) _ => is_int64 lo /\ is_int64 hi
  | FNumeric (VList vs) _ => vs <> [] /\ Forall is_int64 vs
  | _ => True
  end.
Definition writable_feature (f : feature) : Prop :=
  f_name f <> [] /\ tidy (f_name f) /\ writable_kind (f_kind f) /\ Forall placed (f_locations f).

Record writable (h : heap) (m : fmodel) : Prop := Writable {
  wr_features : forall s i f, get_feature m s = Some i -> feature_at h i = Some f -> writable_feature f;
  (** the root and only the root is called root or base *)
  wr_root : forall s i, get_feature m s = Some i -> (s = T "root" \/ s = T "base" <-> m_root m = Some i);
  (** the root and only the root has the kind of a root *)
  wr_kind : forall s i f, get_feature m s = Some i -> feature_at h i = Some f -> (f_kind f = FRoot <-> m_root m = Some i);
  wr_name : tidy (m_name m);
  wr_path : tidy (m_path m);
  wr_commit : tidy (m_commit m);
  wr_boolean : forall c, In c (m_boolean m) -> pair (c_expr c) \/ exists e, spelled h (c_expr c) e /\ expressible e;
  wr_nonboolean : forall c, In c (m_nonboolean m) -> exists e, spelled h (c_expr c) e /\ expressible e;
  wr_mixed : forall x, In x (m_mixed m) -> exists e, spelled h (c_expr (x_con x)) e /\ expressible e
}.

(** ** Features *)
(** The 32-bit integer with the same last 32 bits. *)
Definition as_int32 (v w : Z) : Prop := (- 2 ^ 31 <= w < 2 ^ 31)%Z /\ exists k, v = (w + k * 2 ^ 32)%Z.
(** All values but the last go through a 32-bit integer. *)
Definition values_back (vs ws : list Z) : Prop := exists a b v, vs = a ++ [v] /\ ws = b ++ [v] /\ Forall2 as_int32 a b.
Definition kind_back (k l : fkind) : Prop :=
  match k with
  | FNumeric (VRange lo hi) _ => l = FNumeric (VRange lo hi) None
  | FNumeric (VList vs) _ => exists ws, l = FNumeric (VList ws) None /\ values_back vs ws
  | _ => l = k
  end.
Definition place_back (r : source_range) : source_range := SourceRange (sr_path r) (sr_start r) (sr_end r) (sr_category r) None None.
(** Of the root only the name is kept; of the others everything but the output string,
    the step function, member offsets and revisions. *)
Definition back (f g : feature) : Prop :=
  f_name g = f_name f /\ f_output g = [] /\ kind_back (f_kind f) (f_kind g) /\
  match f_kind f with
  | FRoot => f_locations g = [] /\ f_optional g = false
  | _ => f_locations g = map place_back (f_locations f) /\ f_optional g = f_optional f
  end.

(** ** Trees and groups *)
Definition parent_named (h : heap) (m : fmodel) (s p : text) : Prop :=
  exists i q, get_feature m s = Some i /\ get_feature m p = Some q /\ feature_above h i q.
(** [a] and [b] are in the same group. *)
Definition together (h : heap) (a b : nid) : Prop :=
  exists ca cb q cq k, h_cells h a = Some ca /\ h_cells h b = Some cb /\ n_parent ca = Some q /\ n_parent cb = Some q /\
    h_cells h q = Some cq /\ n_data cq = NRelationship k.
(** The children of [p], at least two, are mandatory, and any two of them are in the same
    group or exclude each other. *)
Definition apart (h : heap) (m : fmodel) (p : nid) : Prop :=
  (exists a b, child_in h m p a /\ child_in h m p b /\ a <> b) /\
  forall a, child_in h m p a -> (exists f, feature_at h a = Some f /\ f_optional f = false) /\
    forall b, child_in h m p b -> b <> a -> together h a b \/ states_exclusion m a b.

(** ** Models *)
(** The boolean constraints afterwards: all pairs wherever they were stated, exclusions
    of group members, and the others with exclusions spelled out. *)
Definition boolean_back (h : heap) (m : fmodel) (e : cexpr string) : Prop :=
  (pair e /\ stated h (all_constraints m) e) \/
  (exists a b i j, e = CBin BExcludes (CFeat a) (CFeat b) /\ get_feature m (T a) = Some i /\ get_feature m (T b) = Some j /\ i <> j /\ together h i j) \/
  (exists c, e = excludes_as_implies c /\ ~ pair c /\ stated h (m_boolean m) c).
Definition constraint_back (h h' : heap) (c c' : mconstraint) : Prop :=
  exists e, spelled h (c_expr c) e /\ spelled h' (c_expr c') (excludes_as_implies e).

Record model_back (h : heap) (m : fmodel) (h' : heap) (m' : fmodel) : Prop := ModelBack {
  mb_tree : tree_shaped h' m';
  mb_represented : exists t', represents h' m' t';
  mb_consistent : consistent h' m' = Some true;
  mb_name : m_name m' = m_name m;
  mb_path : m_path m' = m_path m;
  mb_commit : m_commit m' = m_commit m;
  mb_names : Permutation (map fst (m_features m')) (map fst (m_features m));
  mb_root : exists s, get_feature m s = m_root m /\ get_feature m' s = m_root m' /\ m_root m' <> None;
  mb_features : forall s i f, get_feature m s = Some i -> feature_at h i = Some f ->
    exists i' g, get_feature m' s = Some i' /\ feature_at h' i' = Some g /\ back f g;
  mb_parents : forall s p, parent_named h' m' s p <-> parent_named h m s p;
  mb_groups : forall s p p', get_feature m s = Some p -> get_feature m' s = Some p' ->
    (group_of h' m' p' RAlternative <-> apart h m p) /\ ~ group_of h' m' p' ROr /\
    forall i, child_in h' m' p' i -> (apart h m p -> hangs h' i p' (Some RAlternative)) /\ (~ apart h m p -> hangs h' i p' None);
  mb_one_group : forall p q q' c c', In q (m_relationships m') -> In q' (m_relationships m') -> h_cells h' q = Some c -> h_cells h' q' = Some c' ->
    n_parent c = Some p -> n_parent c' = Some p -> q = q';
  mb_boolean : forall e, stated h' (m_boolean m') e <-> boolean_back h m e;
  mb_nonboolean : Forall2 (constraint_back h h') (m_nonboolean m) (m_nonboolean m');
  mb_mixed : Forall2 (fun x x' => constraint_back h h' (x_con x) (x_con x') /\ x_req x' = x_req x /\ x_kind x' = x_kind x) (m_mixed m) (m_mixed m')
}.
