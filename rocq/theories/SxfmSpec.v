(** What a text in the SXFM format says: lines with indented entries, and the tree they
    describe.  Independent of how it is read. *)
From Coq Require Import List NArith Arith Bool Ascii String Permutation.
From Verif Require Import Text ConstraintModel SourceRangeModel FeatureTreeModel FeatureTreeSpec FeatureTransactionModel FeatureEditSpec FeatureBuildSpec.
Import ListNotations.
Local Open Scope string_scope.
Local Open Scope list_scope.

(** ** Entries *)
Inductive mark := Root | Mandatory | Optional | Member | Group (k : rkind).
(** A line of the feature tree; groups may have no name. *)
Record entry := Entry { e_level : nat; e_mark : mark; e_name : text; e_id : option text }.

Definition free_of (cs : string) (t : text) : Prop := forall c, In c t -> ~ In c (T cs).
Definition newline : ascii := ascii_of_nat 10.
Definition one_line (t : text) : Prop := ~ In newline t.
Definition occurs (p t : text) : Prop := exists a b, t = a ++ p ++ b.
Definition word_char (c : ascii) : bool := is_alnum c || Ascii.eqb c "_".
Definition white (c : ascii) : Prop := In (code c) [32; 9; 11; 12; 13].

(** ** Layout *)
Definition cardinality (k : rkind) : text := match k with RAlternative => T "[1,1]" | ROr => T "[1,*]" end.
(** The identifier in brackets, directly behind the name or after a blank. *)
Inductive tail : bool -> option text -> text -> Prop :=
| tail_none b : tail b None []
| tail_glued b i : tail b (Some i) (T "(" ++ i ++ T ")")
| tail_spaced i : tail true (Some i) (T " (" ++ i ++ T ")").
(** The text after the colon; the cardinality stands before or after the name. *)
Inductive body : mark -> text -> option text -> text -> Prop :=
| body_root n i t : n <> [] -> tail true i t -> body Root n i (T "r " ++ n ++ t)
| body_mandatory n i t : n <> [] -> tail true i t -> body Mandatory n i (T "m " ++ n ++ t)
| body_optional n i t : n <> [] -> tail true i t -> body Optional n i (T "o " ++ n ++ t)
| body_member n i t : n <> [] -> tail true i t -> body Member n i (T " " ++ n ++ t)
| body_group n i t s k : tail true i t -> s = [] \/ s = T " " -> body (Group k) n i (T "g " ++ n ++ t ++ s ++ cardinality k)
| body_group_before n i t k : tail false i t -> body (Group k) n i (T "g " ++ cardinality k ++ T " " ++ n ++ t).

Definition indentation_ok (ind : text) : Prop := ind <> [] /\ free_of ":[(" ind /\ one_line ind.
Definition entry_ok (e : entry) : Prop :=
  free_of " [(" (e_name e) /\ one_line (e_name e) /\
  (forall i, e_id e = Some i -> i <> [] /\ (forall c, In c i -> word_char c = true)).
(** The name does not contain the identifier, unless both are the same. *)
Definition id_apart (e : entry) : Prop := forall i, e_id e = Some i -> i = e_name e \/ ~ occurs i (e_name e).

Definition writes (ind : text) (e : entry) (l : text) : Prop :=
  exists b, body (e_mark e) (e_name e) (e_id e) b /\ l = List.concat (repeat ind (e_level e)) ++ T ":" ++ b.
(** Lines with the given entries, in order; blank lines may be inserted. *)
Inductive pages (ind : text) : list text -> list entry -> Prop :=
| pages_nil : pages ind [] []
| pages_blank l ls es : Forall white l -> pages ind ls es -> pages ind (l :: ls) es
| pages_entry l ls e es : writes ind e l -> pages ind ls es -> pages ind (l :: ls) (e :: es).
Definition lines (ls : list text) (last : text) : text := flat_map (fun l => l ++ [newline]) ls ++ last.
Definition tree_text (ind : text) (es : list entry) (t : text) : Prop :=
  exists ls last, t = lines ls last /\ pages ind (ls ++ [last]) es.

(** ** The tree *)
Definition levels (es : list entry) : list nat := map e_level es.
(** Every line is deeper than the first one and at most one level deeper than the line
    before. *)
Fixpoint indented (root last : nat) (ls : list nat) : Prop :=
  match ls with
  | [] => True
  | l :: r => root < l <= S last /\ indented root l r
  end.
Definition well_indented (ls : list nat) : Prop := match ls with [] => True | l :: r => indented l l r end.

(** Entry [j] is the closest one before [i] that is one level less deep. *)
Definition closest (ls : list nat) (i j : nat) : Prop :=
  exists l, nth_error ls i = Some (S l) /\ nth_error ls j = Some l /\ j < i /\
    forall k, j < k < i -> nth_error ls k <> Some l.

(** Groups without a name are numbered. *)
Fixpoint label (k : nat) (es : list entry) : list text :=
  match es with
  | [] => []
  | e :: r =>
      match e_name e with
      | [] => (T "group_" ++ print_N (N.of_nat (S k))) :: label (S k) r
      | n => n :: label k r
      end
  end.
Definition labels (es : list entry) : list text := label 0 es.

Definition optional (m : mark) : bool := match m with Optional => true | _ => false end.
Definition declaration (e : entry) (n : text) : bcall :=
  match e_mark e with
  | Root => BRoot n
  | m => BFeature (new_feature FBinary n (optional m) [] [])
  end.
Fixpoint declarations (es : list entry) (ns : list text) : list bcall :=
  match es, ns with
  | e :: r, n :: s => declaration e n :: declarations r s
  | _, _ => []
  end.
Fixpoint group_lines (es : list entry) (ns : list text) : list (text * rkind) :=
  match es, ns with
  | e :: r, n :: s => match e_mark e with Group k => (n, k) :: group_lines r s | _ => group_lines r s end
  | _, _ => []
  end.

Definition declaring (cs : list bcall) : list bcall :=
  flat_map (fun c => match c with BFeature _ | BRoot _ => [c] | _ => [] end) cs.
Definition edges (cs : list bcall) : list (text * text) :=
  flat_map (fun c => match c with BEdge p s => [(p, s)] | _ => [] end) cs.

(** The calls on the builder are those for the entries: every entry is declared under its
    label, every entry but the first is attached to the closest one a level above, and
    every group is requested. *)
Record tree_calls (es : list entry) (cs : list bcall) : Prop := TreeCalls {
  tc_declared : declaring cs = declarations es (labels es);
  tc_edges : Forall2 (fun i e => exists j, closest (levels es) i j /\ nth_error (labels es) j = Some (fst e) /\ nth_error (labels es) i = Some (snd e))
    (seq 1 (List.length es - 1)) (edges cs);
  tc_groups : Permutation (requests cs) (group_lines es (labels es));
  tc_rest : forall c, In c cs -> match c with BFeature _ | BRoot _ | BEdge _ _ | BRelationship _ _ => True | _ => False end
}.

(** What an identifier stands for: the name of the last entry that has it. *)
Inductive stands_for : list entry -> text -> text -> Prop :=
| stands_last es e i : e_id e = Some i -> stands_for (es ++ [e]) i (e_name e)
| stands_before es e i n : e_id e <> Some i -> stands_for es i n -> stands_for (es ++ [e]) i n.

(** ** The model *)
Definition group_of (m : mark) : option rkind := match m with Group k => Some k | _ => None end.
(** One root, at the start; all labels differ. *)
Record tree_ok (es : list entry) : Prop := TreeOk {
  to_root : exists e r, es = e :: r /\ e_mark e = Root /\ forall x, In x r -> e_mark x <> Root;
  to_labels : NoDup (labels es);
  to_indented : well_indented (levels es)
}.
(** The model has the features of the entries, each below the closest entry one level
    above, in its group if that entry is one. *)
Record as_indented (es : list entry) (h : heap) (m : fmodel) : Prop := AsIndented {
  ai_tree : tree_shaped h m;
  ai_represented : exists t, represents h m t;
  ai_consistent : consistent h m = Some true;
  ai_names : Permutation (map fst (m_features m)) (labels es);
  ai_root : exists r s, m_root m = Some r /\ nth_error (labels es) 0 = Some s /\ get_feature m s = Some r;
  ai_features : forall i e s, nth_error es i = Some e -> nth_error (labels es) i = Some s ->
    exists x f, get_feature m s = Some x /\ feature_at h x = Some f /\
      f_kind f = match e_mark e with Root => FRoot | _ => FBinary end /\ f_name f = s /\ f_optional f = optional (e_mark e);
  ai_parents : forall i j s p e, closest (levels es) i j -> nth_error (labels es) i = Some s -> nth_error (labels es) j = Some p -> nth_error es j = Some e ->
    exists x y, get_feature m s = Some x /\ get_feature m p = Some y /\ hangs h x y (group_of (e_mark e));
  ai_groups : exists gs, Permutation gs (group_lines es (labels es)) /\
    Forall2 (fun q g => exists c, h_cells h q = Some c /\ n_data c = NRelationship (snd g) /\ n_parent c = get_feature m (fst g)) (m_relationships m) gs
}.
