(** Modifications of feature models, transactions, the model builder and cloning.
    Models include/vara/Feature/FeatureModelTransaction.h,
    lib/Feature/FeatureModelTransaction.cpp, include/vara/Feature/FeatureModelBuilder.h,
    lib/Feature/FeatureModelBuilder.cpp and FeatureModel::clone.

    As in FeatureTreeModel.v, [None] stands for undefined behaviour, a failed
    assertion or non-termination. *)
From Coq Require Import List ZArith Arith Bool Ascii String.
From Verif Require Import Text ConstraintModel SourceRangeModel FeatureTreeModel.
Import ListNotations.

(** [FTErrorCode] (Error.h:17-28). *)
Inductive ftcode :=
| ABORTED | ALREADY_PRESENT | ERROR | INCONSISTENT | MISSING_FEATURE | MISSING_MODEL
| MISSING_PARENT | MISSING_CHILD | NON_LEAF_NODE | RECURSIVE_EDGE.

(** A model and the heap it lives in. *)
Definition world := (heap * fmodel)%type.
(** The world after a modification, and the error if it failed. *)
Definition result := option (world * option ftcode).
Definition success (w : world) : result := Some (w, None).
Definition failure (e : ftcode) (w : world) : result := Some (w, Some e).

(** [FeatureVariantTy] and [FeatureTreeNodeVariantTy] (FeatureModelTransaction.h:30-31). *)
Inductive nref := ByName (s : text) | ByPtr (n : nid).
Definition resolve (m : fmodel) (r : nref) : option nid :=
  match r with ByName s => get_feature m s | ByPtr n => Some n end.

(** The three kinds of constraints of a model. *)
Inductive ckind := KBoolean | KNonBoolean | KMixed (r : creq) (k : cexprkind).

(** The modifications with their constructor arguments. *)
Inductive op :=
| OAddFeature (f : feature) (parent : option nid)
| ORemoveFeature (r : nref) (recursive : bool)
| OAddRelationship (k : rkind) (r : nref)
| ORemoveRelationship (r : nref)
| OAddLocation (r : nref) (l : source_range)
| ORemoveLocation (r : nref) (l : source_range)
| OAddConstraint (k : ckind) (c : cexpr cref)
| OSetName (s : text)
| OSetCommit (s : text)
| OSetPath (s : text)
| OSetRoot (s : text)
| OAddChild (parent child : nref).

(** Makes [p] the parent of [c] and [c] a child of [p]. *)
Definition link (h : heap) (p c : nid) : option heap :=
  let* h1 := set_parent h c (Some p) in add_edge h1 p c.

(** [AddFeatureToModel] (FeatureModelTransaction.h:307-320). *)
Definition exec_add_feature (h : heap) (m : fmodel) (f : feature) (parent : option nid) : result :=
  match store_feature h m f with
  | None => failure ALREADY_PRESENT (h, m)
  | Some (i, h1, m1) =>
      match parent with
      | Some p => let* h2 := link h1 p i in success (h2, m1)
      | None =>
          match m_root m1 with
          | Some r => let* h2 := link h1 r i in success (h2, m1)
          | None => success (h1, m1)
          end
      end
  end.

(** [removeEdge( *F->getParent(), *F); removeFeature(FM, *F)]
    (FeatureModelTransaction.h:376-377). *)
Definition detach (h : heap) (m : fmodel) (f : nid) : option world :=
  let* c := h_cells h f in
  let* p := n_parent c in
  let* h1 := remove_edge h p f in
  erase_feature h1 m f.

Section Order.
Variable ord : list nid -> list nid.

(** Recursive removal (FeatureModelTransaction.h:358-367, 376-378). *)
Fixpoint remove_tree (fuel : nat) (w : world) (f : nid) : option world :=
  match fuel with
  | 0 => None
  | S k =>
      let* cs := child_features ord (fst w) f in
      let* w1 := fold_left (fun o c => let* w := o in remove_tree k w c) cs (Some w) in
      let* rs := child_relationships ord (fst w1) f in
      let* w2 := fold_left (fun o r => let* w := o in
                   let* h := remove_edge (fst w) f r in
                   erase_relationship h (snd w) r) rs (Some w1) in
      detach (fst w2) (snd w2) f
  end.

(** [RemoveFeatureFromModel] (FeatureModelTransaction.h:346-379). *)
Definition exec_remove_feature (h : heap) (m : fmodel) (r : nref) (recursive : bool) : result :=
  match resolve m r with
  | None => failure MISSING_FEATURE (h, m)
  | Some f =>
      if recursive then let* w := remove_tree (S (h_next h)) (h, m) f in success w
      else
        let* cs := child_features ord h f in
        match cs with
        | _ :: _ => failure NON_LEAF_NODE (h, m)
        | [] =>
            let* rs := child_relationships ord h f in
            let* w := match rs with
                      | [] => Some (h, m)
                      | r :: _ => erase_relationship h m r
                      end in
            let* w' := detach (fst w) (snd w) f in
            success w'
        end
  end.

(** Moves the children [cs] from node [a] to node [b], in this order; the assertions
    are those of FeatureModelTransaction.h:422 and 472. *)
Fixpoint regroup (h : heap) (a b : nid) (cs : list nid) : option heap :=
  match cs with
  | [] => Some h
  | c :: r =>
      let* ca := h_cells h a in
      let* cc := h_cells h c in
      if mem c (n_edges ca) && match n_parent cc with Some p => Nat.eqb p a | None => false end then
        let* h1 := remove_edge h a c in
        let* h2 := add_edge h1 b c in
        let* h3 := set_parent h2 c (Some b) in
        regroup h3 a b r
      else None
  end.

(** [AddRelationshipToModel] (FeatureModelTransaction.h:404-429). *)
Definition exec_add_relationship (h : heap) (m : fmodel) (k : rkind) (r : nref) : result :=
  let '(i, h1, m1) := store_relationship h m k in
  let* p := resolve m1 r in
  let* h2 := link h1 p i in
  let* cs := child_features ord h2 p in
  let* h3 := regroup h2 p i cs in
  success (h3, m1).

(** [RemoveRelationshipFromModel] (FeatureModelTransaction.h:455-479). *)
Definition exec_remove_relationship (h : heap) (m : fmodel) (r : nref) : result :=
  match resolve m r with
  | None => failure MISSING_PARENT (h, m)
  | Some p =>
      let* rs := child_relationships ord h p in
      match rs with
      | [] => None
      | i :: _ =>
          let* h1 := remove_edge h p i in
          let* cs := child_features ord h1 i in
          let* h2 := regroup h1 i p cs in
          let* w := erase_relationship h2 m i in
          success w
      end
  end.

(** Changes a feature in place. *)
Definition modify_feature (h : heap) (i : nid) (g : feature -> option feature) : option heap :=
  let* c := h_cells h i in
  match n_data c with
  | NFeature f => let* f' := g f in Some (h_set h i (Some (Cell (NFeature f') (n_parent c) (n_edges c))))
  | NRelationship _ => None
  end.
Definition with_locations (f : feature) (ls : list source_range) : feature :=
  Feature (f_kind f) (f_name f) (f_output f) ls (f_constraints f) (f_excludes f) (f_implications f) (f_optional f).

(** [AddLocationToFeature], [RemoveLocationFromFeature]
    (FeatureModelTransaction.h:503-513, 538-548). *)
Definition exec_add_location (h : heap) (m : fmodel) (r : nref) (l : source_range) : result :=
  let* i := resolve m r in
  let* h1 := modify_feature h i (fun f => Some (with_locations f (add_location (f_locations f) l))) in
  success (h1, m).
Definition exec_remove_location (h : heap) (m : fmodel) (r : nref) (l : source_range) : result :=
  let* i := resolve m r in
  let* h1 := modify_feature h i (fun f => let* ls := remove_location (f_locations f) l in Some (with_locations f ls)) in
  success (h1, m).

(** What [getRoot()] of a mention is classified as (Feature.h:194-201). *)
Inductive cclass := ClassImplies | ClassExcludes | ClassOther.
Definition class_of (c : cexpr cref) : cclass :=
  match c with
  | CBin BImplies _ _ => ClassImplies
  | CBin BExcludes _ _ => ClassExcludes
  | _ => ClassOther
  end.

(** [Feature::addConstraint] (Feature.h:193-201). *)
Definition register (cl : cclass) (id pos : nat) (f : feature) : feature :=
  Feature (f_kind f) (f_name f) (f_output f) (f_locations f) (f_constraints f ++ [(id, pos)])
    (match cl with ClassExcludes => f_excludes f ++ [id] | _ => f_excludes f end)
    (match cl with ClassImplies => f_implications f ++ [id] | _ => f_implications f end)
    (f_optional f).

(** The name of a mention: [getFeature()->getName()]. *)
Definition cref_name (h : heap) (r : cref) : option text :=
  match r with Own s => Some s | Ref n => name_at h n end.

(** The visitor that connects a constraint (FeatureModelTransaction.h:587-605) over the
    default visitor (Constraint.h:636-648), which visits both operands in any case.
    [pos] counts the mentions. *)
Fixpoint connect (m : fmodel) (cl : cclass) (id : nat) (c : cexpr cref) (pos : nat) (h : heap)
    : option (cexpr cref * nat * heap * bool) :=
  match c with
  | CBin o l r =>
      let* (l', p1, h1, b1) := connect m cl id l pos h in
      let* (r', p2, h2, b2) := connect m cl id r p1 h1 in
      Some (CBin o l' r', p2, h2, b1 && b2)
  | CUn o e =>
      let* (e', p1, h1, b1) := connect m cl id e pos h in
      Some (CUn o e', p1, h1, b1)
  | CInt n => Some (CInt n, pos, h, true)
  | CFeat r =>
      let* s := cref_name h r in
      match get_feature m s with
      | None => Some (CFeat r, S pos, h, false)
      | Some i =>
          let* h1 := modify_feature h i (fun f => Some (register cl id pos f)) in
          Some (CFeat (Ref i), S pos, h1, true)
      end
  end.

Definition store_constraint (m : fmodel) (k : ckind) (c : mconstraint) : fmodel :=
  match k with
  | KBoolean => with_boolean m (m_boolean m ++ [c])
  | KNonBoolean => with_nonboolean m (m_nonboolean m ++ [c])
  | KMixed r e => with_mixed m (m_mixed m ++ [Mixed c r e])
  end.

(** [AddConstraintToModel] (FeatureModelTransaction.h:574-584).  The constraint is
    stored first and connected in place. *)
Definition exec_add_constraint (h : heap) (m : fmodel) (k : ckind) (c : cexpr cref) : result :=
  let id := h_next h in
  let* (c', _, h1, ok) := connect m (class_of c) id c 0 (Heap (h_cells h) (S id)) in
  let w := (h1, store_constraint m k (MConstraint id c')) in
  if (ok : bool) then success w else failure MISSING_FEATURE w.

(** Attaches the children [cs] to [new] (FeatureModelTransaction.h:724-727) and removes
    those of [new] from [old] (728-732). *)
Fixpoint attach_all (h : heap) (new : nid) (cs : list nid) : option heap :=
  match cs with [] => Some h | c :: r => let* h1 := link h new c in attach_all h1 new r end.
Fixpoint detach_all (h : heap) (old : nid) (cs : list nid) : option heap :=
  match cs with [] => Some h | c :: r => let* h1 := remove_edge h old c in detach_all h1 old r end.

(** [SetRoot] (FeatureModelTransaction.h:706-738).  The new root object has no
    children, so if the name is that of the current root nothing happens. *)
Definition exec_set_root (h : heap) (m : fmodel) (s : text) : result :=
  let insert :=
    match store_feature h m (root_feature s) with
    | None => failure ALREADY_PRESENT (h, m)
    | Some (i, h1, m1) =>
        match m_root m1 with
        | None => success (h1, with_root m1 (Some i))
        | Some r =>
            let* c := h_cells h1 r in
            let* h2 := attach_all h1 i (n_edges c) in
            let* ci := h_cells h2 i in
            let* h3 := detach_all h2 r (n_edges ci) in
            let* (h4, m2) := erase_feature h3 m1 r in
            success (h4, with_root m2 (Some i))
        end
    end in
  match m_root m with
  | None => insert
  | Some r => let* t := name_at h r in if text_eqb t s then success (h, m) else insert
  end.

(** [AddChild] (FeatureModelTransaction.h:761-796). *)
Definition exec_add_child (h : heap) (m : fmodel) (parent child : nref) : result :=
  match resolve m child with
  | None => failure MISSING_CHILD (h, m)
  | Some c =>
      match resolve m parent with
      | None => failure MISSING_PARENT (h, m)
      | Some p =>
          if Nat.eqb c p then failure RECURSIVE_EDGE (h, m)
          else
            let* cc := h_cells h c in
            let* h1 := match n_parent cc with Some q => remove_edge h q c | None => Some h end in
            let* h2 := add_edge h1 p c in
            let* h3 := set_parent h2 c (Some p) in
            success (h3, m)
      end
  end.

(** [exec] of every modification. *)
Definition exec (o : op) (w : world) : result :=
  let (h, m) := w in
  match o with
  | OAddFeature f p => exec_add_feature h m f p
  | ORemoveFeature r b => exec_remove_feature h m r b
  | OAddRelationship k r => exec_add_relationship h m k r
  | ORemoveRelationship r => exec_remove_relationship h m r
  | OAddLocation r l => exec_add_location h m r l
  | ORemoveLocation r l => exec_remove_location h m r l
  | OAddConstraint k c => exec_add_constraint h m k c
  | OSetName s => success (h, with_name m s)
  | OSetCommit s => success (h, with_commit m s)
  | OSetPath s => success (h, with_path m s)
  | OSetRoot s => exec_set_root h m s
  | OAddChild p c => exec_add_child h m p c
  end.

(** A modify transaction (FeatureModelTransaction.h:1093-1095): whether it is open
    ([Continue] and a model) and the queued modifications. *)
Record mtx := Mtx { t_open : bool; t_queue : list op }.
Definition mtx_start : mtx := Mtx true [].
(** The modifications that assert a model when they are queued
    (FeatureModelTransaction.h:1012, 1054, 1062, 1070, 1078, 1087). *)
Definition asserts_model (o : op) : bool :=
  match o with
  | OAddFeature _ _ | OSetName _ | OSetCommit _ | OSetPath _ | OSetRoot _ | OAddChild _ _ => true
  | _ => false
  end.
(** Queueing (FeatureModelTransaction.h:1011-1091). *)
Definition enqueue (t : mtx) (o : op) : option mtx :=
  if t_open t || negb (asserts_model o) then Some (Mtx (t_open t) (t_queue t ++ [o])) else None.

(** The loop of [commitImpl]: stops at the first error. *)
Fixpoint run (ops : list op) (w : world) : result :=
  match ops with
  | [] => success w
  | o :: r =>
      let* (w1, e) := exec o w in
      match e with Some c => failure c w1 | None => run r w1 end
  end.

(** [commitImpl] (FeatureModelTransaction.h:978-997) and [abortImpl] (999-1002). *)
Definition commit_modify (t : mtx) (w : world) : option (mtx * world * option ftcode) :=
  if t_open t then
    let* (w1, e) := run (t_queue t) w in
    match e with
    | Some c => Some (Mtx false (t_queue t), w1, Some c)
    | None =>
        let* ok := consistent (fst w1) (snd w1) in
        Some (Mtx false (t_queue t), w1, if (ok : bool) then None else Some INCONSISTENT)
    end
  else Some (Mtx false (t_queue t), w, Some ABORTED).
Definition abort_modify (t : mtx) : mtx := Mtx false (t_queue t).
(** The destructor (FeatureModelTransaction.h:63-76). *)
Definition destroy_modify (t : mtx) (w : world) : option world :=
  if t_open t then let* (_, w1, _) := commit_modify t w in Some w1 else Some w.

(** ** The model builder *)
(** The builder (FeatureModelBuilder.h:105-112): its model and three transactions. *)
Record builder := Builder { b_model : option fmodel; b_features : mtx; b_tree : mtx; b_relations : mtx }.

Definition builder_start (h : heap) : heap * builder :=
  let (h1, m) := new_model h in (h1, Builder (Some m) mtx_start mtx_start mtx_start).

(** The calls on a builder (FeatureModelBuilder.h:42-97). *)
Inductive bcall :=
| BFeature (f : feature)
| BRoot (s : text)
| BEdge (parent child : text)
| BRelationship (k : rkind) (parent : text)
| BConstraint (k : ckind) (c : cexpr cref)
| BName (s : text)
| BCommit (s : text)
| BPath (s : text).
Definition builder_call (b : builder) (c : bcall) : option builder :=
  let '(Builder m f t r) := b in
  let on_features o := let* f' := enqueue f o in Some (Builder m f' t r) in
  let on_tree o := let* t' := enqueue t o in Some (Builder m f t' r) in
  let on_relations o := let* r' := enqueue r o in Some (Builder m f t r') in
  match c with
  | BFeature x => on_features (OAddFeature x None)
  | BRoot s => on_features (OSetRoot s)
  | BEdge p s => on_tree (OAddChild (ByName p) (ByName s))
  | BRelationship k p => on_relations (OAddRelationship k (ByName p))
  | BConstraint k x => on_relations (OAddConstraint k x)
  | BName s => on_tree (OSetName s)
  | BCommit s => on_tree (OSetCommit s)
  | BPath s => on_tree (OSetPath s)
  end.

(** [buildFeatureModel] (FeatureModelBuilder.cpp:9-32): the heap, the model or null,
    and the builder afterwards. *)
Definition build (h : heap) (b : builder) : option (heap * option fmodel * builder) :=
  match b_model b with
  | None => None
  | Some m =>
      let* (f, w1, e1) := commit_modify (b_features b) (h, m) in
      match e1 with
      | Some _ => Some (fst w1, None, Builder (Some (snd w1)) f (abort_modify (b_tree b)) (abort_modify (b_relations b)))
      | None =>
          let* (t, w2, e2) := commit_modify (b_tree b) w1 in
          match e2 with
          | Some _ => Some (fst w2, None, Builder (Some (snd w2)) f t (abort_modify (b_relations b)))
          | None =>
              let* (r, w3, e3) := commit_modify (b_relations b) w2 in
              match e3 with
              | Some _ => Some (fst w3, None, Builder (Some (snd w3)) f t r)
              | None => Some (fst w3, Some (snd w3), Builder None f t r)
              end
          end
      end
  end.

(** A sequence of calls on a new builder followed by building. *)
Definition build_calls (h : heap) (cs : list bcall) : option (heap * option fmodel) :=
  let (h1, b) := builder_start h in
  let* b1 := fold_left (fun o c => let* b := o in builder_call b c) cs (Some b) in
  let* (h2, m, _) := build h1 b1 in
  Some (h2, m).

(** ** Cloning a model *)
(** The iteration order of the hash map of features. *)
Variable map_order : list (text * nid) -> list (text * nid).

(** The mention of a cloned constraint owns a new feature of the same name
    (Constraint.cpp:24-27). *)
Fixpoint clone_expr (h : heap) (c : cexpr cref) : option (cexpr cref) :=
  match c with
  | CBin o l r => let* l' := clone_expr h l in let* r' := clone_expr h r in Some (CBin o l' r')
  | CUn o e => let* e' := clone_expr h e in Some (CUn o e')
  | CInt n => Some (CInt n)
  | CFeat r => let* s := cref_name h r in Some (CFeat (Own s))
  end.

Fixpoint map_option {A B} (f : A -> option B) (l : list A) : option (list B) :=
  match l with
  | [] => Some []
  | a :: r => let* b := f a in let* bs := map_option f r in Some (b :: bs)
  end.

(** The calls for one feature (FeatureModel.cpp:51-82). *)
Definition clone_feature (h : heap) (i : nid) : option (list bcall) :=
  let* f := feature_at h i in
  let* q := parent_feature h i in
  let make :=
    match f_kind f with
    | FUnknown => BFeature (new_feature FUnknown (f_name f) false [] [])
    | FRoot => BRoot (f_name f)
    | FBinary => BFeature (new_feature FBinary (f_name f) (f_optional f) (f_locations f) [])
    | FNumeric v _ => BFeature (new_feature (FNumeric v None) (f_name f) (f_optional f) (f_locations f) [])
    end in
  match q with
  | None => Some [make]
  | Some p => let* s := name_at h p in Some [make; BEdge s (f_name f)]
  end.

(** The calls for one relationship (FeatureModel.cpp:84-88). *)
Definition clone_relationship (h : heap) (i : nid) : option (list bcall) :=
  let* c := h_cells h i in
  match n_data c, n_parent c with
  | NRelationship k, Some p =>
      let* cp := h_cells h p in
      match n_data cp with
      | NFeature f => Some [BRelationship k (f_name f)]
      | NRelationship _ => Some []
      end
  | NRelationship _, None => Some []
  | NFeature _, _ => None
  end.

Definition clone_constraint (h : heap) (k : ckind) (c : mconstraint) : option bcall :=
  let* e := clone_expr h (c_expr c) in Some (BConstraint k e).

(** [FeatureModel::clone] (FeatureModel.cpp:44-113). *)
Definition clone_calls (h : heap) (m : fmodel) : option (list bcall) :=
  let* fs := map_option (fun e => clone_feature h (snd e)) (map_order (m_features m)) in
  let* rs := map_option (clone_relationship h) (m_relationships m) in
  let* bs := map_option (clone_constraint h KBoolean) (m_boolean m) in
  let* ns := map_option (clone_constraint h KNonBoolean) (m_nonboolean m) in
  let* xs := map_option (fun x => clone_constraint h (KMixed (x_req x) (x_kind x)) (x_con x)) (m_mixed m) in
  Some ([BName (m_name m); BCommit (m_commit m); BPath (m_path m)] ++ List.concat fs ++ List.concat rs ++ bs ++ ns ++ xs).
Definition clone_model (h : heap) (m : fmodel) : option (heap * fmodel) :=
  let* cs := clone_calls h m in
  let* (h1, r) := build_calls h cs in
  let* m' := r in
  Some (h1, m').

(** ** Copy transactions *)
(** A copy transaction (FeatureModelTransaction.h:965-971): the working copy, if any,
    and [Continue]. *)
Record ctx := Ctx { x_copy : option fmodel; x_continue : bool }.

Definition ctx_start (h : heap) (m : fmodel) : option (heap * ctx) :=
  let* (h1, m1) := clone_model h m in Some (h1, Ctx (Some m1) true).

(** [translateFeature( *visit(...))] (FeatureModelTransaction.h:844-852, 967-969): a name
    that is not found is dereferenced. *)
Definition translate (h : heap) (m : fmodel) (r : nref) : option (option nid) :=
  let* i := resolve m r in
  let* s := name_at h i in
  Some (get_feature m s).

Definition translated (o : option nid) (f : nref -> op) (null : result) (w : world) : result :=
  match o with Some i => exec (f (ByPtr i)) w | None => null end.

(** The calls that return nothing drop the error. *)
Definition reported (o : op) (e : option ftcode) : option ftcode :=
  match o with
  | OAddFeature _ _ | OAddRelationship _ _ | OAddConstraint _ _ | OSetRoot _ => e
  | _ => None
  end.

(** The calls of a copy transaction (FeatureModelTransaction.h:829-963), executed at once.
    [OAddChild] builds a modification object and never executes it (960-963). *)
Definition copy_exec (o : op) (h : heap) (t : ctx) : option (heap * ctx * option ftcode) :=
  match x_copy t with
  | None =>
      match o with
      | OAddFeature _ _ | OAddRelationship _ _ | OAddConstraint _ _ | OSetRoot _ => Some (h, t, Some ERROR)
      | OAddChild _ _ => Some (h, t, None)
      | _ => None
      end
  | Some m =>
      let w := (h, m) in
      let* (w1, e) :=
        match o with
        | OAddFeature f (Some p) => let* s := name_at h p in exec (OAddFeature f (get_feature m s)) w
        | OAddFeature f None => exec o w
        | ORemoveFeature r b => let* i := translate h m r in
            translated i (fun q => ORemoveFeature q b) (failure MISSING_FEATURE w) w
        | OAddRelationship k r => let* i := translate h m r in translated i (OAddRelationship k) None w
        | ORemoveRelationship r => let* i := translate h m r in
            translated i ORemoveRelationship (failure MISSING_PARENT w) w
        | OAddLocation r l => let* i := translate h m r in translated i (fun q => OAddLocation q l) None w
        | ORemoveLocation r l => let* i := translate h m r in translated i (fun q => ORemoveLocation q l) None w
        | OAddConstraint _ _ | OSetName _ | OSetCommit _ | OSetPath _ | OSetRoot _ => exec o w
        | OAddChild _ _ => success w
        end in
      Some (fst w1, Ctx (Some (snd w1)) (x_continue t), reported o e)
  end.

(** [commitImpl] (FeatureModelTransaction.h:811-817) and [abortImpl] (819-822): the
    model handed out, or [ABORTED]. *)
Definition commit_copy (h : heap) (t : ctx) : option (option fmodel * ctx) :=
  match x_copy t with
  | Some m =>
      if x_continue t then
        let* ok := consistent h m in
        if (ok : bool) then Some (Some m, Ctx None true) else Some (None, Ctx None false)
      else Some (None, Ctx None false)
  | None => Some (None, Ctx None false)
  end.
Definition abort_copy (t : ctx) : ctx := Ctx None false.

(** Several calls in a row; errors do not stop them. *)
Fixpoint copy_run (os : list op) (h : heap) (t : ctx) : option (heap * ctx) :=
  match os with
  | [] => Some (h, t)
  | o :: r => let* (h1, t1, _) := copy_exec o h t in copy_run r h1 t1
  end.

(** [openTransaction] (FeatureModelTransaction.h:50-54) asserts consistency. *)
Definition open_copy (h : heap) (m : fmodel) : option (heap * ctx) :=
  let* ok := consistent h m in if (ok : bool) then ctx_start h m else None.
Definition open_modify (w : world) : option mtx :=
  let* ok := consistent (fst w) (snd w) in if (ok : bool) then Some mtx_start else None.

(** ** Bulk removal *)
(** [std::partition] leaves the order within both parts open. *)
Variable part_order : list nref -> list nref.

(** [fvIsLeaf] (FeatureModelTransaction.cpp:53-60) with [value_or(false)]. *)
Definition ref_is_leaf (w : world) (r : nref) : option bool :=
  match resolve (snd w) r with
  | None => Some false
  | Some i => is_leaf (fst w) i
  end.

Fixpoint filter_option {A} (p : A -> option bool) (l : list A) : option (list A * list A) :=
  match l with
  | [] => Some ([], [])
  | a :: r =>
      let* b := p a in
      let* (x, y) := filter_option p r in
      Some (if (b : bool) then (a :: x, y) else (x, a :: y))
  end.

(** [removeFeatures] (FeatureModelTransaction.cpp:88-139) with [Recursive] false: the
    world afterwards and the features that were not deleted.  The recursive mode,
    which intersects sets in address order, is in FeatureRecursiveModel.v. *)
Fixpoint remove_features (fuel : nat) (w : world) (rs : list nref) : option (world * list nref) :=
  match fuel with
  | 0 => None
  | S k =>
      match rs with
      | [] => Some (w, [])
      | _ =>
          let* (yes, no) := filter_option (ref_is_leaf w) rs in
          match yes with
          | [] => Some (w, part_order no)
          | _ =>
              let* t := open_modify w in
              let* (_, w1, _) := commit_modify (Mtx (t_open t) (map (fun r => ORemoveFeature r false) (part_order yes))) w in
              remove_features k w1 (part_order no)
          end
      end
  end.

(** ** Merging *)
Definition same_kind (a b : fkind) : bool :=
  match a, b with
  | FBinary, FBinary | FNumeric _ _, FNumeric _ _ | FRoot, FRoot | FUnknown, FUnknown => true
  | _, _ => false
  end.
Fixpoint zs_eqb (a b : list Z) : bool :=
  match a, b with
  | [], [] => true
  | x :: a', y :: b' => Z.eqb x y && zs_eqb a' b'
  | _, _ => false
  end.
Definition values_eqb (a b : values) : bool :=
  match a, b with
  | VRange x y, VRange x' y' => Z.eqb x x' && Z.eqb y y'
  | VList l, VList r => zs_eqb l r
  | _, _ => false
  end.

(** [compareProperties] (FeatureModelTransaction.cpp:228-265). *)
Definition compare_properties (h : heap) (a b : nid) (strict : bool) : option bool :=
  let* f := feature_at h a in
  let* g := feature_at h b in
  if negb (text_eqb (f_name f) (f_name g)) then Some false
  else
    let* same_parent :=
      if is_root_kind f || is_root_kind g then Some true
      else
        let* p := parent_feature h a in
        let* q := parent_feature h b in
        let* i := p in
        let* j := q in
        let* u := lower_at h i in
        let* v := lower_at h j in
        Some (text_eqb u v) in
    if negb same_parent then Some false
    else if negb strict then Some true
    else if negb (Bool.eqb (f_optional f) (f_optional g)) then Some false
    else if negb (same_kind (f_kind f) (f_kind g)) then Some false
    else if is_root_kind f then Some true
    else
      let* ca := h_cells h a in
      let* cb := h_cells h b in
      let* p := n_parent ca in
      let* q := n_parent cb in
      let* cp := h_cells h p in
      let* cq := h_cells h q in
      if negb (Bool.eqb (is_feature (n_data cp)) (is_feature (n_data cq))) then Some false
      else match f_kind f, f_kind g with
           | FBinary, _ => Some true
           | FNumeric v _, FNumeric v' _ => Some (values_eqb v v')
           | _, _ => Some false
           end.

(** [featureCopy] (FeatureModelTransaction.cpp:205-226). *)
Definition feature_copy (f : feature) : option feature :=
  match f_kind f with
  | FBinary => Some (new_feature FBinary (f_name f) (f_optional f) (f_locations f) [])
  | FNumeric v _ => Some (new_feature (FNumeric v None) (f_name f) (f_optional f) (f_locations f) [])
  | FRoot => Some (root_feature (f_name f))
  | FUnknown => None
  end.

(** The locations of [F] that [CMP] does not have
    (FeatureModelTransaction.cpp:179-184). *)
Definition missing_locations (cmp f : feature) : list source_range :=
  filter (fun l => negb (existsb (range_eqb l) (f_locations cmp))) (f_locations f).

(** [mergeSubtree] (FeatureModelTransaction.cpp:172-203): the first component is false
    if merging failed. *)
Fixpoint merge_subtree (fuel : nat) (strict : bool) (m1 : fmodel) (f : nid) (h : heap) (t : ctx)
    : option (bool * heap * ctx) :=
  match fuel with
  | 0 => None
  | S k =>
      let* x := feature_at h f in
      let* (ok, h1, t1) :=
        match get_feature m1 (f_name x) with
        | Some c =>
            let* same := compare_properties h c f strict in
            if (same : bool) then
              let* y := feature_at h c in
              let* (h1, t1) := copy_run (map (OAddLocation (ByPtr c)) (missing_locations y x)) h t in
              Some (true, h1, t1)
            else Some (false, h, t)
        | None =>
            match feature_copy x with
            | None => Some (false, h, t)
            | Some y =>
                let* p := parent_feature h f in
                let* (h1, t1, _) := copy_exec (OAddFeature y p) h t in
                Some (true, h1, t1)
            end
        end in
      if negb ok then Some (false, h1, t1)
      else
        let* cs := child_features ord h1 f in
        fold_left (fun o c =>
          let* (b, h2, t2) := o in
          if (b : bool) then merge_subtree k strict m1 c h2 t2 else Some (false, h2, t2))
          cs (Some (true, h1, t1))
  end.

(** [mergeFeatureModels] (FeatureModelTransaction.cpp:162-170): the merged model or null.
    A failed commit is dereferenced. *)
Definition merge_models (h : heap) (m1 m2 : fmodel) (strict : bool) : option (heap * option fmodel) :=
  let* (h1, t) := open_copy h m1 in
  let* r := m_root m2 in
  let* (ok, h2, t2) := merge_subtree (S (h_next h)) strict m1 r h1 t in
  if negb ok then Some (h2, None)
  else
    let* (m, _) := commit_copy h2 t2 in
    let* m' := m in
    Some (h2, Some m').

End Order.
