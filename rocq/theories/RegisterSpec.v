(** What features know about the constraints of their model. *)
From Coq Require Import List ZArith Arith Bool Ascii String.
From Verif Require Import Text ConstraintModel ConstraintSpec FeatureTreeModel FeatureTreeSpec FeatureTransactionModel FeatureRecursiveModel SxfmModel XmlModel XmlSpec.
Import ListNotations.

(** The mention number [pos] of the constraint [id] is the feature [i]. *)
Definition mention_at (m : fmodel) (id pos : nat) (i : nid) : Prop :=
  exists c, In c (all_constraints m) /\ c_id c = id /\ nth_error (leaves (c_expr c)) pos = Some (Ref i).

(** The number of mentions of the feature [i]. *)
Definition how_often (i : nid) (e : cexpr cref) : nat :=
  List.length (filter (fun r => match r with Ref j => Nat.eqb j i | Own _ => false end) (leaves e)).

(** A feature of the model lists each of its mentions once; among the exclusions and
    implications it lists those with a mention of it, once for every mention. *)
Record informed (h : heap) (m : fmodel) : Prop := Informed {
  in_mentions : forall s i f id pos, get_feature m s = Some i -> feature_at h i = Some f -> (In (id, pos) (f_constraints f) <-> mention_at m id pos i);
  in_once : forall s i f, get_feature m s = Some i -> feature_at h i = Some f -> NoDup (f_constraints f);
  in_excludes : forall s i f id, get_feature m s = Some i -> feature_at h i = Some f -> (In id (f_excludes f) <-> mentioned m ClassExcludes id i);
  in_implies : forall s i f id, get_feature m s = Some i -> feature_at h i = Some f -> (In id (f_implications f) <-> mentioned m ClassImplies id i);
  in_excludes_times : forall s i f c, get_feature m s = Some i -> feature_at h i = Some f -> In c (all_constraints m) -> class_of (c_expr c) = ClassExcludes ->
    count_occ Nat.eq_dec (f_excludes f) (c_id c) = how_often i (c_expr c);
  in_implies_times : forall s i f c, get_feature m s = Some i -> feature_at h i = Some f -> In c (all_constraints m) -> class_of (c_expr c) = ClassImplies ->
    count_occ Nat.eq_dec (f_implications f) (c_id c) = how_often i (c_expr c)
}.
(** Besides, nothing is used before it is allocated, constraints are different objects, and
    features are found by their names. *)
Record registered (h : heap) (m : fmodel) : Prop := Registered {
  rg_informed : informed h m;
  rg_heap : heap_ok h;
  rg_keys : forall s i, get_feature m s = Some i -> i < h_next h;
  rg_names : forall s i f, get_feature m s = Some i -> feature_at h i = Some f -> f_name f = s;
  rg_distinct : NoDup (map c_id (all_constraints m));
  rg_ids : forall c, In c (all_constraints m) -> c_id c < h_next h;
  rg_refs : forall c i, In c (all_constraints m) -> In (Ref i) (leaves (c_expr c)) -> i < h_next h
}.
(** A feature that is added is in no constraint yet. *)
Definition fresh (f : feature) : Prop := f_constraints f = [] /\ f_excludes f = [] /\ f_implications f = [].
Definition fresh_op (o : op) : Prop := match o with OAddFeature f _ => fresh f | _ => True end.
Definition fresh_call (c : bcall) : Prop := match c with BFeature f => fresh f | _ => True end.

(** The ways in which a model is obtained. *)
Inductive obtained (ord : list nid -> list nid) : heap -> fmodel -> Prop :=
| ob_new h name root path commit : heap_ok h -> obtained ord (fst (new_model_with h name root path commit)) (snd (new_model_with h name root path commit))
| ob_modified h m t t' w e : obtained ord h m -> (forall o, In o (t_queue t) -> fresh_op o) -> commit_modify ord t (h, m) = Some (t', w, e) -> obtained ord (fst w) (snd w)
| ob_removed part_order fuel h m rs w left : obtained ord h m -> remove_features ord part_order fuel (h, m) rs = Some (w, left) -> obtained ord (fst w) (snd w)
| ob_listed part_order addr recursive fuel h m rs w left : obtained ord h m -> remove_listed ord part_order addr recursive fuel (h, m) rs = Some (w, left) -> obtained ord (fst w) (snd w)
| ob_built h cs h' m : heap_ok h -> (forall c, In c cs -> fresh_call c) -> build_calls ord h cs = Some (h', Some m) -> obtained ord h' m
| ob_cloned map_order h m h' m' : heap_ok h -> clone_model ord map_order h m = Some (h', m') -> obtained ord h' m'
| ob_copied map_order h m h1 t1 os h' t' m' t'' : heap_ok h -> (forall o, In o os -> fresh_op o) -> open_copy ord map_order h m = Some (h1, t1) -> copy_run ord os h1 t1 = Some (h', t') ->
    commit_copy h' t' = Some (Some m', t'') -> obtained ord h' m'
| ob_merged map_order h m1 m2 strict h' m' : heap_ok h -> merge_models ord map_order h m1 m2 strict = Some (h', Some m') -> obtained ord h' m'
| ob_xml sci step cwd h e h' m : heap_ok h -> read_xml ord sci step cwd h e = SxDone (h', Some m) -> obtained ord h' m
| ob_sxfm sci order fuel or_first h d h' m : heap_ok h -> read_sxfm ord sci order fuel or_first h d = SxDone (h', Some m) -> obtained ord h' m.
