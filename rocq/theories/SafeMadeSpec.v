(** Models made by careful use of the interface. *)
From Coq Require Import List ZArith Arith Bool Ascii String Permutation.
From Verif Require Import Text ConstraintModel ConstraintSpec ConstraintParserModel ConstraintRoundTrip SourceRangeModel FeatureTreeModel FeatureTreeSpec FeatureTransactionModel FeatureEditSpec FeatureBulkSpec FeatureRecursiveModel FeatureRecursiveSpec FeatureCloneSpec FeatureMergeSpec
  FeatureBuildSpec SxfmModel SxfmSpec SxfmFormulaSpec XmlModel XmlWriterModel XmlSpec XmlTripSpec RegisterSpec SafeSpec CopySafeSpec.
Import ListNotations.

(** Every step may use its own order of sets and maps, and its own addresses. *)
Inductive made : heap -> fmodel -> Prop :=
(** A new model. *)
| made_new h name root path commit : heap_ok h -> made (fst (new_model_with h name root path commit)) (snd (new_model_with h name root path commit))
(** A model that is built, from calls that describe one. *)
| made_built ord h cs d h' m : is_order ord -> heap_ok h -> describes cs d -> (forall c, In c cs -> fresh_call c) -> build_calls ord h cs = Some (h', Some m) -> made h' m
(** A model that is loaded, from a document that describes one. *)
| made_loaded ord sci step cwd h e cs d h' m : is_order ord -> heap_ok h -> stands sci step cwd e cs -> describes cs d -> read_xml ord sci step cwd h e = SxDone (h', Some m) -> made h' m
| made_sxfm ord sci order or_first h d n ind es cs h' m : is_order ord -> (forall l, Permutation (order l) l) -> heap_ok h -> d_name d = Some n ->
    ind = match d_indentation d with Some i => i | None => [ascii_of_nat 9] end -> indentation_ok ind ->
    (forall e, In e es -> entry_ok e /\ id_apart e) -> tree_ok es -> tree_text ind es (d_tree d) ->
    match d_constraints d with Some t => constraints_text es cs t | None => cs = [] end -> names_known es cs ->
    (forall k, exists fuel, k <= fuel /\ read_sxfm ord sci order fuel or_first h d = SxDone (h', Some m)) -> made h' m
(** A model that is saved and loaded. *)
| made_saved ord ord' sci step cwd h m h0 doc h' m' : is_order ord -> is_order ord' -> sci_nonneg sci -> heap_ok h0 -> made h m -> writable h m ->
    write_xml ord h m = Some doc -> read_xml ord' sci step cwd h0 doc = SxDone (h', Some m') -> made h' m'
(** A model that is modified. *)
| made_modified ord h m os t w e : is_order ord -> made h m -> careful ord (h, m) os -> commit_modify ord (Mtx true os) (h, m) = Some (t, w, e) -> made (fst w) (snd w)
(** A model with several features removed at once, none of which is in a constraint. *)
| made_removed ord part_order fuel h m rs w left : is_order ord -> any_partition part_order -> List.length rs < fuel -> made h m -> Forall (ref_ok m) rs -> NoDup (listed m rs) ->
    (exists i, In i (nodes m) /\ ~ In i (listed m rs)) -> (forall i, in_constraint m i -> ~ all_listed h m rs i) ->
    remove_features ord part_order fuel (h, m) rs = Some (w, left) -> made (fst w) (snd w)
(** A model while other objects are created and changed. *)
| made_left h m h' : made h m -> heap_ok h' -> h_next h <= h_next h' -> (forall i, i < h_next h -> h_cells h' i = h_cells h i) -> made h' m
(** The clone of a model. *)
| made_cloned ord map_order h m h' m' : is_order ord -> (forall l, Permutation (map_order l) l) -> made h m -> root_name_free m -> clone_model ord map_order h m = Some (h', m') -> made h' m'
(** The model handed out by a copy transaction. *)
| made_copied ord map_order h m h1 m1 os h2 t2 m' t3 : is_order ord -> (forall l, Permutation (map_order l) l) -> made h m -> root_name_free m -> open_copy ord map_order h m = Some (h1, Ctx (Some m1) true) ->
    careful_copy ord (h1, m1) os -> copy_run ord os h1 (Ctx (Some m1) true) = Some (h2, t2) -> commit_copy h2 t2 = Some (Some m', t3) -> made h2 m'
(** A model with another one merged into it. *)
| made_merged ord map_order h m1 m2 strict h' m' : is_order ord -> (forall l, Permutation (map_order l) l) -> made h m1 -> made h m2 -> root_name_free m1 ->
    root_shared m1 m2 -> mergeable strict h m1 m2 -> merge_models ord map_order h m1 m2 strict = Some (h', Some m') -> made h' m'.
