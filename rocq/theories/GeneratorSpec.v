(** What the configuration generator is to write for a description. *)
From Coq Require Import List ZArith NArith Arith Bool Ascii String Sorted.
From Verif Require Import Text ConstraintModel ConstraintSpec FeatureTreeModel FeatureTreeSpec FeatureTransactionModel FeatureEditSpec FeatureBuildSpec SxfmModel XmlModel XmlSpec
  ConfigurationModel ConfigurationSpec SolverModel SolverSpec SampleModel SampleSpec DescribedSpec GeneratorModel.
Import ListNotations.

(** The names of a feature and of all features below it: parents first, siblings in ascending
    order of their lower-case names, subtrees contiguous. *)
Definition comes (f g : feature) : Prop := text_lt (lower (f_name f)) (lower (f_name g)) \/ lower (f_name f) = lower (f_name g).
Inductive listing (cs : list bcall) (d : decl) : text -> list text -> Prop :=
| listing_at s fs l : NoDup (map f_name fs) -> (forall f, In f fs <-> below cs d s f) -> StronglySorted comes fs -> listings cs d fs l -> listing cs d s (s :: l)
with listings (cs : list bcall) (d : decl) : list feature -> list text -> Prop :=
| listings_nil : listings cs d [] []
| listings_cons f fs l k : listing cs d (f_name f) l -> listings cs d fs k -> listings cs d (f :: fs) (l ++ k).

(** The flags collected over a list of names. *)
Inductive collected (P : text -> text -> Prop) : list text -> list text -> Prop :=
| col_nil : collected P [] []
| col_take s l x xs : P s x -> collected P l xs -> collected P (s :: l) (x :: xs)
| col_skip s l xs : (forall x, ~ P s x) -> collected P l xs -> collected P (s :: l) xs.

(** The flag of a feature in an assignment: its output string if it is selected, followed by
    the value if it is numeric. *)
Inductive emits (d : decl) (a : assignment) : text -> text -> Prop :=
| em_selected f : In f (snd d) -> numeric_kind (f_kind f) = false -> f_output f <> [] -> selected a (f_name f) -> emits d a (f_name f) (f_output f)
| em_value f v : In f (snd d) -> numeric_kind (f_kind f) = true -> f_output f <> [] -> shown a (f_name f) SInt v -> emits d a (f_name f) (f_output f ++ v).
(** The flag of a feature in a row of a table. *)
Inductive cell_emits (d : decl) (columns : list text) (row : text -> text) : text -> text -> Prop :=
| ce_selected f : In f (snd d) -> f_kind f = FBinary -> In (f_name f) columns -> f_output f <> [] -> row (f_name f) <> T "0" ->
    cell_emits d columns row (f_name f) (f_output f)
| ce_value f v : In f (snd d) -> f_kind f <> FBinary -> In (f_name f) columns -> f_output f <> [] -> typed (row (f_name f)) v -> as_string v <> T "false" ->
    cell_emits d columns row (f_name f) (f_output f ++ if numeric_kind (f_kind f) then as_string v else []).

(** Two assignments are the same configuration. *)
Definition same_configuration (d : decl) (a b : assignment) : Prop :=
  (forall n, numeric_name d n -> a_int a n = a_int b n) /\ (forall n, taken d n -> ~ numeric_name d n -> a_bool a n = a_bool b n).
(** The list has every configuration once. *)
Record each_once (d : decl) (P : assignment -> Prop) (l : list assignment) : Prop := EachOnce {
  eo_sound : forall a, In a l -> P a;
  eo_complete : forall a, P a -> exists b, In b l /\ same_configuration d a b;
  eo_once : forall i j a b, nth_error l i = Some a -> nth_error l j = Some b -> i <> j -> ~ same_configuration d a b
}.
(** The entries of a file: one for each member of a list, under its index, in the order of
    the texts of the indices. *)
Definition entries {A} (flags : A -> list text -> Prop) (l : list A) (es : list (text * text)) : Prop :=
  StronglySorted (fun x y => text_lt (fst x) (fst y)) es /\
  forall k v, In (k, v) es <-> exists n x xs, nth_error l n = Some x /\ k = print_N (N.of_nat n) /\ flags x xs /\ v = listed_text xs.
(** The solver loaded for a document; the solver program decides its formulas. *)
Definition solves ord sci step cwd (check : list bterm -> option assignment) fuel h e : Prop :=
  exists s, match read_xml ord sci step cwd h e with SxDone (h', Some m') => SolverModel.load ord fuel h' m' | _ => None end = Some s /\ decides check (s_vars s) (s_asserted s).
(** The entries are put into the output file, if there is to be one. *)
Definition delivered (w : files) (c : command) (es : list (text * text)) (r : ending) : Prop :=
  (g_out c = [] /\ r = Exit 0 None) \/ (g_out c <> [] /\ can_write w (g_out c) = true /\ r = Exit 0 (Some es)) \/
  (g_out c <> [] /\ can_write w (g_out c) = false /\ r = Exit 1 None).
