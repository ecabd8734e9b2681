(** What the lines of the constraints in an SXFM text say.  Independent of how they are
    read. *)
From Coq Require Import List NArith Arith Bool Ascii String Permutation.
From Verif Require Import Text ConstraintModel ConstraintSpec SourceRangeModel FeatureTreeModel FeatureTreeSpec FeatureTransactionModel FeatureEditSpec FeatureBuildSpec SxfmSpec.
Import ListNotations.
Local Open Scope string_scope.
Local Open Scope list_scope.

(** ** Texts cut into words *)
(** Words, each with what stands behind it. *)
Definition pieces := list (text * text).
Definition rendered (start : text) (ps : pieces) : text := start ++ flat_map (fun p => fst p ++ snd p) ps.
Definition between (s : text) : Prop := forall c, In c s -> SxfmSpec.word_char c = false.
Definition word (w : text) : Prop := w <> [] /\ forall c, In c w -> SxfmSpec.word_char c = true.
(** No word runs into the next one. *)
Fixpoint separated (ps : pieces) : Prop :=
  match ps with
  | p :: (_ :: _) as r => snd p <> [] /\ separated r
  | _ => True
  end.
Record phrase (start : text) (ps : pieces) : Prop := Phrase {
  ph_words : forall p, In p ps -> word (fst p) /\ between (snd p);
  ph_start : between start;
  ph_separated : separated ps
}.

(** ** Identifiers *)
(** The identifier is replaced by a different name. *)
Definition substituted (es : list entry) (i n : text) : Prop := stands_for es i n /\ i <> n.
(** What a word stands for: the name of an identifier, or itself. *)
Definition means (es : list entry) (w n : text) : Prop :=
  stands_for es w n \/ (forall m, ~ stands_for es w m) /\ n = w.
(** Words that the replacements do not disturb: an identifier only occurs in a word if
    that word is a greater identifier, and it does not occur in the name of a greater one. *)
Record undisturbed (es : list entry) (ws : list text) : Prop := Undisturbed {
  un_words : forall w j n, In w ws -> substituted es j n -> occurs j w -> j = w \/ exists n', substituted es w n' /\ text_lt j w;
  un_names : forall w n j n', In w ws -> substituted es w n -> substituted es j n' -> occurs j n -> text_lt w j
}.

(** ** Formulas *)
(** A possibly negated word. *)
Record literal := Literal { lit_negated : bool; lit_word : text }.
Definition sign (b : bool) : text := if b then T "~" else [].
(** [true] is [or], [false] is [and]. *)
Definition connective (o : bool) : text := if o then T "or" else T "and".
Definition connected := list (bool * literal).
Definition formula_text (l : literal) (r : connected) : text :=
  sign (lit_negated l) ++ lit_word l ++
  flat_map (fun x : bool * literal => T " " ++ connective (fst x) ++ T " " ++ sign (lit_negated (snd x)) ++ lit_word (snd x)) r.
Definition literals (l : literal) (r : connected) : list text := lit_word l :: map (fun x : bool * literal => lit_word (snd x)) r.

Definition literal_symbols (f : text -> text) (l : literal) : list sym :=
  (if lit_negated l then [SPre UNeg] else []) ++ [ConstraintSpec.SName (U (f (lit_word l)))].
(** The symbols of the formula, with words replaced. *)
Definition formula_symbols (f : text -> text) (l : literal) (r : connected) : list sym :=
  literal_symbols f l ++ flat_map (fun x : bool * literal => SInf (if fst x then BOr else BAnd) :: literal_symbols f (snd x)) r.

(** The formula is legible: its words stand for names that are identifiers of the
    constraint language, and the replacements do not disturb each other. *)
Record legible (es : list entry) (f : text -> text) (l : literal) (r : connected) : Prop := Legible {
  lg_words : forall w, In w (literals l r) -> word w /\ means es w (f w) /\ identifier (U (f w)) /\ f w <> T "and";
  lg_undisturbed : undisturbed es (literals l r ++ map (fun x : bool * literal => connective (fst x)) r);
  lg_connectives : forall o n, ~ substituted es (connective o) n
}.

(** A line with a formula and the constraint it stands for. *)
Inductive states (es : list entry) : text -> cexpr string -> Prop :=
| states_line label before l r after f c :
    ~ In ":"%char label -> one_line label -> Forall white before -> Forall white after -> legible es f l r ->
    spells (formula_symbols f l r) c ->
    states es (label ++ T ":" ++ before ++ formula_text l r ++ after) c.
Inductive stated (es : list entry) : list text -> list (cexpr string) -> Prop :=
| stated_nil : stated es [] []
| stated_blank l ls cs : Forall white l -> stated es ls cs -> stated es (l :: ls) cs
| stated_line l ls c cs : states es l c -> stated es ls cs -> stated es (l :: ls) (c :: cs).
Definition constraints_text (es : list entry) (cs : list (cexpr string)) (t : text) : Prop :=
  exists ls last, t = lines ls last /\ stated es (ls ++ [last]) cs.
(** Only features of the model are mentioned. *)
Definition names_known (es : list entry) (cs : list (cexpr string)) : Prop := forall c s, In c cs -> In s (leaves c) -> In (T s) (labels es).
