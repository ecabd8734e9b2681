(** The configurations that an SXFM text states: selections of labels, without reference to
    the model that is built. *)
From Coq Require Import List Arith Bool Ascii String.
From Verif Require Import Text ConstraintModel ConstraintSpec FeatureTreeModel FeatureTransactionModel SxfmSpec ConfigurationModel SolverModel.
Import ListNotations.

(** Formulas of names, with "~", "and" and "or". *)
Inductive formula : cexpr string -> Prop :=
| formula_name s : formula (CFeat s)
| formula_negated c : formula c -> formula (CUn UNeg c)
| formula_and l r : formula l -> formula r -> formula (CBin BAnd l r)
| formula_or l r : formula l -> formula r -> formula (CBin BOr l r).
(** The formula holds for a selection of names, or does not hold. *)
Inductive truth (sel : text -> bool) : cexpr string -> bool -> Prop :=
| truth_name s : truth sel (CFeat s) (sel (T s))
| truth_negated c b : truth sel c b -> truth sel (CUn UNeg c) (negb b)
| truth_and l r x y : truth sel l x -> truth sel r y -> truth sel (CBin BAnd l r) (x && y)
| truth_or l r x y : truth sel l x -> truth sel r y -> truth sel (CBin BOr l r) (x || y).
(** A "~" occurs in the formula. *)
Inductive negates : cexpr string -> Prop :=
| negates_here c : negates (CUn UNeg c)
| negates_below o c : negates c -> negates (CUn o c)
| negates_left o l r : negates l -> negates (CBin o l r)
| negates_right o l r : negates r -> negates (CBin o l r).

(** Entry [i] has the label [s] and stands directly below entry [j]. *)
Definition labelled (es : list entry) (i : nat) (s : text) : Prop := nth_error (labels es) i = Some s.
Definition child (es : list entry) (j i : nat) (s : text) : Prop := closest (levels es) i j /\ labelled es i s.
Definition marked (es : list entry) (i : nat) (m : mark) : Prop := exists e, nth_error es i = Some e /\ e_mark e = m.

(** The selection obeys the tree and the formulas. *)
Record stated_configuration (es : list entry) (cs : list (cexpr string)) (sel : text -> bool) : Prop := StatedConfiguration {
  sc_root : forall s, labelled es 0 s -> sel s = true;
  sc_parent : forall i j s p, child es j i s -> labelled es j p -> sel s = true -> sel p = true;
  sc_mandatory : forall i j s p m, child es j i s -> labelled es j p -> ~ marked es i Optional -> marked es j m -> (forall k, m <> Group k) ->
    sel p = true -> sel s = true;
  sc_alternative : forall j p, marked es j (Group RAlternative) -> labelled es j p -> sel p = true ->
    exists i s, child es j i s /\ sel s = true /\ forall i' s', child es j i' s' -> sel s' = true -> i' = i;
  sc_or : forall j p, marked es j (Group ROr) -> labelled es j p -> sel p = true -> exists i s, child es j i s /\ sel s = true;
  sc_formulas : forall c, In c cs -> truth sel c true
}.

(** A configuration has the labels as options, [true] if selected. *)
Definition shows_selection (es : list entry) (c : config) (sel : text -> bool) : Prop :=
  forall n s, option_value c n = Some s <-> In n (labels es) /\ s = if sel n then T "true" else T "false".
(** The list has all stated configurations, each once. *)
Record lists_stated (es : list entry) (cs : list (cexpr string)) (l : list config) : Prop := ListsStated {
  ls_sound : forall c, In c l -> exists sel, stated_configuration es cs sel /\ shows_selection es c sel;
  ls_complete : forall sel, stated_configuration es cs sel -> exists c, In c l /\ shows_selection es c sel;
  ls_once : forall i j c e, nth_error l i = Some c -> nth_error l j = Some e -> i <> j -> exists n, option_value c n <> option_value e n
}.
Definition answers_stated (es : list entry) (cs : list (cexpr string)) (r : option (outcome (list config))) : Prop :=
  (r = Some (inr Unsat) /\ forall sel, ~ stated_configuration es cs sel) \/ exists l, r = Some (inl l) /\ l <> [] /\ lists_stated es cs l.
(** No alternative group is empty. *)
Definition inhabited_groups (es : list entry) : Prop := forall j, marked es j (Group RAlternative) -> exists i s, child es j i s.
