(** Examples for the outcome of reading documents. *)
From Coq Require Import List ZArith NArith Arith Bool Ascii String Permutation Lia.
From Verif Require Import Text TextProofs LlvmInt ConstraintModel ConstraintParserModel ConstraintSpec SourceRangeModel StepFunctionModel FeatureTreeModel FeatureTreeSpec FeatureTransactionModel
  FeatureEditSpec FeatureTransactionExamples FeatureBuildSpec FeatureBuildExamples SxfmModel SxfmExamples XmlModel XmlWriterModel XmlSpec XmlReadProofs XmlFinal XmlExamples
  OutcomeSpec OutcomeProofs OutcomeFinal OutcomeExamples XmlOutcomeSpec XmlOutcomeProofs.
Import ListNotations.
Local Open Scope string_scope.
Local Open Scope list_scope.
Local Open Scope nat_scope.

Definition with_parent (s p : string) : xml := opt [leaf_elem "name" (T s); leaf_elem "parent" (T p)].
Definition vm (es : list xml) : xml := Elem (T "vm") [(T "name", T "m")] [] es.
Definition edge_of (s p : string) : list bcall := [BEdge (T p) (T s); BFeature (new_feature FBinary (T s) false [] [])].

(** A document that is read, one that is refused, and one that yields null. *)
Definition doc_two : xml := vm [elem "binaryOptions" [opt [leaf_elem "name" (T "root")]; with_parent "a" "root"; opt [leaf_elem "name" (T "c"); leaf_elem "parent" (T "root"); names "children" ["a"]]]].
Definition doc_unknown : xml := vm [elem "binaryOptions" [opt [leaf_elem "name" (T "root")]; with_parent "a" "x"]; elem "booleanConstraints" [leaf_elem "constraint" (T "a")]].
Lemma well_written1 : well_written no_step doc1.
Proof. exact (stands_written no_sci no_step (T "/tmp") doc1 calls1 stands1). Qed.
Lemma binary_written es : (forall o, In o es -> filled "locations" (elems o) = []) -> well_written no_step (vm [elem "binaryOptions" es]).
Proof.
  intros F c [<-|[]]. split; [|split; [discriminate|split; [intros [X|[X|X]]; discriminate X|discriminate]]]. intros _ o I. split; [|discriminate]. intros l r X. rewrite (F o I) in X. destruct X.
Qed.
Lemma outcome_examples :
  valid doc1 = true /\ well_written no_step doc1 /\ (exists h' m', read_xml order no_sci no_step (T "/tmp") heap0 doc1 = SxDone (h', Some m')) /\
  valid doc_two = true /\ well_written no_step doc_two /\ read_xml order no_sci no_step (T "/tmp") heap0 doc_two = SxRefused /\
  valid doc_unknown = true /\ well_written no_step doc_unknown /\ (exists h', read_xml order no_sci no_step (T "/tmp") heap0 doc_unknown = SxDone (h', None)).
Proof.
  split; [vm_compute; reflexivity|]. split; [exact well_written1|]. split; [eexists _, _; vm_compute; reflexivity|].
  split; [vm_compute; reflexivity|]. split; [apply binary_written; intros o [<-|[<-|[<-|[]]]]; reflexivity|]. split; [vm_compute; reflexivity|].
  split; [vm_compute; reflexivity|]. split; [|eexists; vm_compute; reflexivity].
  apply (stands_written no_sci no_step (T "/tmp") doc_unknown
    ([BName (T "m"); BPath (T "/tmp"); BCommit []; BRoot (T "root")] ++ edge_of "a" "x" ++ [BConstraint KBoolean (CFeat (Own (T "a")))])).
  apply read_vm_iff; vm_compute; reflexivity.
Qed.

(** a and b below each other: a model, but no tree. *)
Definition doc_ring : xml := vm [elem "binaryOptions" [opt [leaf_elem "name" (T "root")]; with_parent "a" "b"; with_parent "b" "a"]].
Definition ring_calls : list bcall := [BName (T "m"); BPath (T "/tmp"); BCommit []; BRoot (T "root")] ++ edge_of "a" "b" ++ edge_of "b" "a".
Definition two (s : string) : feature := new_feature FBinary (T s) false [] [].
Lemma ring_stands : stands no_sci no_step (T "/tmp") doc_ring ring_calls.
Proof. apply read_vm_iff; vm_compute; reflexivity. Qed.
Lemma document_ring :
  exists e cs d h' m', valid e = true /\ well_written no_step e /\ stands no_sci no_step (T "/tmp") e cs /\ acceptable cs d /\
    read_xml order no_sci no_step (T "/tmp") heap0 e = SxDone (h', Some m') /\ consistent h' m' = Some true /\
    exists i, get_feature m' (T "a") = Some i /\ forall j, m_root m' = Some j -> ~ reaches h' i j.
Proof.
  exists doc_ring, ring_calls, (T "root", [two "a"; two "b"]).
  assert (E : match read_xml order no_sci no_step (T "/tmp") heap0 doc_ring with SxDone (h', Some m') => True | _ => False end) by (vm_compute; exact Logic.I).
  destruct (read_xml order no_sci no_step (T "/tmp") heap0 doc_ring) as [[h' [m'|]]| | | |] eqn:X; try contradiction. exists h', m'.
  split; [vm_compute; reflexivity|]. split; [exact (stands_written _ _ _ _ _ ring_stands)|]. split; [exact ring_stands|]. split.
  { constructor.
    - unfold ring_calls, default_root. cbn [app edge_of].
      repeat first [apply dec_nil | apply dec_same | apply dec_feature; [intros [Y|Y]; cbn in Y; intuition discriminate|cbn] | apply dec_other; [exact Logic.I|]].
    - intros c I. among_calls; try exact Logic.I; (split; [taken_name|split; [taken_name|intros Y; discriminate Y]]).
    - intros c I. among_calls; exact Logic.I. }
  split; [reflexivity|].
  assert (Y : match read_xml order no_sci no_step (T "/tmp") heap0 doc_ring with
              | SxDone (h', Some m') => (consistent h' m', get_feature m' (T "a"), get_feature m' (T "b"), m_root m', option_map n_parent (h_cells h' 1), option_map n_parent (h_cells h' 2))
              | _ => (None, None, None, None, None, None) end = (Some true, Some 1, Some 2, Some 0, Some (Some 2), Some (Some 1))) by (vm_compute; reflexivity).
  rewrite X in Y. injection Y as Y1 Y2 Y3 Y4 Y5 Y6. split; [exact Y1|]. exists 1. split; [exact Y2|]. intros j J. assert (j = 0) as -> by congruence.
  assert (L : forall i j, reaches h' i j -> i = 1 \/ i = 2 -> j = 0 -> False).
  { clear -Y5 Y6. intros i j Re. induction Re as [i c C|i c p q C P Re IH]; intros I J; [destruct I; lia|]. apply IH; [|exact J].
    destruct I as [->| ->]; rewrite C in *; cbn in *; [right|left]; congruence. }
  intros Re. exact (L 1 0 Re (or_introl eq_refl) eq_refl).
Qed.

(** The root below x, and x and y below each other. *)
Definition doc_above : xml := vm [elem "binaryOptions" [with_parent "root" "x"; with_parent "x" "y"; with_parent "y" "x"]].
Definition above_calls : list bcall := [BName (T "m"); BPath (T "/tmp"); BCommit []; BEdge (T "x") (T "root"); BRoot (T "root")] ++ edge_of "x" "y" ++ edge_of "y" "x".
Lemma above_stands : stands no_sci no_step (T "/tmp") doc_above above_calls.
Proof. apply read_vm_iff; vm_compute; reflexivity. Qed.
Lemma document_above :
  exists e cs d, valid e = true /\ well_written no_step e /\ stands no_sci no_step (T "/tmp") e cs /\ acceptable cs d /\
    read_xml order no_sci no_step (T "/tmp") heap0 e = SxUndefined.
Proof.
  exists doc_above, above_calls, (T "root", [two "x"; two "y"]).
  split; [vm_compute; reflexivity|]. split; [exact (stands_written _ _ _ _ _ above_stands)|]. split; [exact above_stands|]. split; [|vm_compute; reflexivity].
  constructor.
  - unfold above_calls, default_root. cbn [app edge_of].
    repeat first [apply dec_nil | apply dec_same | apply dec_feature; [intros [Y|Y]; cbn in Y; intuition discriminate|cbn] | apply dec_other; [exact Logic.I|]].
  - intros c I. among_calls; try exact Logic.I; (split; [taken_name|split; [taken_name|intros Y; discriminate Y]]).
  - intros c I. among_calls; exact Logic.I.
Qed.

(** An empty constraint, and a line that is no [int]. *)
Definition doc_empty : xml := vm [elem "binaryOptions" [opt [leaf_elem "name" (T "root")]]; elem "booleanConstraints" [leaf_elem "constraint" []]].
Definition doc_line : xml := vm [elem "binaryOptions" [opt [leaf_elem "name" (T "a"); elem "locations" [elem "sourceRange" [leaf_elem "path" (T "f");
  elem "start" [leaf_elem "line" (T "3000000000"); leaf_elem "column" (T "1")]; elem "end" [leaf_elem "line" (T "1"); leaf_elem "column" (T "1")]]]]]].
Lemma documents_undefined :
  (valid doc_empty = true /\ forall ord sci step cwd h, read_xml ord sci step cwd h doc_empty = SxUndefined) /\
  (valid doc_line = true /\ forall ord sci step cwd h, read_xml ord sci step cwd h doc_line = SxUndefined).
Proof. split; (split; [vm_compute; reflexivity|intros; vm_compute; reflexivity]). Qed.
Lemma ill_example : ~ well_written no_step doc_empty /\ ~ well_written no_step doc_line /\ ~ well_written no_step doc5.
Proof.
  split; [|split].
  - intros W. destruct (W _ (or_intror (or_introl eq_refl))) as (_ & _ & X & _). exact (X (or_introl eq_refl) _ (or_introl eq_refl) eq_refl).
  - intros W. destruct (W _ (or_introl eq_refl)) as (X & _). destruct (X eq_refl _ (or_introl eq_refl)) as (Y & _).
    assert (F := Y _ _ (or_introl eq_refl) (or_introl eq_refl) _ _ (or_intror (or_introl eq_refl)) (or_introl eq_refl) (or_introl eq_refl)). apply fits_atoi in F. destruct F as (z & F). vm_compute in F. discriminate F.
  - intros W. destruct (W _ (or_intror (or_introl eq_refl))) as (_ & _ & _ & X). destruct (X eq_refl _ (or_introl eq_refl)) as (Y & _). apply Y. reflexivity.
Qed.
Lemma bad_texts :
  (exists e, valid e = true /\ (exists s c, In s (elems e) /\ In c (elems s) /\ tag c = T "constraint" /\ content c = []) /\
     forall ord sci step cwd h, read_xml ord sci step cwd h e = SxUndefined) /\
  (exists e, valid e = true /\ (exists s o, In s (elems e) /\ In o (elems s) /\ filled "locations" (elems o) <> []) /\
     forall ord sci step cwd h, read_xml ord sci step cwd h e = SxUndefined).
Proof.
  destruct documents_undefined as ((V1 & U1) & V2 & U2). split.
  - exists doc_empty. split; [exact V1|]. split; [|exact U1]. do 2 eexists. split; [right; left; reflexivity|]. split; [left; reflexivity|]. split; reflexivity.
  - exists doc_line. split; [exact V2|]. split; [|exact U2]. do 2 eexists. split; [left; reflexivity|]. split; [left; reflexivity|]. cbn. discriminate.
Qed.
