(** Examples for the XML reader and writer. *)
From Coq Require Import List ZArith NArith Arith Bool Ascii String Permutation Lia.
From Verif Require Import Text TextProofs LlvmInt ConstraintModel ConstraintParserModel ConstraintSpec SourceRangeModel StepFunctionModel FeatureTreeModel FeatureTreeSpec FeatureTransactionModel
  FeatureEditSpec FeatureTransactionExamples FeatureBuildSpec FeatureBuildExamples SxfmModel SxfmExamples XmlModel XmlWriterModel XmlSpec XmlReadProofs XmlFinal.
Import ListNotations.
Local Open Scope string_scope.
Local Open Scope list_scope.
Local Open Scope nat_scope.

Definition no_step (t : text) : sx (option (Z -> option Z)) := SxDone None.
Definition opt (es : list xml) : xml := elem "configurationOption" es.
Definition names (s : string) (l : list string) : xml := elem s (map (fun x => leaf_elem "options" (T x)) l).
(** Root with the mandatory options a and b that exclude each other, and the numeric
    option n below a. *)
Definition place : xml := Elem (T "sourceRange") [(T "category", T "inessential")] []
  [leaf_elem "path" (T " a.c "); elem "start" [leaf_elem "line" (T "3"); leaf_elem "column" (T "4")]; elem "end" [leaf_elem "line" (T "3"); leaf_elem "column" (T "9")]].
Definition doc1 : xml := Elem (T "vm") [(T "name", T "m")] (T "  ")
  [elem "binaryOptions"
     [opt [leaf_elem "name" (T "root")];
      opt [leaf_elem "name" (T " a "); leaf_elem "outputString" (T "-a"); leaf_elem "parent" (T "root"); names "excludedOptions" ["b"]; leaf_elem "optional" (T "False"); elem "locations" [place]];
      opt [leaf_elem "name" (T "b"); leaf_elem "parent" (T "root"); names "excludedOptions" ["a"]; leaf_elem "optional" (T "False")]];
   elem "numericOptions"
     [opt [leaf_elem "name" (T "n"); leaf_elem "parent" (T "a"); names "impliedOptions" ["a"]; leaf_elem "optional" (T "True"); leaf_elem "values" (T "1;-2 ; 3")]];
   elem "booleanConstraints" [leaf_elem "constraint" (T "a | b")];
   elem "mixedConstraints" [Elem (T "constraint") [(T "req", T "none"); (T "exprKind", T "neg")] (T "n") []]].
Definition here1 : source_range := SourceRange (T "a.c") (Some (Loc 3 4)) (Some (Loc 3 9)) Inessential None None.
Definition fa : feature := new_feature FBinary (T "a") false [here1] (T "-a").
Definition fb : feature := new_feature FBinary (T "b") false [] [].
Definition fn : feature := new_feature (FNumeric (VList [1; -2; 3]%Z) None) (T "n") true [] [].
Definition pair_of (o : binop) (a b : string) : bcall := BConstraint KBoolean (CBin o (CFeat (Own (T a))) (CFeat (Own (T b)))).
Definition calls1 : list bcall :=
  [BName (T "m"); BPath (T "/tmp"); BCommit []; BRoot (T "root");
   BEdge (T "root") (T "a"); pair_of BExcludes "a" "b"; BFeature fa;
   BEdge (T "root") (T "b"); pair_of BExcludes "b" "a"; BFeature fb;
   BEdge (T "a") (T "n"); pair_of BImplies "n" "a"; BFeature fn;
   BConstraint KBoolean (CBin BOr (CFeat (Own (T "a"))) (CFeat (Own (T "b"))));
   BConstraint (KMixed ReqNone ExprNeg) (CFeat (Own (T "n")))].
Definition decl1 : decl := (T "root", [fa; fb; fn]).
Lemma stands1 : stands no_sci no_step (T "/tmp") doc1 calls1.
Proof. apply read_vm_iff; vm_compute; reflexivity. Qed.
Lemma describes1 : describes calls1 decl1.
Proof.
  constructor.
  - unfold calls1. do 3 (apply dec_other; [exact I|]). apply dec_same. do 2 (apply dec_other; [exact I|]). apply dec_feature; [vm_compute; intuition congruence|].
    do 2 (apply dec_other; [exact I|]). apply dec_feature; [vm_compute; intuition congruence|]. do 2 (apply dec_other; [exact I|]). apply dec_feature; [vm_compute; intuition congruence|].
    do 2 (apply dec_other; [exact I|]). apply dec_nil.
  - intros c X. repeat (destruct X as [<-|X]; [first [exact I|discriminate]|]). destruct X.
  - intros c X. repeat (destruct X as [<-|X]; [first [exact I|vm_compute; intuition congruence]|]). destruct X.
  - intros p s X. repeat (destruct X as [E|X]; [first [discriminate E|injection E as <- <-; vm_compute; discriminate]|]). destruct X.
  - intros f X. assert (leads (fun s => last_edge calls1 s (fst decl1)) (fst decl1) (T "a")) as A.
    { apply leads_up. change (leads (fun s => last_edge calls1 s (fst decl1)) (fst decl1) (fst decl1)). apply leads_root. }
    destruct X as [<-|[<-|[<-|[]]]]; [exact A| |].
    + apply leads_up. change (leads (fun s => last_edge calls1 s (fst decl1)) (fst decl1) (fst decl1)). apply leads_root.
    + apply leads_up. exact A.
  - intros c X. repeat (destruct X as [<-|X]; [first [exact I|vm_compute; tauto|intros r Y; cbn in Y; repeat (destruct Y as [<-|Y]; [eexists; (split; [reflexivity|vm_compute; tauto])|]); destruct Y]|]). destruct X.
  - constructor.
Qed.

Lemma read_example :
  is_order order /\ heap_ok heap0 /\ valid doc1 = true /\ stands no_sci no_step (T "/tmp") doc1 calls1 /\ describes calls1 decl1 /\
  (let* (h, m) := outcome (read_xml order no_sci no_step (T "/tmp") heap0 doc1) in
   let* a := get_feature m (T "a") in let* n := get_feature m (T "n") in let* f := feature_at h a in
   let* c := h_cells h a in let* q := n_parent c in let* d := h_cells h q in let* p := n_parent d in let* s := name_at h p in
   let* c' := h_cells h n in
   Some (s, n_data d, f_locations f, match n_parent c' with Some x => x =? a | None => false end, m_path m, List.length (m_boolean m), map x_req (m_mixed m)))
  = Some (T "root", NRelationship RAlternative, [here1], true, T "/tmp", 4, [ReqNone]).
Proof.
  split; [exact order_ok|]. split; [exact heap0_ok|]. split; [vm_compute; reflexivity|]. split; [exact stands1|]. split; [exact describes1|]. vm_compute. reflexivity.
Qed.

(** With another parent named for b, or without names, nothing is read. *)
Definition doc2 : xml := Elem (T "vm") [(T "name", T "m")] []
  [elem "binaryOptions"
     [opt [leaf_elem "name" (T "root"); names "children" ["b"]]; opt [leaf_elem "name" (T "a")]; opt [leaf_elem "name" (T "b"); leaf_elem "parent" (T "a")]]].
Definition doc3 : xml := Elem (T "vm") [(T "name", T "m")] [] [elem "binaryOptions" [opt [leaf_elem "parent" (T "root")]]].
Lemma refused_examples :
  valid doc2 = true /\ (forall cs, ~ stands no_sci no_step (T "/tmp") doc2 cs) /\ valid doc3 = false /\
  read_xml order no_sci no_step (T "/tmp") heap0 doc2 = SxRefused /\ read_xml order no_sci no_step (T "/tmp") heap0 doc3 = SxRefused.
Proof.
  split; [vm_compute; reflexivity|]. split; [|vm_compute; auto].
  intros cs X. apply read_vm_iff in X; [|vm_compute; reflexivity]. vm_compute in X. discriminate X.
Qed.

(** An option without a name is taken for the root. *)
Definition doc4 : xml := Elem (T "vm") [(T "name", T "m")] [] [elem "binaryOptions" [opt [leaf_elem "name" (T "  ")]; opt [leaf_elem "name" (T "a")]]].
Lemma nameless : exists e c, valid e = true /\ In c (flat_map elems (elems e)) /\ trim (content (hd c (elems c))) = [] /\
  stands no_sci no_step (T "/tmp") e [BName (T "m"); BPath (T "/tmp"); BCommit []; BRoot (T "root"); BFeature (new_feature FBinary (T "a") false [] [])].
Proof.
  exists doc4, (opt [leaf_elem "name" (T "  ")]). split; [vm_compute; reflexivity|]. split; [vm_compute; auto|]. split; [vm_compute; reflexivity|]. apply read_vm_iff; vm_compute; reflexivity.
Qed.
(** A mixed constraint without its attributes is valid, but reading it is undefined. *)
Definition doc5 : xml := Elem (T "vm") [(T "name", T "m")] []
  [elem "binaryOptions" [opt [leaf_elem "name" (T "root")]]; elem "mixedConstraints" [leaf_elem "constraint" (T "root")]].
Lemma attributes_missing : exists e, valid e = true /\ forall ord sci step cwd h, read_xml ord sci step cwd h e = SxUndefined.
Proof. exists doc5. split; [vm_compute; reflexivity|]. intros. vm_compute. reflexivity. Qed.
