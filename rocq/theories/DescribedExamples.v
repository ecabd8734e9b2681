(** A document with alternatives, a numeric option and all kinds of constraints, and the
    calls it stands for. *)
From Coq Require Import List ZArith NArith Arith Bool Ascii String Permutation Lia.
From Verif Require Import Text TextProofs LlvmInt ConstraintModel ConstraintParserModel ConstraintSpec SourceRangeModel StepFunctionModel FeatureTreeModel FeatureTreeSpec FeatureTransactionModel
  FeatureEditSpec FeatureTransactionExamples FeatureBuildSpec FeatureBuildExamples SxfmModel SxfmExamples XmlModel XmlWriterModel XmlSpec XmlReadProofs XmlFinal XmlExamples ConfigurationModel SolverModel SolverSpec SolverExamples DescribedSpec.
Import ListNotations.
Local Open Scope string_scope.
Local Open Scope list_scope.
Local Open Scope nat_scope.

(** The root with p, an optional x and n in 1, -2, 3; p has the alternatives a and b; n is at
    most 2, x or not x, and x + n is greater than 0 if x is selected. *)
Definition doc16 : xml := Elem (T "vm") [(T "name", T "m")] []
  [elem "binaryOptions"
     [opt [leaf_elem "name" (T "root")];
      opt [leaf_elem "name" (T "x"); leaf_elem "outputString" (T "-x"); leaf_elem "parent" (T "root"); leaf_elem "optional" (T "True")];
      opt [leaf_elem "name" (T "p"); leaf_elem "parent" (T "root"); leaf_elem "optional" (T "False")];
      opt [leaf_elem "name" (T "a"); leaf_elem "outputString" (T "-a"); leaf_elem "parent" (T "p"); names "excludedOptions" ["b"]; leaf_elem "optional" (T "False")];
      opt [leaf_elem "name" (T "b"); leaf_elem "parent" (T "p"); names "excludedOptions" ["a"]; leaf_elem "optional" (T "False")]];
   elem "numericOptions"
     [opt [leaf_elem "name" (T "n"); leaf_elem "outputString" (T "-n"); leaf_elem "parent" (T "root"); leaf_elem "optional" (T "False"); leaf_elem "values" (T "1;-2;3")]];
   elem "booleanConstraints" [leaf_elem "constraint" (T "x | !x")];
   elem "nonBooleanConstraints" [leaf_elem "constraint" (T "n <= 2")];
   elem "mixedConstraints" [Elem (T "constraint") [(T "req", T "all"); (T "exprKind", T "pos")] (T "x + n > 0") []]].
Definition x16 : feature := new_feature FBinary (T "x") true [] (T "-x").
Definition p16 : feature := new_feature FBinary (T "p") false [] [].
Definition a16 : feature := new_feature FBinary (T "a") false [] (T "-a").
Definition b16 : feature := new_feature FBinary (T "b") false [] [].
Definition n16 : feature := new_feature (FNumeric (VList [1; -2; 3]%Z) None) (T "n") false [] (T "-n").
Definition own (s : string) : cexpr cref := CFeat (Own (T s)).
Definition calls16 : list bcall :=
  [BName (T "m"); BPath (T "/tmp"); BCommit []; BRoot (T "root");
   BEdge (T "root") (T "x"); BFeature x16; BEdge (T "root") (T "p"); BFeature p16;
   BEdge (T "p") (T "a"); pair_of BExcludes "a" "b"; BFeature a16;
   BEdge (T "p") (T "b"); pair_of BExcludes "b" "a"; BFeature b16;
   BEdge (T "root") (T "n"); BFeature n16;
   BConstraint KBoolean (CBin BOr (own "x") (CUn UNot (own "x")));
   BConstraint KNonBoolean (CBin BLessEqual (own "n") (CInt 2));
   BConstraint (KMixed ReqAll ExprPos) (CBin BGreater (CBin BAdd (own "x") (own "n")) (CInt 0))].
Definition decl16 : decl := (T "root", [x16; p16; a16; b16; n16]).
Lemma stands16 : stands no_sci no_step (T "/tmp") doc16 calls16.
Proof. apply read_vm_iff; vm_compute; reflexivity. Qed.
Lemma describes16 : describes calls16 decl16.
Proof.
  assert (L : leads (fun s => last_edge calls16 s (fst decl16)) (fst decl16) (T "p")).
  { apply leads_up. change (leads (fun s => last_edge calls16 s (fst decl16)) (fst decl16) (fst decl16)). apply leads_root. }
  constructor.
  - unfold calls16. do 3 (apply dec_other; [exact I|]). apply dec_same. repeat (first [apply dec_feature; [vm_compute; intuition congruence|]|apply dec_other; [exact I|]]). apply dec_nil.
  - intros c X. repeat (destruct X as [<-|X]; [first [exact I|discriminate]|]). destruct X.
  - intros c X. repeat (destruct X as [<-|X]; [first [exact I|vm_compute; intuition congruence]|]). destruct X.
  - intros p s X. repeat (destruct X as [E|X]; [first [discriminate E|injection E as <- <-; vm_compute; discriminate]|]). destruct X.
  - intros f X. destruct X as [<-|[<-|[<-|[<-|[<-|[]]]]]]; [|exact L| | |]; apply leads_up; try exact L; change (leads (fun s => last_edge calls16 s (fst decl16)) (fst decl16) (fst decl16)); apply leads_root.
  - intros c X. repeat (destruct X as [<-|X]; [first [exact I|vm_compute; tauto|intros r Y; cbn in Y; repeat (destruct Y as [<-|Y]; [eexists; (split; [reflexivity|vm_compute; tauto])|]); destruct Y]|]). destruct X.
  - constructor.
Qed.
Lemma alternatives16 : alternatives calls16 decl16 (T "p").
Proof.
  assert (B : forall f, below calls16 decl16 (T "p") f -> f = a16 \/ f = b16).
  { intros f (X & E). destruct X as [<-|[<-|[<-|[<-|[<-|[]]]]]]; vm_compute in E; first [discriminate E|auto]. }
  split; [exists a16, b16; repeat split; cbn; auto 8; discriminate|]. intros f X. apply B in X. destruct X as [-> | ->]; (split; [reflexivity|]); intros g Y N; apply B in Y; destruct Y as [-> | ->]; try (exfalso; apply N; reflexivity); exists KBoolean; cbn; repeat (first [left; reflexivity|right]).
Qed.
Lemma number16 : numeric_name decl16 (T "n").
Proof. exists n16. cbn. auto 8. Qed.
Lemma switch16 s : s <> T "n" -> ~ numeric_name decl16 s.
Proof. intros N (f & X & E & K). destruct X as [<-|[<-|[<-|[<-|[<-|[]]]]]]; try discriminate K. apply N. symmetry. exact E. Qed.
Lemma settled16 : settled calls16 decl16 (found calls16 decl16).
Proof.
  assert (Nx : ~ numeric_name decl16 (T "x")) by (apply switch16; discriminate). assert (Na : ~ numeric_name decl16 (T "a")) by (apply switch16; discriminate). assert (Nb : ~ numeric_name decl16 (T "b")) by (apply switch16; discriminate).
  constructor.
  - intros f X. destruct X as [<-|[<-|[<-|[<-|[<-|[]]]]]]; discriminate.
  - intros f X K. apply switch16. destruct X as [<-|[<-|[<-|[<-|[<-|[]]]]]]; discriminate.
  - intros s (_ & (f & g & A & _) & _). eauto.
  - intros f v st X K. destruct X as [<-|[<-|[<-|[<-|[<-|[]]]]]]; try discriminate K. injection K as <- <-. exact I.
  - intros k e a X K. cbn in X. repeat (destruct X as [X|X]; [injection X as <- <-; first [destruct K; discriminate|eexists]|]); [| | | |destruct X].
    + eapply hv_truths; [constructor; apply nv_truth; auto|constructor; apply nv_truth; auto|reflexivity].
    + eapply hv_truths; [constructor; apply nv_truth; auto|constructor; apply nv_truth; auto|reflexivity].
    + eapply hv_truths; [constructor; apply nv_truth; auto|apply hv_not; constructor; apply nv_truth; auto|reflexivity].
    + eapply hv_numbers; [constructor; apply nv_number; exact number16|constructor|reflexivity].
  - intros r k e a X. cbn in X. repeat (destruct X as [X|X]; [first [discriminate X|injection X as <- <- <-]|]); [|destruct X]. eexists.
    eapply hv_numbers; [eapply hv_numbers; [constructor; apply nv_counted; auto|constructor; apply nv_number; exact number16|reflexivity]|constructor|reflexivity].
  - intros k e X. cbn in X. repeat (destruct X as [X|X]; [injection X as <- <-; cbn; repeat (split; try discriminate)|]). destruct X.
Qed.

(** The same with the group requested by a call. *)
Definition built16 : list bcall := calls16 ++ [BRelationship RAlternative (T "p")].
Lemma edges16 s : last_edge built16 s (fst decl16) = last_edge calls16 s (fst decl16).
Proof. reflexivity. Qed.
Lemma built_describes16 : describes built16 decl16.
Proof.
  assert (L : leads (fun s => last_edge built16 s (fst decl16)) (fst decl16) (T "p")).
  { apply leads_up. change (leads (fun s => last_edge built16 s (fst decl16)) (fst decl16) (fst decl16)). apply leads_root. }
  constructor.
  - unfold built16, calls16. cbn [app]. do 3 (apply dec_other; [exact I|]). apply dec_same. repeat (first [apply dec_feature; [vm_compute; intuition congruence|]|apply dec_other; [exact I|]]). apply dec_nil.
  - intros c X. repeat (destruct X as [<-|X]; [first [exact I|discriminate]|]). destruct X.
  - intros c X. repeat (destruct X as [<-|X]; [first [exact I|vm_compute; intuition congruence]|]). destruct X.
  - intros p s X. repeat (destruct X as [E|X]; [first [discriminate E|injection E as <- <-; vm_compute; discriminate]|]). destruct X.
  - intros f X. destruct X as [<-|[<-|[<-|[<-|[<-|[]]]]]]; [|exact L| | |]; apply leads_up; try exact L; change (leads (fun s => last_edge built16 s (fst decl16)) (fst decl16) (fst decl16)); apply leads_root.
  - intros c X. repeat (destruct X as [<-|X]; [first [exact I|vm_compute; tauto|intros r Y; cbn in Y; repeat (destruct Y as [<-|Y]; [eexists; (split; [reflexivity|vm_compute; tauto])|]); destruct Y]|]). destruct X.
  - cbn. constructor; [intros []|constructor].
Qed.
Lemma built_settled16 : settled built16 decl16 (requested built16).
Proof.
  destruct settled16 as [S1 S2 S3 S4 S5 S6 S7]. constructor; [exact S1|exact S2| |exact S4|exact S5|exact S6|exact S7].
  intros s [X|[]]. injection X as <-. exists a16. split; cbn; auto 8.
Qed.

(** The configurations enumerated. *)
Definition asg16 (a b x : bool) (n : Z) : assignment :=
  Assignment (fun s => if text_eqb s (T "a") then a else if text_eqb s (T "b") then b else if text_eqb s (T "x") then x else true) (fun _ => n) (fun _ => 0%Z).
Definition tried16 : list assignment := flat_map (fun a => flat_map (fun b => flat_map (fun x => map (asg16 a b x) [1; -2; 3]%Z) bools) bools) bools.
Definition listing16 (w : option (heap * fmodel)) : option (list (list (option string))) :=
  let* (h, m) := w in let* s := SolverModel.load order 9 h m in let* r := get_all (trying tried16) 20 s in
  match r with inl l => Some (map (fun c => map (fun n => option_map U (option_value c (T n))) ["root"; "a"; "b"; "x"; "n"]) l) | inr _ => None end.
Definition read16 : option (heap * fmodel) := SxfmExamples.outcome (read_xml order no_sci no_step (T "/tmp") heap0 doc16).
Definition made16 : option (heap * fmodel) := let* (h, o) := build_calls order heap0 built16 in let* m := o in Some (h, m).
Lemma described_example :
  is_order order /\ heap_ok heap0 /\ XmlModel.valid doc16 = true /\ stands no_sci no_step (T "/tmp") doc16 calls16 /\ describes calls16 decl16 /\ settled calls16 decl16 (found calls16 decl16) /\
  found calls16 decl16 (T "p") RAlternative /\ describes built16 decl16 /\ settled built16 decl16 (requested built16) /\
  (let row a b x n := [Some "true"; Some a; Some b; Some x; Some n] in
   let l := [row "true" "false" "true" "1"; row "true" "false" "false" "1"; row "true" "false" "false" "(- 2)"; row "false" "true" "true" "1"; row "false" "true" "false" "1"; row "false" "true" "false" "(- 2)"] in
   listing16 read16 = Some l /\ listing16 made16 = Some l).
Proof.
  split; [exact order_ok|]. split; [exact heap0_ok|]. split; [vm_compute; reflexivity|]. split; [exact stands16|]. split; [exact describes16|]. split; [exact settled16|]. split; [split; [reflexivity|exact alternatives16]|].
  split; [exact built_describes16|]. split; [exact built_settled16|]. cbv zeta. split; vm_compute; reflexivity.
Qed.
