(** Examples for the order of the calls on a model builder. *)
From Coq Require Import List ZArith Arith Bool Ascii String Permutation Lia.
From Verif Require Import Text TextProofs ConstraintModel ConstraintSpec SourceRangeModel FeatureTreeModel FeatureTreeSpec FeatureTransactionModel FeatureEditSpec FeatureTransactionExamples FeatureBuildSpec FeatureCloneSpec FeatureBuildExamples
  BuildOrderSpec.
Import ListNotations.
Local Open Scope string_scope.
Local Open Scope list_scope.

(** Root r, a below it with the or-group of b and c; calls with the edges first and backwards. *)
Definition calls87 : list bcall :=
  [BEdge (T "a") (T "b"); BFeature (bin7 "a"); BFeature (bin7 "b"); BName (T "model"); BRelationship ROr (T "a"); BFeature (bin7 "c"); BRoot (T "r");
   BEdge (T "a") (T "c"); BConstraint KBoolean (CBin BImplies (CFeat (Own (T "b"))) (CFeat (Own (T "c")))); BConstraint KBoolean (CFeat (Own (T "a")))].
Lemma order_example : describes calls87 decl7 /\ reordered calls87 (rev calls87) /\
  exists h m h' m', build_calls order heap0 calls87 = Some (h, Some m) /\ build_calls order heap0 (rev calls87) = Some (h', Some m') /\
    map fst (m_features m) <> map fst (m_features m') /\ map c_expr (m_boolean m) <> map c_expr (m_boolean m').
Proof.
  split; [|split].
  - assert (L : forall s, last_edge calls87 s (fst decl7) = if text_eqb (T "c") s then T "a" else if text_eqb (T "b") s then T "a" else T "r") by reflexivity.
    constructor.
    + unfold calls87. repeat (first [apply dec_nil | apply dec_feature; [vm_compute; intuition discriminate|] | apply dec_root; [vm_compute; intuition discriminate|] | apply dec_other; [exact Logic.I|]]).
    + intros c X. repeat (destruct X as [<-|X]; [first [exact Logic.I|discriminate]|]). destruct X.
    + intros c X. repeat (destruct X as [<-|X]; [first [exact Logic.I|vm_compute; intuition congruence]|]). destruct X.
    + intros p s X. repeat (destruct X as [E|X]; [first [discriminate E|injection E as <- <-; vm_compute; discriminate]|]). destruct X.
    + assert (A : leads (fun s => last_edge calls87 s (fst decl7)) (fst decl7) (T "a")) by (apply leads_up; apply leads_root).
      intros f [<-|[<-|[<-|[]]]]; [exact A|apply leads_up; exact A|apply leads_up; exact A].
    + intros c X. repeat (destruct X as [<-|X]; [first [exact Logic.I|vm_compute; tauto|intros r Ir; cbn in Ir; repeat (destruct Ir as [<-|Ir]; [eexists; (split; [reflexivity|vm_compute; tauto])|]); destruct Ir]|]). destruct X.
    + vm_compute. repeat constructor; cbn; tauto.
  - constructor.
    + apply Permutation_rev.
    + intros p q s X Y. repeat (destruct X as [E|X]; [first [discriminate E|repeat (destruct Y as [E'|Y]; [first [discriminate E'|congruence]|]); destruct Y]|]). destruct X.
    + intros s t X Y. repeat (destruct X as [E|X]; [first [discriminate E|repeat (destruct Y as [E'|Y]; [first [discriminate E'|congruence]|]); destruct Y]|]). destruct X.
    + intros s t X Y. repeat (destruct X as [E|X]; [first [discriminate E|repeat (destruct Y as [E'|Y]; [first [discriminate E'|congruence]|]); destruct Y]|]). destruct X.
    + intros s t X Y. repeat (destruct X as [E|X]; [first [discriminate E|repeat (destruct Y as [E'|Y]; [first [discriminate E'|congruence]|]); destruct Y]|]). destruct X.
    + intros s t X Y. repeat (destruct X as [E|X]; [first [discriminate E|repeat (destruct Y as [E'|Y]; [first [discriminate E'|congruence]|]); destruct Y]|]). destruct X.
    + intros f X. repeat (destruct X as [E|X]; [first [discriminate E|injection E as <-; vm_compute; discriminate]|]). destruct X.
  - eexists _, _, _, _. split; [vm_compute; reflexivity|]. split; [vm_compute; reflexivity|]. split; vm_compute; discriminate.
Qed.

(** Two edges to c: the last one counts. *)
Lemma parents_reordered : exists ord h cs cs' h1 m1 h2 m2 s u i i' p p', is_order ord /\ heap_ok h /\ Permutation cs cs' /\
  build_calls ord h cs = Some (h1, Some m1) /\ build_calls ord h cs' = Some (h2, Some m2) /\ get_feature m1 s = Some i /\ get_feature m2 s = Some i' /\ get_feature m1 u = Some p /\ get_feature m2 u = Some p' /\
  hangs h1 i p None /\ ~ hangs h2 i' p' None.
Proof.
  exists order, heap0, [BFeature (bin7 "a"); BFeature (bin7 "b"); BFeature (bin7 "c"); BEdge (T "b") (T "c"); BEdge (T "a") (T "c")],
    [BFeature (bin7 "a"); BFeature (bin7 "b"); BFeature (bin7 "c"); BEdge (T "a") (T "c"); BEdge (T "b") (T "c")].
  eexists _, _, _, _, (T "c"), (T "a"), _, _, _, _. split; [exact order_ok|]. split; [exact heap0_ok|]. split; [do 3 apply perm_skip; apply perm_swap|].
  split; [vm_compute; reflexivity|]. split; [vm_compute; reflexivity|]. split; [vm_compute; reflexivity|]. split; [vm_compute; reflexivity|]. split; [vm_compute; reflexivity|]. split; [vm_compute; reflexivity|].
  split; [eexists; split; [vm_compute; reflexivity|reflexivity]|]. intros (c & C & P). vm_compute in C. injection C as <-. discriminate P.
Qed.

(** A feature called "root" can be added after the root was given another name, not before. *)
Lemma root_reordered : exists ord h cs cs' h1 h2 m2, is_order ord /\ heap_ok h /\ Permutation cs cs' /\
  build_calls ord h cs = Some (h1, None) /\ build_calls ord h cs' = Some (h2, Some m2).
Proof.
  exists order, heap0, [BFeature (bin7 "root"); BRoot (T "r")], [BRoot (T "r"); BFeature (bin7 "root")]. eexists _, _, _.
  split; [exact order_ok|]. split; [exact heap0_ok|]. split; [apply perm_swap|]. split; vm_compute; reflexivity.
Qed.
