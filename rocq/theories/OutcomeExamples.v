(** Examples for the outcome of building. *)
From Coq Require Import List ZArith Arith Bool Ascii String Permutation Lia.
From Verif Require Import Text TextProofs ConstraintModel ConstraintSpec SourceRangeModel FeatureTreeModel FeatureTreeSpec FeatureTreeProofs FeatureTreeExamples
  FeatureTreeFinal FeatureTransactionModel FeatureEditSpec FeatureTransactionSpec FeatureEditProofs FeatureTransactionExamples FeatureBuildSpec FeatureBuildExamples
  OutcomeSpec OutcomeProofs OutcomeFinal.
Import ListNotations.
Local Open Scope string_scope.
Local Open Scope list_scope.

Ltac among_calls := repeat match goal with H : In _ _ |- _ => destruct H as [<-|H] || destruct H end; cbn.
Ltac taken_name := first [left; reflexivity | right; cbn; tauto].

(** a below b, b below a, and the group of b. *)
Definition ring : list bcall :=
  [BFeature (bin7 "a"); BEdge (T "a") (T "b"); BEdge (T "b") (T "a"); BRelationship ROr (T "b"); BFeature (bin7 "b"); BFeature (bin7 "c");
   BConstraint KBoolean (CBin BImplies (CFeat (Own (T "c"))) (CFeat (Own (T "a"))))].
Definition ring_decl : decl := (T "root", [bin7 "a"; bin7 "b"; bin7 "c"]).
Lemma ring_regular : regular ring.
Proof.
  constructor.
  - intros c I. among_calls; try exact Logic.I; discriminate.
  - intros c I. among_calls; try exact Logic.I. intros r X. cbn in X. intuition (subst; eauto).
  - cbn. constructor; [intros []|constructor].
Qed.
Lemma ring_acceptable : acceptable ring ring_decl.
Proof.
  constructor.
  - unfold ring, ring_decl, default_root. repeat first [apply dec_feature; [intros [X|X]; cbn in X; intuition discriminate|cbn] | apply dec_other; [exact Logic.I|]]. apply dec_nil.
  - intros c I. among_calls; try exact Logic.I; (split; [taken_name|split; [taken_name|intros X; discriminate X]]).
  - intros c I. among_calls; try exact Logic.I; try taken_name. intros r [<-|[<-|[]]]; eexists; (split; [reflexivity|taken_name]).
Qed.
Lemma ring_not_rooted : ~ rooted ring ring_decl.
Proof.
  intros [_ L]. specialize (L (bin7 "a") (or_introl eq_refl)). cbn [bin7 new_feature f_name] in L.
  assert (X : forall s, leads (fun s => last_edge ring s (fst ring_decl)) (fst ring_decl) s -> s = T "a" \/ s = T "b" -> False).
  { induction 1 as [|s L' IH]; [intros [E|E]; discriminate E|]. intros [->| ->]; apply IH; [right|left]; reflexivity. }
  exact (X _ L (or_introl eq_refl)).
Qed.

Lemma ring_built :
  regular ring /\ acceptable ring ring_decl /\ ~ rooted ring ring_decl /\
  exists h' m', build_calls order heap0 ring = Some (h', Some m') /\ consistent h' m' = Some true /\ ~ tree_shaped h' m' /\
    map fst (m_features m') = [T "root"; T "a"; T "b"; T "c"].
Proof.
  split; [exact ring_regular|]. split; [exact ring_acceptable|]. split; [exact ring_not_rooted|].
  destruct (accepted_builds order order_ok heap0 ring ring_decl heap0_ok ring_regular ring_acceptable) as (h' & m' & E & La & _).
  exists h', m'. split; [exact E|]. split; [exact (la_consistent _ _ _ _ La)|].
  split; [intros Ts; apply ring_not_rooted; exact (proj1 (trees_exactly order order_ok heap0 ring ring_decl h' m' heap0_ok ring_regular ring_acceptable E) Ts)|].
  assert (X : option_map (fun x => option_map (fun m => map fst (m_features m)) (snd x)) (build_calls order heap0 ring) = Some (Some [T "root"; T "a"; T "b"; T "c"])) by (vm_compute; reflexivity).
  rewrite E in X. cbn [option_map snd] in X. injection X as X. exact X.
Qed.

Lemma built_not_tree :
  exists h cs d h' m', heap_ok h /\ regular cs /\ acceptable cs d /\ build_calls order h cs = Some (h', Some m') /\ consistent h' m' = Some true /\ ~ tree_shaped h' m'.
Proof.
  destruct ring_built as (R & A & _ & h' & m' & E & C & N & _). exists heap0, ring, ring_decl, h', m'. split; [exact heap0_ok|]. auto.
Qed.

(** The root below one of its own children. *)
Definition under : list bcall := [BFeature (bin7 "a"); BRoot (T "r"); BEdge (T "a") (T "r")].
Lemma under_built :
  exists h' m' r c, build_calls order heap0 under = Some (h', Some m') /\ m_root m' = Some r /\ h_cells h' r = Some c /\ n_parent c = get_feature m' (T "a") /\ n_parent c <> None.
Proof. eexists _, _, _, _. split; [vm_compute; reflexivity|]. split; [reflexivity|]. split; [vm_compute; reflexivity|]. split; [vm_compute; reflexivity|vm_compute; discriminate]. Qed.

(** A group of an undeclared feature, and a constraint that mentions one before it. *)
Definition lost : list bcall := [BFeature (bin7 "a"); BRelationship ROr (T "x"); BConstraint KBoolean (CFeat (Own (T "y")))].
Definition lost2 : list bcall := [BFeature (bin7 "a"); BConstraint KBoolean (CFeat (Own (T "y"))); BRelationship ROr (T "x")].
Definition lost_decl : decl := (T "root", [bin7 "a"]).
Lemma lost_declares c1 c2 : match c1 with BFeature _ | BRoot _ => False | _ => True end -> match c2 with BFeature _ | BRoot _ => False | _ => True end ->
  declares (default_root, []) [BFeature (bin7 "a"); c1; c2] lost_decl.
Proof. intros N1 N2. unfold lost_decl, default_root. apply dec_feature; [intros [X|X]; cbn in X; intuition discriminate|]. cbn. apply dec_other; [exact N1|]. apply dec_other; [exact N2|]. apply dec_nil. Qed.
Lemma lost_regular : regular lost.
Proof.
  constructor.
  - intros c I. among_calls; try exact Logic.I; discriminate.
  - intros c I. among_calls; try exact Logic.I. intros r X. cbn in X. intuition (subst; eauto).
  - cbn. constructor; [intros []|constructor].
Qed.
Lemma lost2_regular : regular lost2.
Proof.
  constructor.
  - intros c I. among_calls; try exact Logic.I; discriminate.
  - intros c I. among_calls; try exact Logic.I. intros r X. cbn in X. intuition (subst; eauto).
  - cbn. constructor; [intros []|constructor].
Qed.
Lemma not_taken_x : ~ taken lost_decl (T "x").
Proof. intros [X|X]; cbn in X; intuition discriminate. Qed.
Lemma not_taken_y : ~ taken lost_decl (T "y").
Proof. intros [X|X]; cbn in X; intuition discriminate. Qed.
Lemma lost_misgrouped : misgrouped lost.
Proof.
  exists lost_decl, [BFeature (bin7 "a")], ROr, (T "x"), [BConstraint KBoolean (CFeat (Own (T "y")))]. split; [reflexivity|]. split; [apply lost_declares; exact Logic.I|].
  split; [intros c I; among_calls; exact Logic.I|]. split; [intros c I; among_calls; exact Logic.I|exact not_taken_x].
Qed.
Lemma lost2_not : (forall d, ~ acceptable lost2 d) /\ ~ misgrouped lost2.
Proof.
  pose proof (lost_declares (BConstraint KBoolean (CFeat (Own (T "y")))) (BRelationship ROr (T "x")) Logic.I Logic.I) as D.
  split.
  - intros d [Dd _ Dr]. rewrite (declares_unique _ _ _ D d Dd) in Dr. apply not_taken_x. apply (Dr (BRelationship ROr (T "x"))). cbn. tauto.
  - intros (d & a & k & p & b & Ec & Dd & _ & O & N). rewrite (declares_unique _ _ _ D d Dd) in *.
    destruct a as [|c1 [|c2 [|c3 a]]]; try discriminate Ec.
    + injection Ec as <- <- <- <- <-. specialize (O (BConstraint KBoolean (CFeat (Own (T "y")))) ltac:(cbn; tauto)). destruct (O _ (or_introl eq_refl)) as (s & E & Tk). injection E as <-. exact (not_taken_y Tk).
    + injection Ec as _ _ _ X. destruct a; discriminate X.
Qed.
Lemma lost_outcomes :
  regular lost /\ misgrouped lost /\ build_calls order heap0 lost = None /\
  regular lost2 /\ (forall d, ~ acceptable lost2 d) /\ ~ misgrouped lost2 /\ exists h', build_calls order heap0 lost2 = Some (h', None).
Proof.
  split; [exact lost_regular|]. split; [exact lost_misgrouped|]. split; [vm_compute; reflexivity|]. split; [exact lost2_regular|].
  split; [exact (proj1 lost2_not)|]. split; [exact (proj2 lost2_not)|]. eexists. vm_compute. reflexivity.
Qed.
