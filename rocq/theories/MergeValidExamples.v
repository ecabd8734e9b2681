(** Examples of merged models and their configurations. *)
From Coq Require Import List ZArith Arith Bool Ascii String Permutation Lia.
From Verif Require Import Text TextProofs ConstraintModel ConstraintSpec SourceRangeModel ConfigurationModel FeatureTreeModel FeatureTreeSpec FeatureTreeProofs FeatureTreeExamples FeatureTransactionModel FeatureTransactionSpec FeatureEditSpec FeatureEditProofs FeatureBuildSpec
  FeatureHistoryProofs FeatureTransactionExamples FeatureCloneSpec FeatureMergeSpec FeatureMergeResult FeatureMergeExamples SolverModel SolverSpec SolverLoadProofs XmlModel XmlSpec ValidSpec ValidProofs EditValidSpec EditValidProofs EditValidOps EditValidExamples
  MergeValidSpec MergeValidProofs MergeValidFinal.
Import ListNotations.
Local Open Scope string_scope.
Local Open Scope list_scope.

(** r with p, which has the alternatives a and b, and an optional x that implies a. *)
Definition tree72 : tree :=
  Node 0 (rootd "r") [Node 1 (binary "p") [Node 2 (NRelationship RAlternative) [Node 3 (binary "a") []; Node 4 (binary "b") []]]; Node 5 (feature_in FBinary "x" true []) []].
(** r with p, which has d, which has the optional e; the same x; and n, which is 1 or 2. *)
Definition tree73 : tree :=
  Node 6 (rootd "r") [Node 7 (binary "p") [Node 8 (binary "d") [Node 9 (feature_in FBinary "e" true []) []]]; Node 10 (feature_in FBinary "x" true []) []; Node 11 (feature_in (FNumeric (VList [1; 2]%Z) None) "n" false []) []].
Definition heap72 : heap := plant2 12 tree72 tree73.
Definition model72 : fmodel := with_boolean (model_of tree72) [MConstraint 9 (CBin BImplies (CFeat (Ref 5)) (CFeat (Ref 3)))].
Definition model73 : fmodel := model_of tree73.
Lemma represents72 : represents heap72 model72 tree72 /\ represents heap72 model73 tree73.
Proof.
  assert (represents heap72 (model_of tree72) tree72 /\ represents heap72 model73 tree73) as (R1 & R2) by planted2. split; [|exact R2]. destruct R1. constructor; assumption.
Qed.
Lemma resolved72 : all_resolved model72.
Proof. intros c r [<-|[]] [<-|[<-|[]]]; [exists (T "x"), 5|exists (T "a"), 3]; split; reflexivity. Qed.
Lemma free72 : root_name_free model72.
Proof. intros i E. vm_compute in E. discriminate E. Qed.
Lemma neat72 : neat heap72 model72.
Proof.
  split.
  - intros p q q' c c' [<-|[]] [<-|[]] _ _ _ _. reflexivity.
  - intros p k s i (q & c & [<-|[]] & C & D & P) G (ci & Ci & Pi). vm_compute in C. injection C as <-. cbn in P. injection P as <-.
    apply (rep_find (proj1 represents72)) in G. cbn in G. repeat (destruct G as [E|G]; [injection E as <- <-; vm_compute in Ci; injection Ci as <-; discriminate Pi|]). destruct G.
Qed.
Lemma listed72 : listed heap72 model72.
Proof.
  intros s i f v g G F K. apply (rep_find (proj1 represents72)) in G. cbn in G. repeat (destruct G as [E|G]; [injection E as <- <-; vm_compute in F; injection F as <-; discriminate K|]). destruct G.
Qed.
Lemma listed73 : listed heap72 model73.
Proof.
  intros s i f v g G F K. apply (rep_find (proj2 represents72)) in G. cbn in G. repeat (destruct G as [E|G]; [injection E as <- <-; vm_compute in F; injection F as <-; first [discriminate K|injection K as <- <-; eauto]|]). destruct G.
Qed.
Lemma shared72 : root_shared model72 model73.
Proof. exists (T "r"), 6. split; [reflexivity|]. split; [reflexivity|]. exists 0. reflexivity. Qed.
Lemma mergeable72 : mergeable true heap72 model72 model73.
Proof. apply (mergeable_check _ _ _ _ _ _ (proj1 represents72) (proj2 represents72)). vm_compute. reflexivity. Qed.
Lemma apart72 : names_apart model72 model73.
Proof.
  intros s u (i & G) (j & H) L. apply (rep_find (proj1 represents72)) in G. apply (rep_find (proj2 represents72)) in H. cbn in G, H.
  repeat (destruct G as [E|G]; [injection E as <- <-; repeat (destruct H as [E|H]; [injection E as <- <-; first [reflexivity|discriminate L]|]); destruct H|]). destruct G.
Qed.
Lemma bare73 : bare model73.
Proof. repeat split. Qed.
Lemma full73 s j g v st : get_feature model72 s = None -> get_feature model73 s = Some j -> feature_at heap72 j = Some g -> f_kind g = FNumeric v st -> exists z vs, v = VList (z :: vs).
Proof.
  intros _ G F K. apply (rep_find (proj2 represents72)) in G. cbn in G. repeat (destruct G as [E|G]; [injection E as <- <-; vm_compute in F; injection F as <-; first [discriminate K|injection K as <- <-; eauto]|]). destruct G.
Qed.
(** r, p, a, x and d are selected, n is 2. *)
Definition config72 : assignment := Assignment (fun n => negb (text_eqb n (T "b") || text_eqb n (T "e"))) (fun _ => 2%Z) (fun _ => 0%Z).
Lemma valid72 : SolverSpec.valid heap72 model72 config72 /\ SolverSpec.valid heap72 model73 config72.
Proof.
  split.
  - apply (valid_rules _ _ _ (proj1 represents72)). split; [|split; [intros c [<-|[]]; reflexivity|intros x []]]. unfold tree72, binary, rootd, feature_in. obeys; try (split; intros _; first [reflexivity|discriminate]).
    split; [intros v g [<-|[<-|[]]] E; injection E as <-; intros _ _; reflexivity|]. intros _. exists (T "a"). split; [left; reflexivity|]. split; [reflexivity|]. intros s [<-|[<-|[]]] E; [reflexivity|discriminate E].
  - apply (valid_rules _ _ _ (proj2 represents72)). split; [|split; [intros c []|intros x []]]. unfold tree73, binary, rootd, feature_in. obeys; try (split; intros K; first [reflexivity|discriminate K|intros; first [reflexivity|discriminate]]).
    all: apply rules_at_feature; (split; [split; [intros X; discriminate X|intros v st X; injection X as <- <-; cbn; auto]|intros k []]).
Qed.

(** The second model has an alternative. *)
Definition tree74 : tree := Node 0 (rootd "r") [].
Definition tree75 : tree := Node 1 (rootd "r") [Node 2 (NRelationship RAlternative) [Node 3 (binary "e") []; Node 4 (binary "f") []]].
Definition heap74 : heap := plant2 5 tree74 tree75.
Definition model74 : fmodel := model_of tree74.
Definition model75 : fmodel := model_of tree75.
Lemma represents74 : represents heap74 model74 tree74 /\ represents heap74 model75 tree75.
Proof. planted2. Qed.
Definition config74 : assignment := Assignment (fun n => negb (text_eqb n (T "f"))) (fun _ => 0%Z) (fun _ => 0%Z).
Lemma alternatives_lost : exists ord map_order h m1 m2 t1 t2 a h' m',
  is_order ord /\ (forall l, Permutation (map_order l) l) /\ represents h m1 t1 /\ represents h m2 t2 /\ all_resolved m1 /\ root_name_free m1 /\ root_shared m1 m2 /\ mergeable true h m1 m2 /\
  SolverSpec.valid h m1 a /\ SolverSpec.valid h m2 a /\
  merge_models ord map_order h m1 m2 true = Some (h', Some m') /\ forall b, SolverSpec.valid h' m' b -> ~ SolverSpec.valid h m2 b.
Proof.
  destruct represents74 as (R1 & R2). assert (Re : all_resolved model74) by (intros c r []). assert (Fr : root_name_free model74) by (intros i E; discriminate E).
  assert (Ne : neat heap74 model74) by (split; [intros p q q' c c' []|intros p k s i (q & c & [] & _)]).
  assert (Li : listed heap74 model74).
  { intros s i f v g G F K. apply (rep_find R1) in G. cbn in G. destruct G as [E|[]]. injection E as <- <-. vm_compute in F. injection F as <-. discriminate K. }
  assert (Sh : root_shared model74 model75) by (exists (T "r"), 1; split; [reflexivity|]; split; [reflexivity|]; exists 0; reflexivity).
  assert (Fit : mergeable true heap74 model74 model75) by (apply (mergeable_check _ _ _ _ _ _ R1 R2); vm_compute; reflexivity).
  destruct (merged_valid order (@rev _) order_ok (fun l => Permutation_sym (Permutation_rev l)) heap74 model74 model75 tree74 tree75 true R1 R2 Re Fr Ne Li Sh Fit) as (h' & m' & E & V).
  exists order, (@rev _), heap74, model74, model75, tree74, tree75, config74, h', m'. split; [exact order_ok|]. split; [exact (fun l => Permutation_sym (Permutation_rev l))|].
  split; [exact R1|]. split; [exact R2|]. split; [exact Re|]. split; [exact Fr|]. split; [exact Sh|]. split; [exact Fit|]. split; [|split; [|split; [exact E|]]].
  - apply (valid_rules _ _ _ R1). split; [|split; [intros c []|intros x []]]. unfold tree74, rootd. obeys.
  - apply (valid_rules _ _ _ R2). split; [|split; [intros c []|intros x []]]. unfold tree75, binary, rootd. obeys.
    split; [intros v g [<-|[<-|[]]] X; injection X as <-; intros _ _; reflexivity|]. intros _. exists (T "e"). split; [left; reflexivity|]. split; [reflexivity|]. intros s [<-|[<-|[]]] X; [reflexivity|discriminate X].
  - intros b Vb V2. apply V in Vb. destruct Vb as (V1 & W). pose proof (v_root _ _ _ V1 0 (root_feature (T "r"))) as Sr. cbn in Sr. specialize (Sr (conj (or_introl eq_refl) eq_refl) eq_refl).
    assert (Ab : forall j, j = 3 \/ j = 4 -> feature_above heap74 j 1).
    { intros j [->| ->]; (eapply above_further; [reflexivity|reflexivity|reflexivity|reflexivity|]); eapply above_here; reflexivity. }
    pose proof (W (T "e") 3 _ eq_refl eq_refl eq_refl (T "r") 1 eq_refl (Ab 3 (or_introl eq_refl))) as We. pose proof (W (T "f") 4 _ eq_refl eq_refl eq_refl (T "r") 1 eq_refl (Ab 4 (or_intror eq_refl))) as Wf.
    pose proof (proj2 We eq_refl Sr) as Se. pose proof (proj2 Wf eq_refl Sr) as Sf.
    assert (G : group heap74 model75 RAlternative (T "r") [T "e"; T "f"]).
    { exists 2, 1, [3; 4]. split; [left; reflexivity|]. split; [reflexivity|]. split; [reflexivity|]. repeat constructor. }
    destruct (v_alternative _ _ _ V2 _ _ G Sr) as (s & _ & _ & U). pose proof (U (T "e") (or_introl eq_refl) Se) as E1. pose proof (U (T "f") (or_intror (or_introl eq_refl)) Sf) as E2. subst s. discriminate E2.
Qed.
