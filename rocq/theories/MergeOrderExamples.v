(** Examples for the order of merging. *)
From Coq Require Import List ZArith Arith Bool Ascii String Permutation Lia.
From Verif Require Import Text TextProofs ConstraintModel ConstraintSpec SourceRangeModel ConfigurationModel FeatureTreeModel FeatureTreeSpec FeatureTreeProofs FeatureTreeExamples FeatureTransactionModel FeatureTransactionSpec FeatureEditSpec FeatureEditProofs FeatureBuildSpec
  FeatureHistoryProofs FeatureTransactionExamples FeatureCloneSpec FeatureMergeSpec FeatureMergeResult FeatureMergeExamples SolverModel SolverSpec SolverLoadProofs XmlModel XmlSpec ValidSpec ValidProofs EditValidSpec EditValidProofs EditValidOps EditValidExamples
  MergeValidSpec MergeValidProofs MergeValidFinal MergeValidExamples MergeAgainSpec MergeAgainFinal MergeOrderSpec MergeOrderFinal.
Import ListNotations.
Local Open Scope string_scope.
Local Open Scope list_scope.

(** r with q, which has the range l and a below it. *)
Definition tree86 : tree := Node 0 (rootd "r") [Node 1 (feature_in FBinary "q" true [at_file "l"; at_file "j"]) [Node 2 (binary "a") []]].
(** r with q, which has the range k as well and the numeric feature d below it, and e. *)
Definition tree87 : tree :=
  Node 3 (rootd "r") [Node 4 (feature_in FBinary "q" true [at_file "k"; at_file "l"]) [Node 5 (feature_in (FNumeric (VList [1; 2]%Z) None) "d" false [at_file "w"]) []]; Node 6 (feature_in FBinary "e" true []) []].
Definition heap86 : heap := plant2 7 tree86 tree87.
Definition model86 : fmodel := model_of tree86.
Definition model87 : fmodel := model_of tree87.
Lemma represents86 : represents heap86 model86 tree86 /\ represents heap86 model87 tree87.
Proof. planted2. Qed.
Lemma free86 : root_name_free model86 /\ root_name_free model87.
Proof. split; intros i E; vm_compute in E; discriminate E. Qed.
Lemma shared86 : root_shared model86 model87.
Proof. exists (T "r"), 3. split; [reflexivity|]. split; [reflexivity|]. exists 0. reflexivity. Qed.
Lemma mergeable86 : mergeable true heap86 model86 model87.
Proof. apply (mergeable_check _ _ _ _ _ _ (proj1 represents86) (proj2 represents86)). vm_compute. reflexivity. Qed.
Lemma kinds86 : all_of_known_kind heap86 model86.
Proof. intros s i f G F K. apply (rep_find (proj1 represents86)) in G. cbn in G. repeat (destruct G as [E|G]; [injection E as <- <-; vm_compute in F; injection F as <-; discriminate K|]). destruct G. Qed.
Lemma apart86 : names_apart model86 model87.
Proof.
  intros s u (i & G) (j & H) L. apply (rep_find (proj1 represents86)) in G. apply (rep_find (proj2 represents86)) in H. cbn in G, H.
  repeat (destruct G as [E|G]; [injection E as <- <-; repeat (destruct H as [E|H]; [injection E as <- <-; first [reflexivity|discriminate L]|]); destruct H|]). destruct G.
Qed.
Lemma bare86 : bare model86 /\ bare model87.
Proof. split; repeat split. Qed.
Lemma listed86 : listed heap86 model86 /\ listed heap86 model87.
Proof.
  split; intros s i f v g G F K.
  - apply (rep_find (proj1 represents86)) in G. cbn in G. repeat (destruct G as [E|G]; [injection E as <- <-; vm_compute in F; injection F as <-; discriminate K|]). destruct G.
  - apply (rep_find (proj2 represents86)) in G. cbn in G. repeat (destruct G as [E|G]; [injection E as <- <-; vm_compute in F; injection F as <-; first [discriminate K|injection K as <- <-; eauto]|]). destruct G.
Qed.
Lemma either_example :
  represents heap86 model86 tree86 /\ represents heap86 model87 tree87 /\ root_name_free model86 /\ root_name_free model87 /\ root_shared model86 model87 /\ mergeable true heap86 model86 model87 /\
  all_of_known_kind heap86 model86 /\ names_apart model86 model87 /\ bare model86 /\ bare model87 /\ listed heap86 model86 /\ listed heap86 model87.
Proof.
  split; [apply represents86|]. split; [apply represents86|]. split; [apply free86|]. split; [apply free86|]. split; [exact shared86|]. split; [exact mergeable86|]. split; [exact kinds86|]. split; [exact apart86|].
  split; [apply bare86|]. split; [apply bare86|]. exact listed86.
Qed.
Definition shown_merge (h : heap) (m1 m2 : fmodel) : option (list (text * option text * list text)) :=
  let* (h', o) := merge_models order (@rev _) h m1 m2 true in let* m' := o in FeatureMergeExamples.shown h' m'.
Lemma shown86 : shown_merge heap86 model86 model87 =
    Some [(T "a", Some (T "q"), []); (T "q", Some (T "r"), [T "l"; T "j"; T "k"]); (T "r", None, []); (T "e", Some (T "r"), []); (T "d", Some (T "q"), [T "w"])] /\
  shown_merge heap86 model87 model86 =
    Some [(T "e", Some (T "r"), []); (T "d", Some (T "q"), [T "w"]); (T "q", Some (T "r"), [T "k"; T "l"; T "j"]); (T "r", None, []); (T "a", Some (T "q"), [])].
Proof. split; vm_compute; reflexivity. Qed.

(** ** Where the order matters *)
(** Alternatives of the one model are kept if it is the first one only. *)
Lemma groups_ordered : exists ord map_order h m1 m2 t1 t2 h1 n1 h2 n2 a,
  is_order ord /\ (forall l, Permutation (map_order l) l) /\ represents h m1 t1 /\ represents h m2 t2 /\ root_name_free m1 /\ root_name_free m2 /\ root_shared m1 m2 /\ mergeable true h m1 m2 /\ all_of_known_kind h m1 /\ names_apart m1 m2 /\ bare m1 /\
  merge_models ord map_order h m1 m2 true = Some (h1, Some n1) /\ merge_models ord map_order h m2 m1 true = Some (h2, Some n2) /\
  SolverSpec.valid h2 n2 a /\ ~ SolverSpec.valid h1 n1 a.
Proof.
  destruct represents74 as (R1 & R2). assert (Fr : root_name_free model74) by (intros i E; discriminate E). assert (Fr2 : root_name_free model75) by (intros i E; discriminate E).
  assert (B : bare model74) by (repeat split). assert (Re2 : all_resolved model75) by (intros c r []).
  assert (Li : listed heap74 model74).
  { intros s i f v g G F K. apply (rep_find R1) in G. cbn in G. destruct G as [E|[]]. injection E as <- <-. vm_compute in F. injection F as <-. discriminate K. }
  assert (Li2 : listed heap74 model75).
  { intros s i f v g G F K. apply (rep_find R2) in G. cbn in G. repeat (destruct G as [E|G]; [injection E as <- <-; vm_compute in F; injection F as <-; discriminate K|]). destruct G. }
  assert (Ne2 : neat heap74 model75).
  { split; [intros p q q' c c' [<-|[]] [<-|[]] _ _ _ _; reflexivity|]. intros p k s i (q & c & [<-|[]] & C & D & P) G (ci & Ci & Pi). vm_compute in C. injection C as <-. cbn in P. injection P as <-.
    apply (rep_find R2) in G. cbn in G. repeat (destruct G as [E|G]; [injection E as <- <-; vm_compute in Ci; injection Ci as <-; discriminate Pi|]). destruct G. }
  assert (Sh : root_shared model74 model75) by (exists (T "r"), 1; split; [reflexivity|]; split; [reflexivity|]; exists 0; reflexivity).
  assert (Fit : mergeable true heap74 model74 model75) by (apply (mergeable_check _ _ _ _ _ _ R1 R2); vm_compute; reflexivity).
  assert (Kk : all_of_known_kind heap74 model74).
  { intros s i f G F K. apply (rep_find R1) in G. cbn in G. destruct G as [E|[]]. injection E as <- <-. vm_compute in F. injection F as <-. discriminate K. }
  assert (Na : names_apart model74 model75).
  { intros s u (i & G) (j & H) L. apply (rep_find R1) in G. apply (rep_find R2) in H. cbn in G, H. destruct G as [E|[]]. injection E as <- <-. repeat (destruct H as [E|H]; [injection E as <- <-; first [reflexivity|discriminate L]|]). destruct H. }
  assert (Mo : forall l : list (text * nid), Permutation (rev l) l) by (exact (fun l => Permutation_sym (Permutation_rev l))).
  destruct (merged_valid order (@rev _) order_ok Mo heap74 model74 model75 tree74 tree75 true R1 R2 (bare_resolved _ B) Fr (bare_neat _ _ B) Li Sh Fit) as (h1 & n1 & E1 & V1).
  destruct (merged_valid order (@rev _) order_ok Mo heap74 model75 model74 tree75 tree74 true R2 R1 Re2 Fr2 Ne2 Li2 (turned_shared _ _ _ _ _ R1 R2 Sh Fit) (turned_mergeable _ _ _ _ R2 Fit Kk)) as (h2 & n2 & E2 & V2).
  exists order, (@rev _), heap74, model74, model75, tree74, tree75, h1, n1, h2, n2, config74. split; [exact order_ok|]. split; [exact Mo|]. split; [exact R1|]. split; [exact R2|]. split; [exact Fr|]. split; [exact Fr2|]. split; [exact Sh|]. split; [exact Fit|]. split; [exact Kk|]. split; [exact Na|]. split; [exact B|].
  split; [exact E1|]. split; [exact E2|]. split.
  - apply V2. split.
    + apply (valid_rules _ _ _ R2). split; [|split; [intros c []|intros x []]]. unfold tree75, binary, rootd. obeys.
      split; [intros v g [<-|[<-|[]]] X; injection X as <-; intros _ _; reflexivity|]. intros _. exists (T "e"). split; [left; reflexivity|]. split; [reflexivity|]. intros s [<-|[<-|[]]] X; [reflexivity|discriminate X].
    + intros s j g N G F. exfalso. apply (rep_find R1) in G. cbn in G. destruct G as [E|[]]. injection E as <- <-. vm_compute in N. discriminate N.
  - intros V. apply V1 in V. destruct V as (_ & W).
    assert (Ab : feature_above heap74 4 1) by ((eapply above_further; [reflexivity|reflexivity|reflexivity|reflexivity|]); eapply above_here; reflexivity).
    pose proof (proj2 (W (T "f") 4 _ eq_refl eq_refl eq_refl (T "r") 1 eq_refl Ab) eq_refl eq_refl) as Wf. discriminate Wf.
Qed.
(** Not in strict mode, a feature has the kind it has in the first model. *)
Definition tree88 : tree := Node 0 (rootd "r") [Node 1 (binary "a") []].
Definition tree89 : tree := Node 2 (rootd "r") [Node 3 (feature_in (FNumeric (VList [1; 2]%Z) None) "a" false []) []].
Definition heap88 : heap := plant2 4 tree88 tree89.
Definition model88 : fmodel := model_of tree88.
Definition model89 : fmodel := model_of tree89.
Lemma represents88 : represents heap88 model88 tree88 /\ represents heap88 model89 tree89.
Proof. planted2. Qed.
Lemma kinds_ordered : exists ord map_order h m1 m2 t1 t2 h1 n1 h2 n2 s i f j g,
  is_order ord /\ (forall l, Permutation (map_order l) l) /\ represents h m1 t1 /\ represents h m2 t2 /\ root_name_free m1 /\ root_name_free m2 /\ root_shared m1 m2 /\ mergeable false h m1 m2 /\ all_of_known_kind h m1 /\ names_apart m1 m2 /\ bare m1 /\ bare m2 /\
  merge_models ord map_order h m1 m2 false = Some (h1, Some n1) /\ merge_models ord map_order h m2 m1 false = Some (h2, Some n2) /\
  get_feature n1 s = Some i /\ feature_at h1 i = Some f /\ get_feature n2 s = Some j /\ feature_at h2 j = Some g /\ f_kind f <> f_kind g.
Proof.
  destruct represents88 as (R1 & R2). assert (Fr : root_name_free model88) by (intros i E; discriminate E). assert (Fr2 : root_name_free model89) by (intros i E; discriminate E).
  assert (Mo : forall l : list (text * nid), Permutation (rev l) l) by (exact (fun l => Permutation_sym (Permutation_rev l))).
  assert (Sh : root_shared model88 model89) by (exists (T "r"), 2; split; [reflexivity|]; split; [reflexivity|]; exists 0; reflexivity).
  assert (Sh2 : root_shared model89 model88) by (exists (T "r"), 0; split; [reflexivity|]; split; [reflexivity|]; exists 2; reflexivity).
  assert (Fit : mergeable false heap88 model88 model89) by (apply (mergeable_check _ _ _ _ _ _ R1 R2); vm_compute; reflexivity).
  assert (Fit2 : mergeable false heap88 model89 model88) by (apply (mergeable_check _ _ _ _ _ _ R2 R1); vm_compute; reflexivity).
  destruct (merge_success order order_ok (@rev _) Mo heap88 model88 model89 tree88 tree89 false R1 R2 (fun e (I : In e []) => match I with end) Fr Sh Fit) as (h1 & n1 & E1 & M1 & _).
  destruct (merge_success order order_ok (@rev _) Mo heap88 model89 model88 tree89 tree88 false R2 R1 (fun e (I : In e []) => match I with end) Fr2 Sh2 Fit2) as (h2 & n2 & E2 & M2 & _).
  destruct (mg_first _ _ _ _ _ M1 (T "a") 1 _ eq_refl eq_refl) as (i & f & f0 & ls & G & F & (_ & _ & K & _) & _ & Ef). destruct (mg_first _ _ _ _ _ M2 (T "a") 3 _ eq_refl eq_refl) as (j & g & g0 & ls' & G' & F' & (_ & _ & K' & _) & _ & Eg).
  exists order, (@rev _), heap88, model88, model89, tree88, tree89, h1, n1, h2, n2, (T "a"), i, f, j, g. split; [exact order_ok|]. split; [exact Mo|]. split; [exact R1|]. split; [exact R2|]. split; [exact Fr|]. split; [exact Fr2|]. split; [exact Sh|]. split; [exact Fit|].
  split; [intros s x y Gx Fx Kx; apply (rep_find R1) in Gx; cbn in Gx; repeat (destruct Gx as [E|Gx]; [injection E as <- <-; vm_compute in Fx; injection Fx as <-; discriminate Kx|]); destruct Gx|].
  split; [intros s u (x & Gx) (y & Gy) L; apply (rep_find R1) in Gx; apply (rep_find R2) in Gy; cbn in Gx, Gy; repeat (destruct Gx as [E|Gx]; [injection E as <- <-; repeat (destruct Gy as [E|Gy]; [injection E as <- <-; first [reflexivity|discriminate L]|]); destruct Gy|]); destruct Gx|].
  split; [repeat split|]. split; [repeat split|]. split; [exact E1|]. split; [exact E2|]. split; [exact G|]. split; [exact F|]. split; [exact G'|]. split; [exact F'|]. rewrite Ef, Eg. cbn [with_locations f_kind]. rewrite K, K'. discriminate.
Qed.
