(** Examples for merging again with the same model. *)
From Coq Require Import List ZArith Arith Bool Ascii String Permutation Lia.
From Verif Require Import Text TextProofs ConstraintModel ConstraintSpec SourceRangeModel ConfigurationModel FeatureTreeModel FeatureTreeSpec FeatureTreeProofs FeatureTreeExamples FeatureTransactionModel FeatureTransactionSpec FeatureEditSpec FeatureEditProofs FeatureBuildSpec
  FeatureHistoryProofs FeatureTransactionExamples FeatureCloneSpec FeatureMergeSpec FeatureMergeResult FeatureMergeExamples SolverModel SolverSpec SolverLoadProofs XmlModel XmlSpec ValidSpec ValidProofs
  MergeValidSpec MergeValidProofs MergeValidFinal MergeValidExamples MergeAgainSpec MergeAgainFinal.
Import ListNotations.
Local Open Scope string_scope.
Local Open Scope list_scope.

(** r with p, which has the alternatives a and b, and q, which has the range l. *)
Definition tree84 : tree :=
  Node 0 (feature_in FRoot "r" false [at_file "x"])
    [Node 1 (binary "p") [Node 2 (NRelationship RAlternative) [Node 3 (binary "a") []; Node 4 (binary "b") []]]; Node 5 (feature_in FBinary "q" true [at_file "l"]) []].
(** r with q, which has one more range and the numeric feature d, and with p and a below it. *)
Definition tree85 : tree :=
  Node 6 (feature_in FRoot "r" false [at_file "x"; at_file "y"])
    [Node 7 (feature_in FBinary "q" true [at_file "l"; at_file "k"]) [Node 8 (feature_in (FNumeric (VList [1; 2]%Z) None) "d" false [at_file "w"]) []]; Node 9 (binary "p") [Node 10 (binary "a") []]].
Definition heap84 : heap := plant2 11 tree84 tree85.
Definition model84 : fmodel := with_boolean (model_of tree84) [MConstraint 9 (CBin BImplies (CFeat (Ref 5)) (CFeat (Ref 3)))].
Definition model85 : fmodel := model_of tree85.
Lemma represents84 : represents heap84 model84 tree84 /\ represents heap84 model85 tree85.
Proof. assert (represents heap84 (model_of tree84) tree84 /\ represents heap84 model85 tree85) as (R1 & R2) by planted2. split; [|exact R2]. destruct R1. constructor; assumption. Qed.
Lemma resolved84 : all_resolved model84.
Proof. intros c r [<-|[]] [<-|[<-|[]]]; [exists (T "q"), 5|exists (T "a"), 3]; split; reflexivity. Qed.
Lemma free84 : root_name_free model84 /\ root_name_free model85.
Proof. split; intros i E; vm_compute in E; discriminate E. Qed.
Lemma neat84 : neat heap84 model84.
Proof.
  split.
  - intros p q q' c c' [<-|[]] [<-|[]] _ _ _ _. reflexivity.
  - intros p k s i (q & c & [<-|[]] & C & D & P) G (ci & Ci & Pi). vm_compute in C. injection C as <-. cbn in P. injection P as <-.
    apply (rep_find (proj1 represents84)) in G. cbn in G. repeat (destruct G as [E|G]; [injection E as <- <-; vm_compute in Ci; injection Ci as <-; discriminate Pi|]). destruct G.
Qed.
Lemma listed84 : listed heap84 model84.
Proof.
  intros s i f v g G F K. apply (rep_find (proj1 represents84)) in G. cbn in G. repeat (destruct G as [E|G]; [injection E as <- <-; vm_compute in F; injection F as <-; discriminate K|]). destruct G.
Qed.
Lemma listed85 : listed heap84 model85.
Proof.
  intros s i f v g G F K. apply (rep_find (proj2 represents84)) in G. cbn in G. repeat (destruct G as [E|G]; [injection E as <- <-; vm_compute in F; injection F as <-; first [discriminate K|injection K as <- <-; eauto]|]). destruct G.
Qed.
Lemma shared84 : root_shared model84 model85.
Proof. exists (T "r"), 6. split; [reflexivity|]. split; [reflexivity|]. exists 0. reflexivity. Qed.
Lemma mergeable84 : mergeable false heap84 model84 model85.
Proof. apply (mergeable_check _ _ _ _ _ _ (proj1 represents84) (proj2 represents84)). vm_compute. reflexivity. Qed.
Lemma beside84 : beside_no_group heap84 model84 model85.
Proof.
  intros s j u p i k N G Gu A Gi (q & c & [<-|[]] & C & D & P). vm_compute in C. injection C as <-. cbn in P. injection P as <-.
  apply (rep_find (proj2 represents84)) in G. cbn in G.
  repeat (destruct G as [E|G]; [injection E as <- <-; try (vm_compute in N; discriminate N)|]); [|destruct G].
  assert (p = 7) as -> by (inversion A as [i0 c0 p0 cp C0 P0 Cp F|i0 c0 p0 cp q0 C0 P0 Cp F A']; subst; vm_compute in C0; injection C0 as <-; cbn in P0; injection P0 as <-; [reflexivity|vm_compute in Cp; injection Cp as <-; discriminate F]).
  apply (rep_find (proj2 represents84)) in Gu. cbn in Gu. repeat (destruct Gu as [E|Gu]; [first [discriminate E|injection E as <-; vm_compute in Gi; discriminate Gi]|]). destruct Gu.
Qed.
Lemma kinds84 : all_of_known_kind heap84 model84.
Proof.
  intros s i f G F K. apply (rep_find (proj1 represents84)) in G. cbn in G. repeat (destruct G as [E|G]; [injection E as <- <-; vm_compute in F; injection F as <-; discriminate K|]). destruct G.
Qed.
Definition twice (strict strict' : bool) (h : heap) (m1 m2 : fmodel) : option (heap * fmodel * heap * option fmodel) :=
  let* (h', o) := merge_models order (@rev _) h m1 m2 strict in let* m' := o in
  let* (h2, o') := merge_models order (@rev _) h' m' m2 strict' in Some (h', m', h2, o').
Lemma twice_split strict strict' h m1 m2 h' m' h2 o : twice strict strict' h m1 m2 = Some (h', m', h2, o) ->
  merge_models order (@rev _) h m1 m2 strict = Some (h', Some m') /\ merge_models order (@rev _) h' m' m2 strict' = Some (h2, o).
Proof.
  unfold twice. destruct (merge_models order (@rev _) h m1 m2 strict) as [(h1 & [m3|])|]; cbn [bind]; try discriminate. destruct (merge_models order (@rev _) h1 m3 m2 strict') as [(h4 & o')|] eqn:E; cbn [bind]; [|discriminate].
  intros X. injection X as <- <- <- <-. auto.
Qed.
(** The features of the merged models, with the feature above and the files. *)
Lemma shown84 : (let* (x, o) := twice false false heap84 model84 model85 in let (y, h2) := x in let (h', m') := y in let* n := o in let* l := FeatureMergeExamples.shown h' m' in let* l' := FeatureMergeExamples.shown h2 n in Some (l, l')) =
  Some ([(T "q", Some (T "r"), [T "l"; T "k"]); (T "b", Some (T "p"), []); (T "a", Some (T "p"), []); (T "p", Some (T "r"), []); (T "r", None, [T "y"]); (T "d", Some (T "q"), [T "w"])],
        [(T "d", Some (T "q"), [T "w"]); (T "r", None, [T "x"]); (T "p", Some (T "r"), []); (T "a", Some (T "p"), []); (T "b", Some (T "p"), []); (T "q", Some (T "r"), [T "l"; T "k"])]).
Proof. vm_compute. reflexivity. Qed.

Lemma again_example :
  represents heap84 model84 tree84 /\ represents heap84 model85 tree85 /\ all_resolved model84 /\ root_name_free model84 /\ root_name_free model85 /\ neat heap84 model84 /\ beside_no_group heap84 model84 model85 /\
  root_shared model84 model85 /\ mergeable false heap84 model84 model85 /\ listed heap84 model84 /\ listed heap84 model85 /\ all_of_known_kind heap84 model84.
Proof.
  split; [apply represents84|]. split; [apply represents84|]. split; [exact resolved84|]. split; [apply free84|]. split; [apply free84|]. split; [exact neat84|]. split; [exact beside84|]. split; [exact shared84|].
  split; [exact mergeable84|]. split; [exact listed84|]. split; [exact listed85|exact kinds84].
Qed.

(** ** What changes *)
Definition root_files (h : heap) (m : fmodel) : option (list text) := let* r := m_root m in let* f := feature_at h r in Some (map sr_path (f_locations f)).
Lemma ranges_again : exists ord map_order h m1 m2 t1 t2 h' m' h2 n r' f' r2 f2,
  is_order ord /\ (forall l, Permutation (map_order l) l) /\ represents h m1 t1 /\ represents h m2 t2 /\ all_connected h m1 /\ root_name_free m1 /\ root_name_free m2 /\ neat h m1 /\ beside_no_group h m1 m2 /\
  root_shared m1 m2 /\ mergeable false h m1 m2 /\
  merge_models ord map_order h m1 m2 false = Some (h', Some m') /\ merge_models ord map_order h' m' m2 false = Some (h2, Some n) /\
  m_root m' = Some r' /\ feature_at h' r' = Some f' /\ m_root n = Some r2 /\ feature_at h2 r2 = Some f2 /\
  (exists l, In l (f_locations f') /\ ~ In l (f_locations f2)) /\ exists l, In l (f_locations f2) /\ ~ In l (f_locations f').
Proof.
  assert (E : (let* (x, o) := twice false false heap84 model84 model85 in let (y, h2) := x in let (h', m') := y in let* n := o in let* l := root_files h' m' in let* l' := root_files h2 n in Some (l, l')) = Some ([T "y"], [T "x"])) by (vm_compute; reflexivity).
  destruct (twice false false heap84 model84 model85) as [(((h' & m') & h2) & [n|])|] eqn:Tw; try discriminate E. cbn [bind] in E. destruct (twice_split _ _ _ _ _ _ _ _ _ Tw) as (E1 & E2).
  unfold root_files in E. destruct (m_root m') as [r'|] eqn:Er'; [|discriminate E]. cbn [bind] in E. destruct (feature_at h' r') as [f'|] eqn:Ef'; [|discriminate E]. cbn [bind] in E.
  destruct (m_root n) as [r2|] eqn:Er2; [|discriminate E]. cbn [bind] in E. destruct (feature_at h2 r2) as [f2|] eqn:Ef2; [|discriminate E]. cbn [bind] in E. injection E as L1 L2.
  exists order, (@rev _), heap84, model84, model85, tree84, tree85, h', m', h2, n, r', f', r2, f2. split; [exact order_ok|]. split; [exact (fun l => Permutation_sym (Permutation_rev l))|].
  destruct again_example as (A & B & C & D & F & G & H & I & J & _). split; [exact A|]. split; [exact B|]. split; [exact (ValidFinal.resolved_connected _ _ _ A C)|]. split; [exact D|]. split; [exact F|]. split; [exact G|]. split; [exact H|]. split; [exact I|]. split; [exact J|].
  split; [exact E1|]. split; [exact E2|]. split; [exact Er'|]. split; [exact Ef'|]. split; [exact Er2|]. split; [exact Ef2|].
  destruct (f_locations f') as [|l' [|? ?]]; try discriminate L1. destruct (f_locations f2) as [|l2 [|? ?]]; try discriminate L2. injection L1 as L1. injection L2 as L2.
  split; [exists l'|exists l2]; (split; [left; reflexivity|]); intros [X|[]]; subst; congruence.
Qed.
(** In strict mode, a feature of a group of the second model is refused the second time. *)
Lemma strict_again : exists ord map_order h m1 m2 t1 t2 h' m' h2,
  is_order ord /\ (forall l, Permutation (map_order l) l) /\ represents h m1 t1 /\ represents h m2 t2 /\ all_connected h m1 /\ root_name_free m1 /\ root_name_free m2 /\ neat h m1 /\ beside_no_group h m1 m2 /\
  root_shared m1 m2 /\ mergeable true h m1 m2 /\
  merge_models ord map_order h m1 m2 true = Some (h', Some m') /\ merge_models ord map_order h' m' m2 true = Some (h2, None).
Proof.
  assert (E : (let* (x, o) := twice true true heap74 model74 model75 in Some (match o with Some _ => true | None => false end)) = Some false) by (vm_compute; reflexivity).
  destruct (twice true true heap74 model74 model75) as [(((h' & m') & h2) & [n|])|] eqn:Tw; try discriminate E. destruct (twice_split _ _ _ _ _ _ _ _ _ Tw) as (E1 & E2).
  destruct represents74 as (R1 & R2). exists order, (@rev _), heap74, model74, model75, tree74, tree75, h', m', h2. split; [exact order_ok|]. split; [exact (fun l => Permutation_sym (Permutation_rev l))|].
  split; [exact R1|]. split; [exact R2|]. split; [intros e []|]. split; [intros i X; discriminate X|]. split; [intros i X; discriminate X|]. split; [split; [intros p q q' c c' []|intros p k s i (q & c & [] & _)]|].
  split; [intros s j u p i k _ _ _ _ _ (q & c & [] & _)|]. split; [exists (T "r"), 1; split; [reflexivity|]; split; [reflexivity|]; exists 0; reflexivity|].
  split; [apply (mergeable_check _ _ _ _ _ _ R1 R2); vm_compute; reflexivity|]. auto.
Qed.
(** The names of the groups and their members. *)
Fixpoint all_names (h : heap) (l : list nid) : option (list text) := match l with [] => Some [] | i :: r => let* s := name_at h i in let* ss := all_names h r in Some (s :: ss) end.
Lemma all_names_ok h l ss : all_names h l = Some ss -> Forall2 (fun i s => name_at h i = Some s) l ss.
Proof.
  revert ss. induction l as [|i l IH]; intros ss E; cbn [all_names] in E; [injection E as <-; constructor|]. destruct (name_at h i) as [s|] eqn:N; [|discriminate E]. cbn [bind] in E.
  destruct (all_names h l) as [r|]; [|discriminate E]. cbn [bind] in E. injection E as <-. constructor; [exact N|apply IH; reflexivity].
Qed.
Definition first_group (h : heap) (m : fmodel) : option (rkind * text * list text) :=
  match m_relationships m with
  | q :: _ => let* c := h_cells h q in match n_data c, n_parent c with NRelationship k, Some p => let* s := name_at h p in let* ss := all_names h (n_edges c) in Some (k, s, ss) | _, _ => None end
  | [] => None
  end.
Lemma first_group_ok h m k s ss : first_group h m = Some (k, s, ss) -> group h m k s ss.
Proof.
  unfold first_group. destruct (m_relationships m) as [|q r] eqn:Er; [discriminate|]. destruct (h_cells h q) as [[d [p|] e]|] eqn:C; cbn [bind n_data n_parent n_edges]; [destruct d as [f|k0]; [discriminate|]|destruct d; discriminate|discriminate].
  destruct (name_at h p) as [s0|] eqn:N; cbn [bind]; [|discriminate]. destruct (all_names h e) as [ss0|] eqn:A; cbn [bind]; [|discriminate]. intros X. injection X as <- <- <-.
  exists q, p, e. split; [rewrite Er; left; reflexivity|]. split; [exact C|]. split; [exact N|exact (all_names_ok h e ss0 A)].
Qed.
(** A new feature below one with alternatives is one more alternative the second time. *)
Lemma groups_again : exists ord map_order h m1 m2 t1 t2 h' m' h2 n a,
  is_order ord /\ (forall l, Permutation (map_order l) l) /\ represents h m1 t1 /\ represents h m2 t2 /\ all_resolved m1 /\ root_name_free m1 /\ root_name_free m2 /\ neat h m1 /\
  root_shared m1 m2 /\ mergeable false h m1 m2 /\ listed h m1 /\ listed h m2 /\
  merge_models ord map_order h m1 m2 false = Some (h', Some m') /\ merge_models ord map_order h' m' m2 false = Some (h2, Some n) /\
  SolverSpec.valid h' m' a /\ ~ SolverSpec.valid h2 n a.
Proof.
  assert (E : (let* (x, o) := twice false false heap72 model72 model73 in let (y, h2) := x in let* n := o in first_group h2 n) = Some (RAlternative, T "p", [T "b"; T "a"; T "d"])) by (vm_compute; reflexivity).
  destruct (twice false false heap72 model72 model73) as [(((h' & m') & h2) & [n|])|] eqn:Tw; try discriminate E. cbn [bind] in E. destruct (twice_split _ _ _ _ _ _ _ _ _ Tw) as (E1 & E2).
  assert (Fit : mergeable false heap72 model72 model73) by (apply (mergeable_check _ _ _ _ _ _ (proj1 represents72) (proj2 represents72)); vm_compute; reflexivity).
  exists order, (@rev _), heap72, model72, model73, tree72, tree73, h', m', h2, n, config72. split; [exact order_ok|]. split; [exact (fun l => Permutation_sym (Permutation_rev l))|].
  split; [apply represents72|]. split; [apply represents72|]. split; [exact resolved72|]. split; [exact free72|]. split; [intros i X; vm_compute in X; discriminate X|]. split; [exact neat72|]. split; [exact shared72|]. split; [exact Fit|]. split; [exact listed72|]. split; [exact listed73|].
  split; [exact E1|]. split; [exact E2|]. split.
  - destruct (merged_valid order (@rev _) order_ok (fun l => Permutation_sym (Permutation_rev l)) heap72 model72 model73 tree72 tree73 false (proj1 represents72) (proj2 represents72) resolved72 free72 neat72 listed72 shared72 Fit) as (h1 & n1 & X & V).
    rewrite E1 in X. injection X as <- <-. apply V. split; [exact (proj1 valid72)|]. exact (proj2 (both heap72 model72 model73 tree72 tree73 (proj1 represents72) (proj2 represents72) shared72 mergeable72 apart72 bare73 listed73 config72 (proj1 valid72)) (proj2 valid72)).
  - intros V. destruct (v_alternative _ _ _ V _ _ (first_group_ok _ _ _ _ _ E) eq_refl) as (s & _ & _ & U). pose proof (U (T "d") (or_intror (or_intror (or_introl eq_refl))) eq_refl) as X. pose proof (U (T "a") (or_intror (or_introl eq_refl)) eq_refl) as Y. subst s. discriminate Y.
Qed.
