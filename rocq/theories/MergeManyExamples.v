(** Examples for merging any number of models. *)
From Coq Require Import List ZArith Arith Bool Ascii String Permutation Lia.
From Verif Require Import Text TextProofs ConstraintModel ConstraintSpec SourceRangeModel ConfigurationModel FeatureTreeModel FeatureTreeSpec FeatureTreeProofs FeatureTreeExamples FeatureTransactionModel FeatureTransactionSpec FeatureEditSpec FeatureEditProofs FeatureBuildSpec
  FeatureHistoryProofs FeatureTransactionExamples FeatureCloneSpec FeatureMergeSpec FeatureMergeResult FeatureMergeExamples SolverModel SolverSpec SolverLoadProofs XmlModel XmlSpec ValidSpec ValidProofs MergeValidSpec MergeAgainSpec MergeOrderSpec
  XmlBelowSpec MergeManyModel MergeManySpec MergeManyProofs MergeManyFinal.
Import ListNotations.
Local Open Scope string_scope.
Local Open Scope list_scope.

(** ** The results *)
Lemma merge_many : forall ord map_order h m ms, is_order ord -> (forall l, Permutation (map_order l) l) -> Forall (fine h) (m :: ms) -> ForallOrdPairs (agree h) (m :: ms) ->
  exists h' m' t', merge_all ord map_order h m ms = Some (h', Some m') /\ represents h' m' t' /\ bare m' /\ gathers h (m :: ms) h' m' /\ (forall i c, h_cells h i = Some c -> h_cells h' i = Some c) /\
    (Forall (listed h) (m :: ms) -> forall a, SolverSpec.valid h' m' a <-> forall k, In k (m :: ms) -> SolverSpec.valid h k a).
Proof.
  intros ord map_order h m ms O Mo Fi Ag. destruct (merge_all_gathers ord map_order O Mo h m ms Fi Ag) as (h' & m' & Eq & [E (t' & R) B Ga Va]). exists h', m', t'. split; [exact Eq|]. split; [exact R|]. split; [exact B|]. split; [exact Ga|].
  split; [exact E|]. intros Li. exact (proj2 (Va Li)).
Qed.
Lemma merge_any_order : forall ord ord' map_order map_order' h m ms n ns, is_order ord -> is_order ord' -> (forall l, Permutation (map_order l) l) -> (forall l, Permutation (map_order' l) l) ->
  Forall (fine h) (m :: ms) -> ForallOrdPairs (agree h) (m :: ms) -> Permutation (m :: ms) (n :: ns) ->
  exists h1 n1 h2 n2, merge_all ord map_order h m ms = Some (h1, Some n1) /\ merge_all ord' map_order' h n ns = Some (h2, Some n2) /\ alike_models h1 n1 h2 n2 /\
    (Forall (listed h) (m :: ms) -> forall a, SolverSpec.valid h2 n2 a <-> SolverSpec.valid h1 n1 a).
Proof.
  intros ord ord' map_order map_order' h m ms n ns O O' Mo Mo' Fi Ag P. assert (In' : forall k, In k (n :: ns) <-> In k (m :: ms)) by (intros k; split; apply Permutation_in; [apply Permutation_sym|]; exact P).
  assert (Fi' : Forall (fine h) (n :: ns)) by (rewrite Forall_forall in *; intros k I; apply Fi; apply In'; exact I). pose proof (pairs_permuted h _ _ P Fi Ag) as Ag'.
  destruct (merge_all_gathers ord map_order O Mo h m ms Fi Ag) as (h1 & n1 & Eq1 & [_ (t1 & R1) B1 G1 V1]). destruct (merge_all_gathers ord' map_order' O' Mo' h n ns Fi' Ag') as (h2 & n2 & Eq2 & [_ (t2 & R2) B2 G2 V2]).
  exists h1, n1, h2, n2. split; [exact Eq1|]. split; [exact Eq2|]. split.
  - apply (gathers_alike h (m :: ms) h1 n1 h2 n2 t1 t2 Fi G1); try assumption. destruct G2 as [X1 X2 X3 X4]. constructor.
    + intros s. rewrite (X1 s). split; intros (k & I & K); exists k; (split; [apply In'; exact I|exact K]).
    + intros k s i f I. apply X2. apply In'. exact I.
    + intros s i f x G F K I. destruct (X3 s i f x G F K I) as (k & j & g & J & Y). exists k, j, g. split; [apply In'; exact J|exact Y].
    + intros k s i u p I. apply X4. apply In'. exact I.
  - intros Li a. assert (Li' : Forall (listed h) (n :: ns)) by (rewrite Forall_forall in *; intros k I; apply Li; apply In'; exact I). rewrite (proj2 (V2 Li') a), (proj2 (V1 Li) a). split; intros X k I; apply X; apply In'; exact I.
Qed.
Lemma merge_many_iff : forall ord map_order h m ms, is_order ord -> (forall l, Permutation (map_order l) l) -> Forall (fine h) (m :: ms) -> ForallOrdPairs (fun m n => root_shared m n /\ names_apart m n) (m :: ms) ->
  exists h' o, merge_all ord map_order h m ms = Some (h', o) /\ ((exists m', o = Some m') <-> ForallOrdPairs (mergeable true h) (m :: ms)).
Proof.
  intros ord map_order h m ms O Mo Fi Pw. destruct (merge_all_result ord map_order O Mo h m ms Fi Pw) as [(X & h2 & m2 & Eq & _)|(X & h2 & Eq)].
  - exists h2, (Some m2). split; [exact Eq|]. split; [intros _; exact X|eauto].
  - exists h2, None. split; [exact Eq|]. split; [intros (m' & Y); discriminate Y|contradiction].
Qed.

(** ** Three models *)
(** r with q, which has the range l and a below it. *)
Definition tree95 : tree := Node 0 (rootd "r") [Node 1 (feature_in FBinary "q" true [at_file "l"]) [Node 2 (binary "a") []]].
(** r with q, which has the range k as well and the numeric feature d below it. *)
Definition tree96 : tree := Node 3 (rootd "r") [Node 4 (feature_in FBinary "q" true [at_file "k"; at_file "l"]) [Node 5 (feature_in (FNumeric (VList [1; 2]%Z) None) "d" false [at_file "w"]) []]].
(** r with q, which has a and d, and e. *)
Definition tree97 : tree :=
  Node 6 (rootd "r") [Node 7 (feature_in FBinary "q" true []) [Node 8 (feature_in (FNumeric (VList [1; 2]%Z) None) "d" false []) []; Node 9 (feature_in FBinary "a" false [at_file "j"]) []]; Node 10 (feature_in FBinary "e" true []) []].
(** r with a, which is somewhere else in the others. *)
Definition tree98 : tree := Node 11 (rootd "r") [Node 12 (binary "a") []].
Definition cells95 : list (nid * node) := entries None tree95 ++ entries None tree96 ++ entries None tree97 ++ entries None tree98.
Definition heap95 : heap := Heap (fun i => match find (fun e => Nat.eqb (fst e) i) cells95 with Some (_, c) => Some c | None => None end) 13.
Definition model95 : fmodel := model_of tree95.
Definition model96 : fmodel := model_of tree96.
Definition model97 : fmodel := model_of tree97.
Definition model98 : fmodel := model_of tree98.
Lemma heap95_ok : heap_ok heap95.
Proof. intros i L. cbn in L. do 13 (destruct i as [|i]; [exfalso; unfold nid in *; lia|]). reflexivity. Qed.
Lemma represented95 t : sound_tree t -> NoDup (ids t) -> (forall i c, In (i, c) (entries None t) -> h_cells heap95 i = Some c) -> represents heap95 (model_of t) t.
Proof. intros (A & B & C) D H. constructor; try assumption; try reflexivity. exact heap95_ok. Qed.
Ltac placed95 := apply represented95; [sound|repeat (constructor; [cbn; intuition congruence|]); constructor|intros i c I; cbn in I; repeat (destruct I as [E|I]; [injection E as <- <-; reflexivity|]); destruct I].
Lemma represents95 : represents heap95 model95 tree95. Proof. placed95. Qed.
Lemma represents96 : represents heap95 model96 tree96. Proof. placed95. Qed.
Lemma represents97 : represents heap95 model97 tree97. Proof. placed95. Qed.
Lemma represents98 : represents heap95 model98 tree98. Proof. placed95. Qed.
Ltac each95 R G F := apply (rep_find R) in G; cbn in G; repeat (destruct G as [E|G]; [injection E as <- <-; vm_compute in F; injection F as <-; try discriminate; eauto|]); try destruct G.
Ltac fine95 R := constructor; [eexists; exact R|repeat split|intros s i f G F K; each95 R G F; discriminate K|intros i E; vm_compute in E; discriminate E|intros i f E F; vm_compute in E; injection E as <-; vm_compute in F; injection F as <-; reflexivity].
Lemma fine95_1 : fine heap95 model95. Proof. fine95 represents95. Qed.
Lemma fine95_2 : fine heap95 model96. Proof. fine95 represents96. Qed.
Lemma fine95_3 : fine heap95 model97. Proof. fine95 represents97. Qed.
Lemma fine95_4 : fine heap95 model98. Proof. fine95 represents98. Qed.
Ltac apart95 R R' :=
  let s := fresh in let u := fresh in let i := fresh in let j := fresh in let G := fresh "G" in let H := fresh "H" in let L := fresh "L" in
  intros s u (i & G) (j & H) L; apply (rep_find R) in G; apply (rep_find R') in H; cbn in G, H;
  repeat (destruct G as [E|G]; [injection E as <- <-; repeat (destruct H as [E|H]; [injection E as <- <-; first [reflexivity|discriminate L]|]); destruct H|]); destruct G.
Ltac shared95 a b := exists (T "r"), b; split; [reflexivity|]; split; [reflexivity|]; exists a; reflexivity.
Ltac mergeable95 R R' := apply (mergeable_check _ _ _ _ _ _ R R'); vm_compute; reflexivity.
Lemma agree95_12 : agree heap95 model95 model96. Proof. split; [shared95 0 3|]. split; [mergeable95 represents95 represents96|apart95 represents95 represents96]. Qed.
Lemma agree95_13 : agree heap95 model95 model97. Proof. split; [shared95 0 6|]. split; [mergeable95 represents95 represents97|apart95 represents95 represents97]. Qed.
Lemma agree95_23 : agree heap95 model96 model97. Proof. split; [shared95 3 6|]. split; [mergeable95 represents96 represents97|apart95 represents96 represents97]. Qed.
Lemma listed95 : Forall (listed heap95) [model95; model96; model97].
Proof.
  repeat constructor; intros s i f v g G F K.
  - apply (rep_find represents95) in G. cbn in G. repeat (destruct G as [E|G]; [injection E as <- <-; vm_compute in F; injection F as <-; discriminate K|]). destruct G.
  - apply (rep_find represents96) in G. cbn in G. repeat (destruct G as [E|G]; [injection E as <- <-; vm_compute in F; injection F as <-; first [discriminate K|injection K as <- <-; eauto]|]). destruct G.
  - apply (rep_find represents97) in G. cbn in G. repeat (destruct G as [E|G]; [injection E as <- <-; vm_compute in F; injection F as <-; first [discriminate K|injection K as <- <-; eauto]|]). destruct G.
Qed.
Definition shown_all (m : fmodel) (ms : list fmodel) : option (list (text * option text * list text)) :=
  let* (h', o) := merge_all order (@rev _) heap95 m ms in let* m' := o in FeatureMergeExamples.shown h' m'.
Lemma fine95_all : Forall (fine heap95) [model95; model96; model97].
Proof. constructor; [exact fine95_1|constructor; [exact fine95_2|constructor; [exact fine95_3|constructor]]]. Qed.
Lemma many_example :
  is_order order /\ (forall l : list (text * nid), Permutation (rev l) l) /\ Forall (fine heap95) [model95; model96; model97] /\ ForallOrdPairs (agree heap95) [model95; model96; model97] /\ Forall (listed heap95) [model95; model96; model97] /\
  Permutation [model95; model96; model97] [model97; model95; model96] /\
  shown_all model95 [model96; model97] =
    Some [(T "d", Some (T "q"), [T "w"]); (T "r", None, []); (T "q", Some (T "r"), [T "l"; T "k"]); (T "a", Some (T "q"), [T "j"]); (T "e", Some (T "r"), [])] /\
  shown_all model97 [model95; model96] =
    Some [(T "r", None, []); (T "q", Some (T "r"), [T "l"; T "k"]); (T "d", Some (T "q"), [T "w"]); (T "a", Some (T "q"), [T "j"]); (T "e", Some (T "r"), [])].
Proof.
  split; [exact order_ok|]. split; [exact (fun l => Permutation_sym (Permutation_rev l))|]. split; [exact fine95_all|].
  split; [constructor; [constructor; [exact agree95_12|constructor; [exact agree95_13|constructor]]|constructor; [constructor; [exact agree95_23|constructor]|constructor; constructor]]|].
  split; [exact listed95|]. split; [apply Permutation_sym; apply (Permutation_cons_append [model95; model96] model97)|].
  split; vm_compute; reflexivity.
Qed.

(** The last of three models has a somewhere else. *)
Lemma unmergeable95 : ~ mergeable true heap95 model95 model98.
Proof. intros M. apply (mergeable_check _ _ _ _ _ _ represents95 represents98) in M. vm_compute in M. discriminate M. Qed.
Lemma refused_example :
  Forall (fine heap95) [model95; model96; model98] /\ ForallOrdPairs (fun m n => root_shared m n /\ names_apart m n) [model95; model96; model98] /\ mergeable true heap95 model95 model96 /\ mergeable true heap95 model96 model98 /\
  ~ ForallOrdPairs (mergeable true heap95) [model95; model96; model98] /\ exists h', merge_all order (@rev _) heap95 model95 [model96; model98] = Some (h', None).
Proof.
  assert (Fi : Forall (fine heap95) [model95; model96; model98]) by (constructor; [exact fine95_1|constructor; [exact fine95_2|constructor; [exact fine95_4|constructor]]]).
  assert (Pw : ForallOrdPairs (fun m n => root_shared m n /\ names_apart m n) [model95; model96; model98]).
  { constructor; [constructor; [split; [shared95 0 3|apart95 represents95 represents96]|constructor; [split; [shared95 0 11|apart95 represents95 represents98]|constructor]]|].
    constructor; [constructor; [split; [shared95 3 11|apart95 represents96 represents98]|constructor]|constructor; constructor]. }
  assert (No : ~ ForallOrdPairs (mergeable true heap95) [model95; model96; model98]).
  { intros X. inversion X as [|? ? Y _]; subst. rewrite Forall_forall in Y. apply unmergeable95. apply Y. cbn. auto. }
  split; [exact Fi|]. split; [exact Pw|]. split; [mergeable95 represents95 represents96|]. split; [mergeable95 represents96 represents98|]. split; [exact No|].
  destruct (merge_many_iff order (@rev _) heap95 model95 [model96; model98] order_ok (fun l => Permutation_sym (Permutation_rev l)) Fi Pw) as (h' & [m'|] & Eq & X); [|eauto]. exfalso. apply No. apply X. eauto.
Qed.

(** ** Names that differ in case only *)
Definition tree99 : tree := Node 0 (rootd "r") [Node 1 (binary "a") [Node 2 (binary "x") []]].
Definition tree100 : tree := Node 3 (rootd "r") [Node 4 (binary "A") [Node 5 (binary "x") []]].
Definition heap99 : heap := plant2 6 tree99 tree100.
Definition model99 : fmodel := model_of tree99.
Definition model100 : fmodel := model_of tree100.
Lemma represents99 : represents heap99 model99 tree99 /\ represents heap99 model100 tree100.
Proof. planted2. Qed.
Lemma cases_ordered : exists ord map_order h m n h1 n1 h2 n2, is_order ord /\ (forall l, Permutation (map_order l) l) /\ Forall (fine h) [m; n] /\ ForallOrdPairs (fun m n => root_shared m n /\ mergeable true h m n) [m; n] /\
  merge_all ord map_order h m [n] = Some (h1, Some n1) /\ merge_all ord map_order h n [m] = Some (h2, Some n2) /\ ~ alike_models h1 n1 h2 n2.
Proof.
  destruct represents99 as (R1 & R2). assert (Mo : forall l : list (text * nid), Permutation (rev l) l) by (exact (fun l => Permutation_sym (Permutation_rev l))).
  assert (F1 : fine heap99 model99) by (fine95 R1). assert (F2 : fine heap99 model100) by (fine95 R2).
  assert (Sh : root_shared model99 model100) by (shared95 0 3). assert (Sh2 : root_shared model100 model99) by (shared95 3 0).
  assert (Fit : mergeable true heap99 model99 model100) by (mergeable95 R1 R2). assert (Fit2 : mergeable true heap99 model100 model99) by (mergeable95 R2 R1).
  destruct (merge_success order order_ok (@rev _) Mo heap99 model99 model100 tree99 tree100 true R1 R2 (fun e (I : In e []) => match I with end) (fi_free _ _ F1) Sh Fit) as (h1 & n1 & E1 & M1 & _).
  destruct (merge_success order order_ok (@rev _) Mo heap99 model100 model99 tree100 tree99 true R2 R1 (fun e (I : In e []) => match I with end) (fi_free _ _ F2) Sh2 Fit2) as (h2 & n2 & E2 & M2 & _).
  exists order, (@rev _), heap99, model99, model100, h1, n1, h2, n2. split; [exact order_ok|]. split; [exact Mo|]. split; [constructor; [exact F1|constructor; [exact F2|constructor]]|].
  split; [constructor; [constructor; [split; assumption|constructor]|constructor; constructor]|]. split; [cbn [merge_all]; rewrite E1; reflexivity|]. split; [cbn [merge_all]; rewrite E2; reflexivity|]. intros Al.
  assert (A1 : feature_above heap99 2 1) by (eapply above_here; reflexivity). assert (A2 : feature_above heap99 5 4) by (eapply above_here; reflexivity).
  destruct (mg_first_parents _ _ _ _ _ M1 (T "x") 2 (T "a") 1 eq_refl eq_refl A1) as (i & p & g & Gi & Gp & H & _). destruct (mg_first_parents _ _ _ _ _ M2 (T "x") 5 (T "A") 4 eq_refl eq_refl A2) as (j & q & g2 & Gj & Gq & H2 & Z2).
  destruct g2 as [k|]; [destruct Z2 as (? & ? & [] & _)|]. destruct (am_places _ _ _ _ Al _ _ _ _ _ Gi Gp H) as (_ & j' & q' & Gj' & Gq' & H3). assert (j' = j) as -> by congruence. pose proof (hangs_one _ _ _ _ H3 H2) as ->.
  destruct (mg_represented _ _ _ _ _ M2) as (t2 & Rm). destruct (get_stored h2 n2 t2 Rm _ _ Gq) as (f & (_ & F) & N). pose proof (get_name h2 n2 t2 Rm _ _ f Gq' F) as N'. rewrite N in N'. discriminate N'.
Qed.
