(** Pairs of feature models used as examples for merging. *)
From Coq Require Import List ZArith Arith Bool Ascii String Permutation Lia.
From Verif Require Import Text ConstraintModel ConstraintSpec SourceRangeModel FeatureTreeModel FeatureTreeSpec FeatureTreeProofs FeatureTreeExamples
  FeatureTreeFinal FeatureTransactionModel FeatureEditSpec FeatureTransactionSpec FeatureEditProofs FeatureTransactionExamples FeatureBuildSpec
  FeatureCloneSpec FeatureBuildExamples FeatureCloneProofs FeatureMergeSpec FeatureMergeProofs FeatureMergeFinal FeatureMergeResult.
Import ListNotations.
Local Open Scope string_scope.
Local Open Scope list_scope.

(** A heap with exactly the two given trees. *)
Definition plant2 (next : nat) (t u : tree) : heap :=
  Heap (fun i => match find (fun e => Nat.eqb (fst e) i) (entries None t ++ entries None u) with Some (_, c) => Some c | None => None end) next.

Lemma plant2_ok next t u : Forall (fun i => i < next) (ids t ++ ids u) -> heap_ok (plant2 next t u).
Proof.
  intros F i L. unfold plant2 in *. cbn [h_cells h_next] in *.
  destruct (find (fun e => Nat.eqb (fst e) i) (entries None t ++ entries None u)) as [[j c]|] eqn:E; [|reflexivity].
  apply find_some in E. destruct E as (I & E). apply Nat.eqb_eq in E. simpl in E. subst j.
  rewrite Forall_forall in F. assert (J : In i (ids t ++ ids u)).
  { rewrite <- (entries_ids None t), <- (entries_ids None u), <- map_app. apply (in_map fst _ _ I). }
  specialize (F i J). unfold nid in *; lia.
Qed.

Lemma plant2_cell next t u i c : NoDup (ids t ++ ids u) -> In (i, c) (entries None t ++ entries None u) -> h_cells (plant2 next t u) i = Some c.
Proof.
  intros D I. unfold plant2. cbn [h_cells]. rewrite <- (entries_ids None t), <- (entries_ids None u), <- map_app in D.
  induction (entries None t ++ entries None u) as [|[j e] r IH]; [destruct I|]. cbn [map fst] in D. apply NoDup_cons_iff in D. destruct D as (N & D).
  cbn [find fst]. destruct I as [E|I].
  - injection E as -> ->. rewrite Nat.eqb_refl. reflexivity.
  - destruct (Nat.eqb_spec j i) as [->|_]; [exfalso; apply N; apply (in_map fst _ _ I)|]. exact (IH D I).
Qed.

Definition sound_tree (t : tree) : Prop := roots t = [rid t] /\ NoDup (map fst (named t)) /\ grouped t.

Lemma represents_plant2 next t u : NoDup (ids t ++ ids u) -> Forall (fun i => i < next) (ids t ++ ids u) ->
  sound_tree t -> sound_tree u ->
  represents (plant2 next t u) (model_of t) t /\ represents (plant2 next t u) (model_of u) u.
Proof.
  intros D L (A1 & A2 & A3) (B1 & B2 & B3). pose proof (plant2_ok next t u L) as O. pose proof (nodup_app (ids t) (ids u)) as Dn.
  split; constructor; try assumption; try reflexivity; try (apply Dn; assumption).
  - intros i c I. apply plant2_cell; [exact D|]. apply in_or_app. left. exact I.
  - intros i c I. apply plant2_cell; [exact D|]. apply in_or_app. right. exact I.
Qed.
Ltac sound :=
  split; [reflexivity|split;
  [cbn; repeat (constructor; [cbn; intuition congruence|]); constructor
  |repeat (first [apply grouped_feature; [cbn; lia|]|apply grouped_relationship|apply Forall_cons|apply Forall_nil]); reflexivity]].
Ltac planted2 :=
  apply represents_plant2;
  [repeat (constructor; [cbn; intuition congruence|]); constructor
  |repeat constructor; lia
  |sound|sound].

Definition at_file (s : string) : source_range := SourceRange (T s) None None Necessary None None.
Definition feature_in (k : fkind) (s : string) (o : bool) (ls : list source_range) : ndata := NFeature (new_feature k (T s) o ls []).

(** r with a group of a and b, a with a numeric feature n. *)
Definition tree20 : tree :=
  Node 0 (feature_in FRoot "r" false [at_file "x"])
    [Node 1 (NRelationship RAlternative)
       [Node 2 (feature_in FBinary "a" false [at_file "x"]) [Node 4 (feature_in (FNumeric (VRange 0 9) None) "n" true []) []];
        Node 3 (binary "b") []]].
(** r with a, which has d, and with a group of e and f. *)
Definition tree21 : tree :=
  Node 5 (feature_in FRoot "r" false [at_file "x"; at_file "y"])
    [Node 6 (feature_in FBinary "a" false [at_file "x"; at_file "z"]) [Node 7 (feature_in FBinary "d" true [at_file "w"]) []];
     Node 8 (NRelationship ROr) [Node 9 (binary "e") []; Node 10 (binary "f") []]].
Definition heap20 : heap := plant2 11 tree20 tree21.
Definition model20 : fmodel := model_of tree20.
Definition model21 : fmodel := model_of tree21.

Lemma represents20 : represents heap20 model20 tree20 /\ represents heap20 model21 tree21.
Proof. planted2. Qed.
Lemma connected20 : all_connected heap20 model20.
Proof. intros e []. Qed.
Lemma free20 : root_name_free model20.
Proof. intros i E. vm_compute in E. discriminate E. Qed.
Lemma shared20 : root_shared model20 model21.
Proof. exists (T "r"), 5. split; [reflexivity|]. split; [reflexivity|]. exists 0. reflexivity. Qed.

(** Checking an example. *)
Definition fit_check (strict : bool) (h : heap) (m1 : fmodel) (e : text * nid) : bool :=
  match get_feature m1 (fst e) with
  | Some i => match compare_properties h i (snd e) strict with Some b => b | None => false end
  | None => match feature_at h (snd e) with Some g => match f_kind g with FUnknown => false | _ => true end | None => false end
  end.
Lemma mergeable_check strict h m1 m2 t1 t2 : represents h m1 t1 -> represents h m2 t2 ->
  (mergeable strict h m1 m2 <-> forallb (fit_check strict h m1) (m_features m2) = true).
Proof.
  intros R1 R2. rewrite forallb_forall. split.
  - intros M (s, j) I. pose proof (proj2 (rep_find R2 s j) (Permutation_in _ (rep_features _ _ _ R2) I)) as G.
    destruct (first_feature_of h m2 t2 R2 s j G) as (g & Fg).
    specialize (M s j g G Fg). unfold fits, fit_check in *. cbn [fst snd]. destruct (get_feature m1 s) as [i|] eqn:G1.
    + destruct M as (f & Ff & M). destruct (compare_spec h m1 m2 t1 t2 R1 R2 strict s i j f g G1 G Ff Fg) as (b & E & S). rewrite E. apply S. exact M.
    + rewrite Fg. destruct (f_kind g); try reflexivity. exfalso. apply M. reflexivity.
  - intros C s j g G Fg. pose proof (Permutation_in _ (Permutation_sym (rep_features _ _ _ R2)) (proj1 (rep_find R2 s j) G)) as I.
    specialize (C _ I). unfold fits, fit_check in *. cbn [fst snd] in C. destruct (get_feature m1 s) as [i|] eqn:G1.
    + destruct (first_feature_of h m1 t1 R1 s i G1) as (f & Ff). exists f. split; [exact Ff|].
      destruct (compare_spec h m1 m2 t1 t2 R1 R2 strict s i j f g G1 G Ff Fg) as (b & E & S). rewrite E in C. apply S. exact C.
    + rewrite Fg in C. destruct (f_kind g); congruence.
Qed.

Lemma mergeable20 : mergeable false heap20 model20 model21.
Proof. apply (mergeable_check _ _ _ _ _ _ (proj1 represents20) (proj2 represents20)). vm_compute. reflexivity. Qed.
Lemma unmergeable20 : ~ mergeable true heap20 model20 model21.
Proof. intros M. apply (mergeable_check _ _ _ _ _ _ (proj1 represents20) (proj2 represents20)) in M. vm_compute in M. discriminate M. Qed.

(** What is shown of a model in the examples: every feature with the name of the
    feature above it and the files of its source ranges. *)
Definition shown (h : heap) (m : fmodel) : option (list (text * option text * list text)) :=
  fold_right (fun e o =>
    let* r := o in
    let* f := feature_at h (snd e) in
    let* p := parent_feature h (snd e) in
    Some ((fst e, match p with Some q => name_at h q | None => None end, map sr_path (f_locations f)) :: r)) (Some []) (m_features m).

Lemma merge_example :
  represents heap20 model20 tree20 /\ represents heap20 model21 tree21 /\ all_connected heap20 model20 /\ root_name_free model20 /\
  root_shared model20 model21 /\ mergeable false heap20 model20 model21 /\
  (let* (h', o) := merge_models order (@rev _) heap20 model20 model21 false in
   let* m' := o in let* l := shown h' m' in Some (l, List.length (m_relationships m'))) =
  Some ([(T "b", Some (T "r"), []); (T "n", Some (T "a"), []); (T "a", Some (T "r"), [T "x"; T "z"]); (T "r", None, [T "y"]);
         (T "f", Some (T "r"), []); (T "e", Some (T "r"), []); (T "d", Some (T "a"), [T "w"])], 1).
Proof.
  split; [apply represents20|]. split; [apply represents20|]. split; [exact connected20|]. split; [exact free20|]. split; [exact shared20|]. split; [exact mergeable20|].
  vm_compute. reflexivity.
Qed.
Lemma refuse_example :
  represents heap20 model20 tree20 /\ represents heap20 model21 tree21 /\ all_connected heap20 model20 /\ root_name_free model20 /\
  ~ mergeable true heap20 model20 model21.
Proof.
  split; [apply represents20|]. split; [apply represents20|]. split; [exact connected20|]. split; [exact free20|]. exact unmergeable20.
Qed.

(** The root of the second model has another name. *)
Definition tree22 : tree := Node 5 (rootd "q") [Node 6 (binary "y") []].
Definition heap22 : heap := plant2 7 tree20 tree22.
Definition model22 : fmodel := model_of tree22.
Lemma represents22 : represents heap22 model20 tree20 /\ represents heap22 model22 tree22.
Proof. planted2. Qed.
Lemma undefined_example :
  represents heap22 model20 tree20 /\ represents heap22 model22 tree22 /\ all_connected heap22 model20 /\ root_name_free model20 /\
  ~ root_shared model20 model22 /\ mergeable true heap22 model20 model22.
Proof.
  split; [apply represents22|]. split; [apply represents22|]. split; [intros e []|]. split; [exact free20|]. split.
  - intros (s & r & E & G & (i & K)). apply (rep_find (proj2 represents22)) in G. apply (rep_find (proj1 represents22)) in K. cbn in E, G, K.
    injection E as <-. destruct G as [G|[G|[]]]; [|discriminate G]. apply (f_equal fst) in G. cbn in G. subst s. intuition discriminate.
  - apply (mergeable_check _ _ _ _ _ _ (proj1 represents22) (proj2 represents22)). vm_compute. reflexivity.
Qed.

(** The source range of both roots is in the merged model no more. *)
Lemma root_ranges_refuted : exists ord map_order h m1 m2 t1 t2 s i f j g l h' m' i' f',
  is_order ord /\ (forall l, Permutation (map_order l) l) /\ represents h m1 t1 /\ represents h m2 t2 /\ all_connected h m1 /\ root_name_free m1 /\
  root_shared m1 m2 /\ mergeable false h m1 m2 /\
  get_feature m1 s = Some i /\ feature_at h i = Some f /\ In l (f_locations f) /\
  get_feature m2 s = Some j /\ feature_at h j = Some g /\ In l (f_locations g) /\
  merge_models ord map_order h m1 m2 false = Some (h', Some m') /\
  get_feature m' s = Some i' /\ feature_at h' i' = Some f' /\ ~ In l (f_locations f').
Proof.
  destruct represents20 as (R1 & R2).
  destruct (merge_success order order_ok (@rev _) (fun l => Permutation_sym (Permutation_rev l)) heap20 model20 model21 tree20 tree21 false R1 R2
    connected20 free20 shared20 mergeable20) as (h' & m' & E & M & _).
  destruct (mg_first _ _ _ _ _ M (T "r") 0 (new_feature FRoot (T "r") false [at_file "x"] []) eq_refl eq_refl) as (i' & f' & f0 & ls & G & F & K & Ga & ->).
  exists order, (@rev _), heap20, model20, model21, tree20, tree21, (T "r"), 0, (new_feature FRoot (T "r") false [at_file "x"] []),
    5, (new_feature FRoot (T "r") false [at_file "x"; at_file "y"] []), (at_file "x"), h', m', i'. eexists.
  split; [exact order_ok|]. split; [exact (fun l => Permutation_sym (Permutation_rev l))|]. split; [exact R1|]. split; [exact R2|].
  split; [exact connected20|]. split; [exact free20|]. split; [exact shared20|]. split; [exact mergeable20|].
  split; [reflexivity|]. split; [reflexivity|]. split; [left; reflexivity|]. split; [reflexivity|]. split; [reflexivity|]. split; [left; reflexivity|].
  split; [exact E|]. split; [exact G|]. split; [exact F|].
  destruct K as (_ & _ & _ & _ & L0). cbn [f_locations with_locations]. rewrite L0. cbn [app].
  unfold gained_ranges in Ga. change (get_feature model21 (T "r")) with (Some 5) in Ga. destruct Ga as (g & Fg & keep & -> & Kp).
  intros I. apply filter_In in I. destruct I as (_ & Kx). apply Kp in Kx. apply Kx. exists (at_file "x"). split; [left; reflexivity|vm_compute; reflexivity].
Qed.
