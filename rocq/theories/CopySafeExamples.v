(** Examples for copy transactions. *)
From Coq Require Import List ZArith Arith Bool Ascii String Permutation Lia.
From Verif Require Import Text TextProofs ConstraintModel ConstraintSpec SourceRangeModel FeatureTreeModel FeatureTreeSpec FeatureTreeProofs FeatureTransactionModel FeatureTransactionSpec FeatureEditSpec FeatureEditProofs FeatureOpsProofs FeatureGroupProofs FeatureTransactionFinal
  FeatureTransactionExamples FeatureBuildSpec FeatureBuildExamples FeatureCloneSpec XmlModel XmlSpec RegisterSpec SafeSpec SafeProofs CopySafeSpec CopySafeProofs SafeMadeSpec SafeFinal SafeExamples.
Import ListNotations.
Local Open Scope string_scope.
Local Open Scope list_scope.
Local Open Scope nat_scope.

(** The model of C77 after its modifications: base with g, which has the alternatives a and b. *)
Lemma world78_made : made (fst world78) (snd world78).
Proof.
  assert (E : exists t, commit_modify order (Mtx true queue77) (fst world77, snd world77) = Some (t, world78, None)) by (eexists; vm_compute; reflexivity). destruct E as (t & E).
  eapply (made_modified order _ _ queue77 t world78 None order_ok world77_made); [rewrite <- surjective_pairing; exact queue77_careful|exact E].
Qed.
Lemma world78_root : root_name_free (snd world78).
Proof. intros i. knows. Qed.
Definition kept_map (l : list (text * nid)) : list (text * nid) := l.
Definition copy78 : heap * fmodel := match clone_model order kept_map (fst world78) (snd world78) with Some w => w | None => world78 end.
Lemma copy78_opens : open_copy order kept_map (fst world78) (snd world78) = Some (fst copy78, Ctx (Some (snd copy78)) true).
Proof. vm_compute. reflexivity. Qed.

(** The caller points to the features of the original: x is added below g, g is to be moved,
    which does nothing, and x gets a group. *)
Definition calls79 : list op := [OAddFeature (bin "x") (Some 1); OAddChild (ByPtr 0) (ByPtr 1); OSetName (T "copy"); OAddRelationship ROr (ByName (T "x"))].
Lemma careful_copy_step o o' os w : fine o' w = true -> meant w o o' -> allowed w o' -> defined_op w o' -> spares w o' -> fresh_op o' -> careful_copy order (after o' w) os -> careful_copy order w (o :: os).
Proof.
  unfold fine, after. intros F M A D S Fr C. eapply careful_copy_next; eauto. intros w' e E. rewrite E in F, C. destruct e; [discriminate|]. exact C.
Qed.
Lemma pair_of {A B} (w : A * B) : w = (fst w, snd w).
Proof. destruct w; reflexivity. Qed.
Lemma add79_meant : meant copy78 (OAddFeature (bin "x") (Some 1)) (OAddFeature (bin "x") (get_feature (snd copy78) (T "g"))).
Proof. apply meant_add. vm_compute. reflexivity. Qed.
Definition add79 : op := OAddFeature (bin "x") (Some 9).
Lemma add79_is : OAddFeature (bin "x") (get_feature (snd copy78) (T "g")) = add79.
Proof. vm_compute. reflexivity. Qed.
Lemma add79_allowed : allowed copy78 add79.
Proof. unfold allowed. rewrite (pair_of copy78). split; [discriminate|]. intros q E. injection E as <-. vm_compute. tauto. Qed.
Local Notation world79 := (after (OSetName (T "copy")) (after add79 copy78)) (only parsing).
Lemma x79 : get_feature (snd world79) (T "x") = Some 15.
Proof. vm_compute. reflexivity. Qed.
Lemma x79_named : name_at (fst world79) 15 = Some (T "x").
Proof. vm_compute. reflexivity. Qed.
Lemma x79_cell : exists c, h_cells (fst world79) 15 = Some c /\ n_edges c = [].
Proof. eexists. split; [vm_compute; reflexivity|]. vm_compute. reflexivity. Qed.
Lemma x79_known : In 15 (map snd (m_features (snd world79))).
Proof. vm_compute. tauto. Qed.
Lemma group79_meant : meant world79 (OAddRelationship ROr (ByName (T "x"))) (OAddRelationship ROr (ByPtr 15)).
Proof. apply meant_group. exists (T "x"). split; [|exact x79]. exists 15. split; [exact x79|exact x79_named]. Qed.
Lemma group79_allowed : allowed world79 (OAddRelationship ROr (ByPtr 15)).
Proof.
  unfold allowed. rewrite (pair_of world79). split; [exact x79_known|]. intros p E. injection E as <-. intros (x & N). destruct x79_cell as (c0 & C0 & E0).
  inversion N as [? c ? cx C1 I1 C2 T2|? c y cy ? ? C1 I1 C2 T2 N2]; subst; rewrite C0 in C1; injection C1 as <-; rewrite E0 in I1; destruct I1.
Qed.
Lemma rest79 : careful_copy order world79 [OAddRelationship ROr (ByName (T "x"))].
Proof.
  apply (careful_copy_step _ (OAddRelationship ROr (ByPtr 15))).
  { vm_compute; reflexivity. }
  { exact group79_meant. }
  { exact group79_allowed. }
  { unfold defined_op. rewrite (pair_of world79). exists 15. reflexivity. }
  { unfold spares. rewrite (pair_of world79). exact Logic.I. }
  { exact Logic.I. }
  constructor.
Qed.
Lemma calls79_careful : careful_copy order copy78 calls79.
Proof.
  unfold calls79. apply (careful_copy_step _ add79).
  { vm_compute; reflexivity. }
  { rewrite <- add79_is. exact add79_meant. }
  { exact add79_allowed. }
  { unfold defined_op. rewrite (pair_of copy78). exact Logic.I. }
  { unfold spares. rewrite (pair_of copy78). exact Logic.I. }
  { repeat split; reflexivity. }
  apply careful_copy_idle; [constructor|].
  apply (careful_copy_step _ (OSetName (T "copy"))).
  { vm_compute; reflexivity. }
  { constructor. }
  { unfold allowed. rewrite (pair_of (after add79 copy78)). exact Logic.I. }
  { unfold defined_op. rewrite (pair_of (after add79 copy78)). exact Logic.I. }
  { unfold spares. rewrite (pair_of (after add79 copy78)). exact Logic.I. }
  { exact Logic.I. }
  exact rest79.
Qed.
Definition shown79 (h : heap) (t : ctx) : option (list text * list text) :=
  let* (r, _) := commit_copy h t in let* m := r in let* i := get_feature m (T "x") in let* p := parent_feature h i in let* q := p in let* s := name_at h q in Some ([m_name m; s], map fst (m_features m)).
Lemma copy_example :
  made (fst world78) (snd world78) /\ root_name_free (snd world78) /\ open_copy order kept_map (fst world78) (snd world78) = Some (fst copy78, Ctx (Some (snd copy78)) true) /\ careful_copy order copy78 calls79 /\
  (let* (h2, t2) := copy_run order calls79 (fst copy78) (Ctx (Some (snd copy78)) true) in shown79 h2 t2) = Some ([T "copy"; T "g"], [T "g"; T "a"; T "b"; T "base"; T "x"]) /\
  all_meant order copy78 [OSetName (T "copy"); OSetCommit (T "c")] [OSetName (T "copy"); OSetCommit (T "c")] (after (OSetCommit (T "c")) (after (OSetName (T "copy")) copy78)).
Proof.
  split; [exact world78_made|]. split; [exact world78_root|]. split; [exact copy78_opens|]. split; [exact calls79_careful|]. split; [vm_compute; reflexivity|].
  eapply all_meant_next; [constructor|vm_compute; reflexivity|]. eapply all_meant_next; [constructor|vm_compute; reflexivity|]. vm_compute. constructor.
Qed.

(** The parent is gone from the copy: the feature is added below the root. *)
Lemma wrong_parent : exists ord map_order h m p f h1 t1 h2 t2 h3 t3 m' t4 i r,
  is_order ord /\ (forall l, Permutation (map_order l) l) /\ sound h m /\ In p (map snd (m_features m)) /\ m_root m <> Some p /\ open_copy ord map_order h m = Some (h1, t1) /\
  copy_exec ord (ORemoveFeature (ByPtr p) false) h1 t1 = Some (h2, t2, None) /\ copy_exec ord (OAddFeature f (Some p)) h2 t2 = Some (h3, t3, None) /\
  commit_copy h3 t3 = Some (Some m', t4) /\ get_feature m' (f_name f) = Some i /\ m_root m' = Some r /\ feature_above h3 i r.
Proof.
  exists order, kept_map, (fst world78), (snd world78), 3, (bin "x"), (fst copy78), (Ctx (Some (snd copy78)) true).
  assert (E : exists h2 t2, copy_exec order (ORemoveFeature (ByPtr 3) false) (fst copy78) (Ctx (Some (snd copy78)) true) = Some (h2, t2, None) /\
    exists h3 t3, copy_exec order (OAddFeature (bin "x") (Some 3)) h2 t2 = Some (h3, t3, None) /\ exists m' t4, commit_copy h3 t3 = Some (Some m', t4) /\ exists i r, get_feature m' (T "x") = Some i /\ m_root m' = Some r /\
      exists c cr, h_cells h3 i = Some c /\ n_parent c = Some r /\ h_cells h3 r = Some cr /\ is_feature (n_data cr) = true).
  { eexists _, _. split; [vm_compute; reflexivity|]. eexists _, _. split; [vm_compute; reflexivity|]. eexists _, _. split; [vm_compute; reflexivity|]. eexists _, _. split; [vm_compute; reflexivity|]. split; [reflexivity|].
    eexists _, _. split; [vm_compute; reflexivity|]. split; [reflexivity|]. split; reflexivity. }
  destruct E as (h2 & t2 & E2 & h3 & t3 & E3 & m' & t4 & E4 & i & r & Gi & Gr & c & cr & Ci & Pi & Cr & Fr). exists h2, t2, h3, t3, m', t4, i, r.
  split; [exact order_ok|]. split; [intros l; apply Permutation_refl|]. split; [exact (made_sound _ _ world78_made)|]. split; [vm_compute; tauto|]. split; [intros X; revert X; knows|].
  split; [exact copy78_opens|]. split; [exact E2|]. split; [exact E3|]. split; [exact E4|]. split; [exact Gi|]. split; [exact Gr|]. exact (above_here h3 i c r cr Ci Pi Cr Fr).
Qed.
(** A call is refused, and the copy is handed out all the same; a modify transaction stops. *)
Lemma not_aborted : exists ord map_order h m h1 m1 o o' h2 t2 e h3 t3 m' t4,
  is_order ord /\ (forall l, Permutation (map_order l) l) /\ sound h m /\ open_copy ord map_order h m = Some (h1, Ctx (Some m1) true) /\
  copy_exec ord o h1 (Ctx (Some m1) true) = Some (h2, t2, Some e) /\ copy_exec ord o' h2 t2 = Some (h3, t3, None) /\ commit_copy h3 t3 = Some (Some m', t4) /\ m_name m' <> m_name m /\
  exists w t, commit_modify ord (Mtx true [o; o']) (h1, m1) = Some (t, w, Some e) /\ m_name (snd w) = m_name m.
Proof.
  exists order, kept_map, (fst world78), (snd world78), (fst copy78), (snd copy78), (OAddFeature (bin "a") None), (OSetName (T "copy")).
  assert (E : exists h2 t2 e, copy_exec order (OAddFeature (bin "a") None) (fst copy78) (Ctx (Some (snd copy78)) true) = Some (h2, t2, Some e) /\
    exists h3 t3, copy_exec order (OSetName (T "copy")) h2 t2 = Some (h3, t3, None) /\ exists m' t4, commit_copy h3 t3 = Some (Some m', t4) /\ m_name m' = T "copy" /\
    exists w t, commit_modify order (Mtx true [OAddFeature (bin "a") None; OSetName (T "copy")]) (fst copy78, snd copy78) = Some (t, w, Some e) /\ m_name (snd w) = m_name (snd world78)).
  { eexists _, _, _. split; [vm_compute; reflexivity|]. eexists _, _. split; [vm_compute; reflexivity|]. eexists _, _. split; [vm_compute; reflexivity|]. split; [reflexivity|]. eexists _, _. split; [vm_compute; reflexivity|]. vm_compute. reflexivity. }
  destruct E as (h2 & t2 & e & E2 & h3 & t3 & E3 & m' & t4 & E4 & Nm & w & t & E5 & Nw). exists h2, t2, e, h3, t3, m', t4.
  split; [exact order_ok|]. split; [intros l; apply Permutation_refl|]. split; [exact (made_sound _ _ world78_made)|]. split; [exact copy78_opens|]. split; [exact E2|]. split; [exact E3|]. split; [exact E4|].
  split; [|eauto]. rewrite Nm. assert (N : m_name (snd world78) = T "FeatureModel") by (vm_compute; reflexivity). rewrite N. discriminate.
Qed.
